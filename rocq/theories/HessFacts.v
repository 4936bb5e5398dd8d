(** The Hessenberg transform, for arbitrary scalar operations: closed forms. *)
From Coq Require Import ZArith List Lia Bool.
From Verif Require Import Base BaseLemmas Wpe Scalar Vector VecSpec VectorFacts Matrix MatSpec MatFacts Array2D BlockM Diagonal RealMatrixM Array2DFacts MatrixOps MatHist MatProps BlockFacts RealMat2 RealMat3 TabTac FSum CholFacts LUFacts2 QRFacts Hess HessSpec.
Import ListNotations.
Open Scope Z_scope.

Section HessFacts.
Context {O : Ops}.

(** ((x + g (hi-1)) + g (hi-2)) + ... + g lo *)
Definition faddd (x : F) (lo hi : Z) (g : Z -> F) : F := accum (fun t s => (s + g (hi - 1 - t)%Z)%f) (Z.to_nat (hi - lo)) x.
Lemma faddd_nil x lo hi g : hi <= lo -> faddd x lo hi g = x.
Proof. intros. unfold faddd. replace (Z.to_nat (hi - lo)) with 0%nat by lia. auto. Qed.
Lemma faddd_S x lo hi g : lo < hi -> faddd x lo hi g = (faddd x (lo + 1) hi g + g lo)%f.
Proof.
  intros. unfold faddd. replace (hi - lo) with (hi - (lo + 1) + 1) by lia. rewrite accum_S by lia. do 2 f_equal. lia.
Qed.
Lemma faddd_ext x lo hi g h : (forall t, lo <= t < hi -> g t = h t) -> faddd x lo hi g = faddd x lo hi h.
Proof. intros H. apply TabTac.accum_ext. intros. rewrite H by lia. auto. Qed.
Lemma for_addd (g : Z -> F) lo hi body x : lo <= hi + 1 -> (forall k s, lo <= k <= hi -> body k s = Ok (s + g k)%f) ->
  for_down hi lo body x = Ok (faddd x lo (hi + 1) g).
Proof.
  intros Hn Hb. enough (W : wp (for_down hi lo body x) (fun r => r = faddd x lo (hi + 1) g)) by (destruct W as (r & E & ->); auto).
  apply (wp_for_down (fun k r => r = faddd x k (hi + 1) g)); auto; try lia.
  - rewrite faddd_nil by lia. auto.
  - intros i r Hi ->. rewrite Hb by lia. apply wp_ok. rewrite (faddd_S x i) by lia. auto.
Qed.

Section Step.
Variable n : Z.
Variable M : Z -> Z -> F.
Variable m : Z.
Definition hs_scale : F := fadds fzero m n (fun i => fabs (M i (m - 1)%Z)).
Definition hs_o (i : Z) : F := (M i (m - 1)%Z / hs_scale)%f.
Definition hs_h0 : F := faddd fzero m n (fun i => hs_o i * hs_o i)%f.
Definition hs_g : F := if fgt (hs_o m) fzero then (fsqrt hs_h0 * fneg fone)%f else fsqrt hs_h0.
Definition hs_h : F := (hs_h0 - hs_o m * hs_g)%f.
Definition hs_u (i : Z) : F := if i =? m then (hs_o m - hs_g)%f else hs_o i.
Definition hs_l (i j : Z) : F := if (m <=? i) && (m <=? j) then (M i j - (faddd fzero m n (fun t => hs_u t * M t j) / hs_h) * hs_u i)%f else M i j.
Definition hs_r (i j : Z) : F := if m <=? j then (hs_l i j - (faddd fzero m n (fun t => hs_u t * hs_l i t) / hs_h) * hs_u j)%f else hs_l i j.
Definition hs_M (i j : Z) : F := if fulp1 hs_scale fzero then M i j else if (i =? m) && (j =? m - 1) then (hs_scale * hs_g)%f else hs_r i j.
Definition hs_D (D : Z -> F) (i : Z) : F :=
  if fulp1 hs_scale fzero then D i else if i <? m then D i else if i =? m then (hs_scale * hs_u m)%f else hs_u i.
End Step.
Definition hs_iter (n : Z) (A : Z -> Z -> F) (k : Z) : (Z -> Z -> F) * (Z -> F) :=
  accum (fun t s => (hs_M n (fst s) (t + 1), hs_D n (fst s) (t + 1) (snd s))) (Z.to_nat k) (A, fun _ => fzero).

Lemma hs_step_ok n hv M ort D m : RTab hv n n M -> VTab ort n D -> 1 <= m < n ->
  wp (hs_step n m (hv, ort)) (fun s => RTab (fst s) n n (hs_M n M m) /\ VTab (snd s) n (hs_D n M m D)).
Proof.
  intros H HD Hm. unfold hs_step. replace (n - 1 + 1) with n by lia.
  rewrite (for_adds (fun i => fabs (M i (m - 1)))) by (try lia; intros; tget; auto). cbn [bind]. fold (hs_scale n M m).
  unfold hs_M, hs_D. destruct (fulp1 (hs_scale n M m) fzero) eqn:Es; [apply wp_ok; auto|].
  apply wp_bind. apply (wp_for_down (fun k s => VTab (fst s) n (fun i => if k <=? i then hs_o n M m i else D i) /\ snd s = faddd fzero k n (fun i => hs_o n M m i * hs_o n M m i)%f)); [lia| | |].
  { replace (n - 1 + 1) with n by lia. cbn [fst snd]. rewrite faddd_nil by lia. split; auto. eapply VTab_ext; [exact HD|]. intros. cbn beta. zbq; auto. }
  { intros i [o h] Hi [Ho Eh]. cbn [fst snd] in *. tget. fold (hs_o n M m i). vput o2 Ho2. repeat vget. rewrite !Z.eqb_refl. apply wp_ok. cbn [fst snd]. split.
    - eapply VTab_ext; [exact Ho2|]. intros p Hp. cbn beta. zbq; subst; auto.
    - rewrite (faddd_S fzero i) by lia. rewrite <- Eh. auto. }
  intros [o h] [Ho Eh]. cbn [fst snd] in *. fold (hs_h0 n M m) in Eh. subst h. vget. rewrite Z.leb_refl.
  match goal with |- context [if fgt ?a ?b then ?c else ?d] => change (if fgt a b then c else d) with (hs_g n M m) end.
  repeat vget. rewrite ?Z.leb_refl. fold (hs_h n M m). vput o2 Ho2.
  assert (Ho3 : VTab o2 n (fun i => if m <=? i then hs_u n M m i else D i)).
  { eapply VTab_ext; [exact Ho2|]. intros i Hi. cbn beta. unfold hs_u. zbq; auto. }
  clear Ho2. apply wp_bind.
  (* from the left *)
  apply (wp_for (fun c d => RTab d n n (fun i j => if j <? c then hs_l n M m i j else M i j))); [lia| | |].
  { eapply RTab_ext; [exact H|]. intros i j Hi Hj. cbn beta. unfold hs_l. zbq; auto. }
  { intros j d Hj Hd. rewrite (for_addd (fun t => hs_u n M m t * M t j)%f) by (try lia; intros; vget; tget; zbq; auto). cbn [bind].
    replace (n - 1 + 1) with n by lia.
    apply (wp_colloop (fun i => M i j - (faddd fzero m n (fun t => hs_u n M m t * M t j) / hs_h n M m) * hs_u n M m i)%f d n n _ j m n _ _ Hd); try lia.
    - intros i d' Hi Hd'. vget. tget. f_equal. unfold colpart. f_equal; zbq; auto.
    - intros d' Hd'. eapply RTab_ext; [exact Hd'|]. intros p q Hp Hq. cbn beta. unfold hs_l. rp. }
  intros d1 H1. assert (H2 : RTab d1 n n (hs_l n M m)) by (eapply RTab_ext; [exact H1|]; intros; cbn beta; zbq; auto). clear H1 H. apply wp_bind.
  (* from the right *)
  apply (wp_for (fun c d => RTab d n n (fun i j => if i <? c then hs_r n M m i j else hs_l n M m i j))); [lia| | |].
  { eapply RTab_ext; [exact H2|]. intros i j Hi Hj. cbn beta. zbq; auto. }
  { intros i d Hi Hd. rewrite (for_addd (fun t => hs_u n M m t * hs_l n M m i t)%f) by (try lia; intros; vget; tget; zbq; auto). cbn [bind].
    replace (n - 1 + 1) with n by lia.
    apply (wp_rowloop (fun j => hs_l n M m i j - (faddd fzero m n (fun t => hs_u n M m t * hs_l n M m i t) / hs_h n M m) * hs_u n M m j)%f d n n _ i m n _ _ Hd); try lia.
    - intros j d' Hj Hd'. vget. tget. f_equal. unfold rowpart. f_equal; zbq; auto.
    - intros d' Hd'. eapply RTab_ext; [exact Hd'|]. intros p q Hp Hq. cbn beta. unfold hs_r. rp. }
  intros d2 H3. vget. rewrite Z.leb_refl. vput o3 Ho4. tput d3 H4. apply wp_ok. cbn [fst snd]. split.
  - eapply RTab_ext; [exact H4|]. intros p q Hp Hq. cbn beta. unfold tset. zbq; auto.
  - eapply VTab_ext; [exact Ho4|]. intros p Hp. cbn beta. zbq; auto.
Qed.

Lemma hs_new_spec x n A : library x -> MatIs x n n A -> 1 <= n ->
  wp (NewHessenbergTransformer x) (fun d => RTab (hs_hv d) n n (fst (hs_iter n A (n - 2))) /\ VTab (hs_ort d) n (snd (hs_iter n A (n - 2))) /\
    hs_cachedP d = None /\ hs_cachedPt d = None /\ hs_cachedH d = None).
Proof.
  intros Hl Hx Hn. unfold NewHessenbergTransformer, IsSquare. rewrite (MatIs_rows _ _ _ _ Hx), (MatIs_cols _ _ _ _ Hx). cbn [bind]. rewrite Z.eqb_refl. cbn [negb].
  apply wp_bind. eapply wp_conseq; [apply (m_Data_ok x n n _ Hl Hx)|]. cbn beta. intros hv Hv.
  destruct (make_VTab n ltac:(lia)) as (ort & -> & Ho). cbn [bind]. rewrite (RTab_len _ _ _ _ Hv). apply wp_bind.
  destruct (Z.eq_dec n 1) as [->|Hn1].
  { rewrite for_nil by lia. apply wp_ok. apply wp_ok. cbn. auto. }
  apply (wp_for (fun k s => RTab (fst s) n n (fst (hs_iter n A (k - 1))) /\ VTab (snd s) n (snd (hs_iter n A (k - 1))))); [lia| | |].
  - auto.
  - intros k [hv1 o1] Hk [H1 H2]. eapply wp_conseq; [apply (hs_step_ok n hv1 _ o1 _ k H1 H2); lia|]. cbn beta.
    intros s [Hs1 Hs2]. unfold hs_iter in *. replace (k + 1 - 1) with (k - 1 + 1) by lia. rewrite accum_S by lia. cbn [fst snd].
    replace (k - 1 + 1) with k by lia. split; auto.
  - intros [hv1 o1] [H1 H2]. apply wp_ok. cbn. replace (n - 2) with (n - 1 - 1) by lia. auto.
Qed.
Lemma hs_new_nonsquare x r c A : MatIs x r c A -> r <> c -> NewHessenbergTransformer x = Err ENonSquare.
Proof.
  intros Hx Hr. unfold NewHessenbergTransformer, IsSquare. rewrite (MatIs_rows _ _ _ _ Hx), (MatIs_cols _ _ _ _ Hx). cbn [bind].
  destruct (Z.eqb_spec c r); [congruence|]. reflexivity.
Qed.

(** ** Accessors *)
Section Tabs.
Variable n : Z.
Variable M : Z -> Z -> F.
Variable D : Z -> F.
Definition hs_tabH (i j : Z) : F := if (i <=? j) || (i =? j + 1) then M i j else fzero.
Definition hp_w (m i : Z) : F := if i =? m then D m else M i (m - 1)%Z.
Definition hp_step (m : Z) (T : Z -> Z -> F) (i j : Z) : F :=
  if feq (M m (m - 1)%Z) fzero then T i j else
  if (m <=? i) && (m <=? j) then (T i j + (fadds fzero m n (fun t => hp_w m t * T t j) / D m / M m (m - 1)%Z) * hp_w m i)%f else T i j.
(** After the steps n-2, ..., k. *)
Definition hp_iter (k : Z) : Z -> Z -> F := accum (fun t T => hp_step (n - 2 - t) T) (Z.to_nat (n - 1 - k)) (fun i j => if i =? j then fone else fzero).
Definition hs_tabP : Z -> Z -> F := hp_iter 1.
Lemma hp_iter_S k : k < n - 1 -> hp_iter k = hp_step k (hp_iter (k + 1)).
Proof.
  intros Hk. unfold hp_iter. replace (n - 1 - k) with (n - 1 - (k + 1) + 1) by lia. rewrite accum_S by lia. f_equal. lia.
Qed.
Definition hs_ok (d : HsD) : Prop :=
  RTab (hs_hv d) n n M /\ (hs_cachedP d = None -> VTab (hs_ort d) n D) /\
  tcache (hs_cachedP d) n n hs_tabP /\ tcache (hs_cachedPt d) n n (fun i j => hs_tabP j i) /\ tcache (hs_cachedH d) n n hs_tabH.
End Tabs.
Ltac hsok := refine (conj _ (conj _ (conj _ (conj _ _)))); try discriminate; auto; try (split; auto; fail).

Lemma hs_H_ok n M D d : 1 <= n -> hs_ok n M D d ->
  wp (hs_H d) (fun r => general (fst r) /\ MatIs (fst r) n n (hs_tabH M) /\ hs_ok n M D (snd r)).
Proof.
  intros Hn (HT & HD & CP & CPt & CH). unfold hs_H. destruct (hs_cachedH d) as [r|] eqn:Ec.
  - apply wp_ok. cbn [fst snd]. destruct CH as [G1 G2]. refine (conj G1 (conj G2 _)). unfold hs_ok. rewrite Ec. hsok.
  - rewrite (RTab_len _ _ _ _ HT). apply wp_bind. eapply wp_conseq; [apply (make2_spec n n); lia|]. cbn beta. intros h0 H0. apply wp_bind.
    apply (wp_for (fun k h => RTab h n n (fun i j => if i <? k then hs_tabH M i j else fzero))); [lia| | |].
    + eapply RTab_ext; [exact H0|]. intros i j Hi Hj. cbn beta. zbq; auto.
    + intros i h Hi Hh. apply wp_bind.
      assert (K : wp (if 0 <? i then let* x := mget (hs_hv d) i (i - 1) in mset h i (i - 1) x else Ok h)
        (fun h => RTab h n n (fun p q => if (p <? i) || (p =? i) && (p =? q + 1) then hs_tabH M p q else fzero))).
      { destruct (Z.ltb_spec 0 i).
        - tget. destruct (RTab_set h n n _ i (i - 1) (M i (i - 1)) Hh) as (h2 & -> & H2); [lia|lia|]. apply wp_ok.
          eapply RTab_ext; [exact H2|]. intros p q Hp Hq. cbn beta. unfold tset, hs_tabH. zbq; subst; auto; f_equal; lia.
        - apply wp_ok. eapply RTab_ext; [exact Hh|]. intros p q Hp Hq. cbn beta. zbq; auto. }
      eapply wp_conseq; [exact K|]. cbn beta. intros h1 H1.
      apply (wp_rowloop (fun j => M i j) h1 n n _ i i n _ _ H1); try lia.
      * intros j h' Hj H'. tget. auto.
      * intros h' H'. eapply RTab_ext; [exact H'|]. intros p q Hp Hq. cbn beta. unfold hs_tabH. rp.
    + intros h Hh. assert (H2 : RTab h n n (hs_tabH M)) by (eapply RTab_ext; [exact Hh|]; intros; cbn beta; zbq; auto).
      destruct (FromSlices_RTab h n n _ ltac:(lia) ltac:(lia) H2) as (r & -> & Hg & Hr). cbn [orpanic bind]. apply wp_ok. cbn [fst snd].
      refine (conj Hg (conj Hr _)). unfold hs_ok. cbn. hsok.
Qed.

Lemma hs_P_ok n M D d : 1 <= n -> hs_ok n M D d ->
  wp (hs_P d) (fun r => general (fst r) /\ MatIs (fst r) n n (hs_tabP n M D) /\ hs_ok n M D (snd r)).
Proof.
  intros Hn (HT & HD & CP & CPt & CH). unfold hs_P. destruct (hs_cachedP d) as [r|] eqn:Ec.
  - apply wp_ok. cbn [fst snd]. destruct CP as [G1 G2]. refine (conj G1 (conj G2 _)). unfold hs_ok. rewrite Ec. hsok.
  - specialize (HD eq_refl). rewrite (RTab_len _ _ _ _ HT). apply wp_bind. eapply wp_conseq; [apply (make2_spec n n); lia|]. cbn beta. intros p0 H0. apply wp_bind.
    apply (wp_for (fun k p => RTab p n n (fun i j => if (i <? k) && (i =? j) then fone else fzero))); [lia| | |].
    { eapply RTab_ext; [exact H0|]. intros i j Hi Hj. cbn beta. zbq; auto. }
    { intros i p Hi Hp.
      apply (wp_for (fun c p => RTab p n n (fun a b => if ((a <? i) || (a =? i) && (b <? c)) && (a =? b) then fone else fzero))); [lia| | |].
      - eapply RTab_ext; [exact Hp|]. intros a b Ha Hb. cbn beta. zbq; auto.
      - intros j p1 Hj H1. destruct (Z.eqb_spec i j).
        + destruct (RTab_set p1 n n _ i j fone H1) as (p2 & -> & H2); [lia|lia|]. apply wp_ok. eapply RTab_ext; [exact H2|]. intros a b Ha Hb. cbn beta. unfold tset. zbq; auto.
        + apply wp_ok. eapply RTab_ext; [exact H1|]. intros a b Ha Hb. cbn beta. zbq; auto.
      - intros p1 H1. eapply RTab_ext; [exact H1|]. intros a b Ha Hb. cbn beta. zbq; auto. }
    intros p1 H1. apply wp_bind.
    assert (H2 : RTab p1 n n (hp_iter n M D (n - 1))).
    { unfold hp_iter. rewrite Z.sub_diag. cbn [Z.to_nat accum]. eapply RTab_ext; [exact H1|]. intros a b Ha Hb. cbn beta. zbq; auto. }
    clear H1. eapply (wp_conseq _ (fun s : mat * vec => RTab (fst s) n n (hs_tabP n M D))).
    { destruct (Z.eq_dec n 1) as [->|Hn1].
      { rewrite for_down_nil by lia. apply wp_ok. exact H2. }
      apply (wp_for_down (fun k s => RTab (fst s) n n (hp_iter n M D k) /\ exists D', VTab (snd s) n D' /\ forall i, i < k -> D' i = D i)); [lia| | |].
      + cbn [fst snd]. split; [replace (n - 1 - 1 + 1) with (n - 1) by lia; auto|]. exists D. auto.
      + intros m [p o] Hm [Hp (D' & Ho & ED)]. cbn [fst snd] in *. tget. rewrite hp_iter_S by lia. unfold hp_step.
        destruct (feq (M m (m - 1)) fzero) eqn:E0.
        { apply wp_ok. cbn [fst snd]. split; [auto|]. exists D'. split; auto. intros. apply ED. lia. }
        apply wp_bind. replace (n - 1 + 1) with n by lia.
        apply (wp_vecloop (fun i => M i (m - 1)) o n D' (m + 1) n _ _ Ho); try lia.
        { intros k l' Hk Hl'. tget. auto. }
        intros o2 Ho2. assert (Ew : forall i, m <= i < n -> vecpart D' (m + 1) n (fun i => M i (m - 1)) i = hp_w M D m i).
        { intros i Hi. unfold vecpart, hp_w. zbq; subst; auto. }
        apply wp_bind. remember (hp_iter n M D (m + 1)) as T eqn:ET.
        apply (wp_for (fun c p => RTab p n n (fun i j => if (m <=? i) && (m <=? j) && (j <? c) then (T i j + (fadds fzero m n (fun t => hp_w M D m t * T t j) / D m / M m (m - 1)%Z) * hp_w M D m i)%f else T i j))); [lia| | |].
        * eapply RTab_ext; [exact Hp|]. intros i j Hi Hj. cbn beta. zbq; auto.
        * intros j p3 Hj H1. rewrite (for_adds (fun t => hp_w M D m t * T t j)%f).
          2: lia. 2:{ intros k s Hk. vget. rewrite Ew by lia. tget. zbq; auto. }
          cbn [bind]. vget. rewrite Ew by lia.
          replace (hp_w M D m m) with (D m) by (unfold hp_w; rewrite Z.eqb_refl; auto).
          apply (wp_colloop (fun i => T i j + (fadds fzero m n (fun t => hp_w M D m t * T t j) / D m / M m (m - 1)%Z) * hp_w M D m i)%f p3 n n _ j m n _ _ H1); try lia.
          -- intros i p' Hi Hp'. tget. vget. rewrite Ew by lia. f_equal. f_equal. unfold colpart. zbq; auto.
          -- intros p' Hp'. eapply RTab_ext; [exact Hp'|]. intros a b Ha Hb. cbn beta. rp.
        * intros p3 H1. apply wp_ok. cbn [fst snd]. split.
          -- eapply RTab_ext; [exact H1|]. intros i j Hi Hj. cbn beta. zbq; auto.
          -- eexists. split; [exact Ho2|]. intros i Hi. unfold vecpart. zbq. apply ED. lia.
      + intros s [Hs _]. exact Hs. }
    cbn beta. intros [p o] Hp. cbn [fst snd] in *.
    destruct (FromSlices_RTab p n n _ ltac:(lia) ltac:(lia) Hp) as (r & -> & Hg & Hr). cbn [orpanic bind]. apply wp_ok. cbn [fst snd].
    refine (conj Hg (conj Hr _)). unfold hs_ok. cbn. hsok.
Qed.
Lemma hs_PT_ok n M D d : 1 <= n -> hs_ok n M D d ->
  wp (hs_PT d) (fun r => general (fst r) /\ MatIs (fst r) n n (fun i j => hs_tabP n M D j i) /\ hs_ok n M D (snd r)).
Proof.
  intros Hn H. unfold hs_PT. destruct (hs_cachedPt d) as [r|] eqn:Ec.
  - destruct H as (HT & HD & CP & CPt & CH). rewrite Ec in CPt.
    apply wp_ok. cbn [fst snd]. destruct CPt as [G1 G2]. refine (conj G1 (conj G2 _)). unfold hs_ok. rewrite Ec. hsok.
  - apply wp_bind. eapply wp_conseq; [apply (hs_P_ok n M D d Hn H)|]. cbn beta. intros [t d1] (Hg & Ht & H1). cbn [fst snd] in *.
    destruct (m_Transpose_ok t n n _ Hg Ht) as (r & -> & Hgr & Hr). cbn [bind]. apply wp_ok. cbn [fst snd].
    refine (conj Hgr (conj Hr _)). destruct H1 as (HT & HD & CP & CPt & CH). unfold hs_ok. cbn. hsok.
Qed.
Lemma hs_calls_ok n M D d d' : 1 <= n -> hs_ok n M D d -> hs_calls d d' -> hs_ok n M D d'.
Proof.
  intros Hn Hd Hc. induction Hc as [d|d d1 d2 x E _ IH|d d1 d2 x E _ IH|d d1 d2 x E _ IH]; auto; apply IH.
  - destruct (hs_P_ok n M D d Hn Hd) as ([x' d1'] & E' & _ & _ & K). rewrite E in E'. injection E' as <- <-. exact K.
  - destruct (hs_PT_ok n M D d Hn Hd) as ([x' d1'] & E' & _ & _ & K). rewrite E in E'. injection E' as <- <-. exact K.
  - destruct (hs_H_ok n M D d Hn Hd) as ([x' d1'] & E' & _ & _ & K). rewrite E in E'. injection E' as <- <-. exact K.
Qed.
Lemma hs_state x n A d : library x -> MatIs x n n A -> 1 <= n -> hs_of x d ->
  hs_ok n (fst (hs_iter n A (n - 2))) (snd (hs_iter n A (n - 2))) d.
Proof.
  intros Hl Hx Hn (d0 & E & Hc). eapply hs_calls_ok; [auto| |exact Hc].
  destruct (hs_new_spec x n A Hl Hx Hn) as (d1 & E1 & H1 & H2 & C1 & C2 & C3). rewrite E in E1. injection E1 as <-.
  unfold hs_ok. rewrite C1, C2, C3. refine (conj H1 (conj _ _)); auto. repeat split.
Qed.
End HessFacts.

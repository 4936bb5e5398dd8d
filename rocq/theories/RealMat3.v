(** Matrix norms, sub-matrices by index sets, copies of windows, outer
    products. *)
From Coq Require Import ZArith List Lia Bool Reals Lra Permutation.
From Verif Require Import Base BaseLemmas Scalar Vector VecSpec VectorFacts Matrix Array2D BlockM Diagonal RealMatrixM MatSpec MatFacts Array2DFacts BlockFacts DiagFacts WalkFacts MatrixOps HistSpec MatHist MatProps DiagSpec DiagFacts2 DiagFacts3 DiagProps RealOps RSum RealMat RealMat2 RealVec Float64 ExampleOps ExampleReal.
Import ListNotations.
Open Scope Z_scope.

#[local] Instance dflt_Z : Default Z := 0.

Section AnyOps.
Context {O : Ops}.

Lemma wp_gives x r c f : wp x (fun s => general s /\ MatIs s r c f) -> gives x r c f.
Proof. intros (s & E & H). exists s. auto. Qed.
Lemma outer_ok u v m n f g : VecIs u m f -> VecIs v n g -> 1 <= m -> 1 <= n ->
  gives (OuterProduct u v) m n (fun i j => (f i * g j)%f).
Proof.
  intros Hu Hv Hm Hn. unfold OuterProduct. rewrite (proj1 Hu), (proj1 Hv).
  destruct (new_zero m n Hm Hn) as (_ & _ & m0 & E & Hg & H). rewrite E. cbn [orpanic bind].
  apply wp_gives.
  apply (wp_for (fun k s => general s /\ MatIs s m n (fun i j => if i <? k then (f i * g j)%f else fzero))); try lia.
  - split; auto. eapply MatIs_ext; [exact H|]. intros i j Hi Hj. zb; auto.
  - intros i s Hi [Hgs Hs].
    apply (wp_for (fun k s => general s /\ MatIs s m n (fun p q => if (p <? i) || ((p =? i) && (q <? k)) then (f p * g q)%f else fzero))); try lia.
    + split; auto. eapply MatIs_ext; [exact Hs|]. intros p q Hp Hq. zb; auto.
    + intros j s' Hj [Hgs' Hs']. rewrite (proj1 (proj2 Hu) i Hi), (proj1 (proj2 Hv) j Hj). cbn [bind].
      eapply wp_conseq; [apply gives_wp, (m_SetEntry_ok s' m n _ i j _ Hgs' Hs'); auto|]. intros s2 [Hg2 H2]. split; auto.
      eapply MatIs_ext; [exact H2|]. intros p q Hp Hq. unfold tset. zb; auto. subst; auto.
    + intros s' [Hgs' Hs']. split; auto. eapply MatIs_ext; [exact Hs'|]. intros p q Hp Hq. zb; auto.
  - intros s [Hgs Hs]. split; auto. eapply MatIs_ext; [exact Hs|]. intros p q Hp Hq. cbn beta. destruct (Z.ltb_spec p m); [reflexivity|lia].
Qed.
Lemma new_bad r c : r <= 0 \/ c <= 0 -> panics (orpanic (NewRealMatrixWithDimension r c)).
Proof.
  intros H. unfold NewRealMatrixWithDimension, liftA, liftB, NewArray2DRowRealMatrix, NewBlockRealMatrix.
  destruct (_ <=? 4096); destruct (Z.ltb_spec r 1); try (eexists; reflexivity); destruct (Z.ltb_spec c 1); try (eexists; reflexivity); lia.
Qed.
Lemma outer_bad u v m n f g : VecIs u m f -> VecIs v n g -> m = 0 \/ n = 0 -> panics (OuterProduct u v).
Proof.
  intros Hu Hv H. unfold OuterProduct. rewrite (proj1 Hu), (proj1 Hv). destruct (new_bad m n) as (e & E); [lia|]. rewrite E. eexists; reflexivity.
Qed.

(** A walk whose visitor replaces each cell by [h i j] or panics. *)
Lemma visits_calc {St} (v : MatVisitor St) (h : Z -> Z -> res F) cs : NoDup cs ->
  (forall i j x st, mv_visit v i j x st = let* y := h i j in Ok (y, st)) ->
  (forall i j, In (i, j) cs -> exists y, h i j = Ok y) ->
  forall f st, exists g, visits_update v cs f st = Ok (g, st) /\
    forall i j, (In (i, j) cs -> h i j = Ok (g i j)) /\ (~ In (i, j) cs -> g i j = f i j).
Proof.
  intros Hnd Hv. induction cs as [|[a b] cs IH]; intros Hok f st; cbn [visits_update].
  - exists f. split; auto. intros i j. split; [intros []|auto].
  - rewrite Hv. destruct (Hok a b (or_introl eq_refl)) as (y & Ey). rewrite Ey. cbn [bind]. inversion Hnd; subst.
    destruct (IH H2 ltac:(intros; apply Hok; right; auto) (tset f a b y) st) as (g & E & Hg). exists g. split; auto. intros i j. destruct (Hg i j) as [G1 G2]. split.
    + intros [K|K]; auto. injection K as <- <-. rewrite G2 by auto. unfold tset. rewrite !Z.eqb_refl. auto.
    + intros K. rewrite G2 by (intros K'; apply K; right; auto). unfold tset. zb; auto. exfalso. apply K. left. f_equal; auto.
Qed.
Lemma visits_stop {St} (v : MatVisitor St) (h : Z -> Z -> res F) cs :
  (forall i j x st, mv_visit v i j x st = let* y := h i j in Ok (y, st)) ->
  (forall i j, In (i, j) cs -> (exists y, h i j = Ok y) \/ panics (h i j)) ->
  (exists i j, In (i, j) cs /\ panics (h i j)) ->
  forall f st, panics (visits_update v cs f st).
Proof.
  intros Hv. induction cs as [|[a b] cs IH]; intros Hok (i & j & Hin & Hp) f st; [destruct Hin|]. cbn [visits_update]. rewrite Hv.
  destruct (Hok a b (or_introl eq_refl)) as [(y & Ey)|(e & Ee)]; [|rewrite Ee; eexists; reflexivity].
  rewrite Ey. cbn [bind]. apply IH; [intros; apply Hok; right; auto|]. exists i, j. split; auto. destruct Hin as [K|]; auto.
  injection K as -> ->. destruct Hp as (e & Ep). congruence.
Qed.

Definition within (l : list Z) (n : Z) : Prop := forall k, In k l -> 0 <= k < n.
Lemma nthZ_In (l : list Z) i : 0 <= i < len l -> In (nthZ l i) l.
Proof. intros Hi. unfold nthZ. apply nth_In. unfold len in Hi. lia. Qed.
Lemma In_nthZ (l : list Z) x : In x l -> exists i, 0 <= i < len l /\ nthZ l i = x.
Proof. intros H. destruct (In_nth l x dflt H) as (k & Hk & E). exists (Z.of_nat k). unfold len, nthZ. rewrite Nat2Z.id. split; [lia|auto]. Qed.
Lemma sub_indices_ok m r c f rs cs : MatIs m r c f -> rs <> [] -> cs <> [] -> within rs r -> within cs c ->
  gives (SubMatrix m rs cs) (len rs) (len cs) (fun i j => f (nthZ rs i) (nthZ cs j)).
Proof.
  intros H Hr Hc Wr Wc. assert (1 <= len rs) by (destruct rs; [contradiction|]; rewrite len_cons; pose proof (len_nonneg rs); lia).
  assert (1 <= len cs) by (destruct cs; [contradiction|]; rewrite len_cons; pose proof (len_nonneg cs); lia).
  unfold SubMatrix. destruct (new_zero (len rs) (len cs)) as (_ & _ & s & E & Hg & Hs); auto. rewrite E. cbn [orpanic bind].
  match goal with |- context [m_WalkUpdate RowOrder s ?v tt] => set (V := v) end.
  pose proof (m_WalkUpdate_ok RowOrder s _ _ _ V tt Hg Hs) as U. unfold updates in U. cbn [walk_order] in U.
  destruct (visits_calc V (fun i j => let* a := zget rs i in let* b := zget cs j in m_At m a b) (row_order 0 (len rs - 1) 0 (len cs - 1)) (NoDup_row_order _ _ _ _)) with (f := fun _ _ : Z => fzero) (st := tt) as (g & Eg & Hgg).
  { intros i j x st. unfold V. cbn [mv_visit]. rewrite !bind_assoc. apply bind_ext. intros a _. rewrite !bind_assoc. reflexivity. }
  { intros i j Hij. apply in_row_order in Hij. rewrite !zget_ok by lia. cbn [bind]. exists (f (nthZ rs i) (nthZ cs j)).
    apply H; [apply Wr, nthZ_In; lia|apply Wc, nthZ_In; lia]. }
  change (mv_start V (len rs) (len cs) 0 (len rs - 1) 0 (len cs - 1) tt) with tt in U. rewrite Eg in U. destruct U as (m' & -> & Hg' & Hm'). cbn [bind].
  exists m'. split; auto. split; auto. eapply MatIs_ext; [exact Hm'|]. intros i j Hi Hj.
  destruct (Hgg i j) as [G _]. specialize (G ltac:(apply in_row_order; lia)). rewrite !zget_ok in G by lia. cbn [bind] in G.
  destruct H as (_ & _ & _ & HA & _). rewrite HA in G by (apply Wr, nthZ_In || apply Wc, nthZ_In; lia). congruence.
Qed.
Lemma sub_indices_bad m r c f rs cs : MatIs m r c f -> ~ (rs <> [] /\ cs <> [] /\ within rs r /\ within cs c) -> panics (SubMatrix m rs cs).
Proof.
  intros H Hbad. unfold SubMatrix. destruct (Z_lt_le_dec (len rs) 1) as [L|L].
  { destruct (new_bad (len rs) (len cs)) as (e & E); [lia|]. rewrite E. eexists; reflexivity. }
  destruct (Z_lt_le_dec (len cs) 1) as [L'|L'].
  { destruct (new_bad (len rs) (len cs)) as (e & E); [lia|]. rewrite E. eexists; reflexivity. }
  destruct (new_zero (len rs) (len cs)) as (_ & _ & s & E & Hg & Hs); auto. rewrite E. cbn [orpanic bind].
  match goal with |- context [m_WalkUpdate RowOrder s ?v tt] => set (V := v) end.
  pose proof (m_WalkUpdate_ok RowOrder s _ _ _ V tt Hg Hs) as U. unfold updates in U. cbn [walk_order] in U.
  destruct (visits_stop V (fun i j => let* a := zget rs i in let* b := zget cs j in m_At m a b) (row_order 0 (len rs - 1) 0 (len cs - 1))) with (f := fun _ _ : Z => fzero) (st := tt) as (e & Ee).
  - intros i j x st. unfold V. cbn [mv_visit]. rewrite !bind_assoc. apply bind_ext. intros a _. rewrite !bind_assoc. reflexivity.
  - intros i j Hij. apply in_row_order in Hij. rewrite !zget_ok by lia. cbn [bind]. destruct H as (_ & _ & _ & H1 & H2).
    destruct (inb (nthZ rs i) r) eqn:E1; [destruct (inb (nthZ cs j) c) eqn:E2|].
    + apply inb_true in E1, E2. left. eauto.
    + apply inb_false in E2. right. apply H2. tauto.
    + apply inb_false in E1. right. apply H2. tauto.
  - destruct H as (_ & _ & _ & H1 & H2).
    assert (B : (exists i, 0 <= i < len rs /\ ~ (0 <= nthZ rs i < r)) \/ (exists j, 0 <= j < len cs /\ ~ (0 <= nthZ cs j < c))).
    { assert (D : forall (l : list Z) n, within l n \/ exists i, 0 <= i < len l /\ ~ (0 <= nthZ l i < n)).
      { intros l n. destruct (forallb (fun k => inb k n) l) eqn:Ef.
        - left. intros k Hk. rewrite forallb_forall in Ef. apply inb_true. auto.
        - right. assert (X : exists k, In k l /\ inb k n = false).
          { clear - Ef. induction l as [|x l IH]; [discriminate|]. cbn in Ef. destruct (inb x n) eqn:Ex; [|exists x; split; [left; auto|auto]].
            destruct (IH Ef) as (k & K1 & K2). exists k. split; [right; auto|auto]. }
          destruct X as (k & K1 & K2). destruct (In_nthZ l k K1) as (i & Hi & <-). exists i. split; auto. apply inb_false; auto. }
      destruct (D rs r) as [W1|]; auto. destruct (D cs c) as [W2|]; auto. exfalso. apply Hbad. split; [intros ->; cbn in L; lia|]. split; [intros ->; cbn in L'; lia|]. auto. }
    destruct B as [(i & Hi & B)|(j & Hj & B)].
    + exists i, 0. split; [apply in_row_order; lia|]. rewrite !zget_ok by lia. cbn [bind]. apply H2. tauto.
    + exists 0, j. split; [apply in_row_order; lia|]. rewrite !zget_ok by lia. cbn [bind]. apply H2. tauto.
  - change (mv_start V (len rs) (len cs) 0 (len rs - 1) 0 (len cs - 1) tt) with tt in U. rewrite Ee in U. rewrite U. eexists; reflexivity.
Qed.

(** [d'] is [d] with the top left [h] by [w] window replaced by [g]. *)
Definition pasted (d d' : mat) (h w : Z) (g : Z -> Z -> F) : Prop :=
  len d' = len d /\ forall i, 0 <= i < len d -> len (nthZ d' i) = len (nthZ d i) /\
    forall j, 0 <= j < len (nthZ d i) ->
      nthZ (nthZ d' i) j = if (i <? h) && (j <? w) then g i j else nthZ (nthZ d i) j.
(** [d] has at least [h] rows, the first [h] of length at least [w]. *)
Definition roomy (d : mat) (h w : Z) : Prop := h <= len d /\ forall i, 0 <= i < h -> w <= len (nthZ d i).
Lemma mset_any (d : mat) i j x : 0 <= i < len d -> 0 <= j < len (nthZ d i) ->
  mset d i j x = Ok (upd d i (upd (nthZ d i) j x)).
Proof. intros Hi Hj. unfold mset. rewrite zget_ok by auto. cbn [bind]. rewrite zset_ok by auto. cbn [bind]. rewrite zset_ok by auto. reflexivity. Qed.
(** State of the copy after rows before [a], and in row [a] columns before [b]. *)
Definition pasting (d d' : mat) (w : Z) (g : Z -> Z -> F) (a b : Z) : Prop :=
  len d' = len d /\ forall i, 0 <= i < len d -> len (nthZ d' i) = len (nthZ d i) /\
    forall j, 0 <= j < len (nthZ d i) ->
      nthZ (nthZ d' i) j = if ((i <? a) && (j <? w)) || ((i =? a) && (j <? b)) then g i j else nthZ (nthZ d i) j.
Lemma pasting_step d d' h w g a b x : roomy d h w -> 0 <= a < h -> 0 <= b < w -> g a b = x -> pasting d d' w g a b ->
  wp (mset d' a b x) (fun d2 => pasting d d2 w g a (b + 1)).
Proof.
  intros [R1 R2] Ha Hb <- [P1 P2]. specialize (R2 a Ha). destruct (P2 a ltac:(lia)) as [L _].
  rewrite mset_any by lia. apply wp_ok. split; [rewrite len_upd; auto|]. intros i Hi. destruct (P2 i Hi) as [Li Ei].
  rewrite nthZ_upd by lia. destruct (Z.eqb_spec a i) as [<-|Hne].
  - split; [rewrite len_upd; auto|]. intros j Hj. rewrite nthZ_upd by lia. destruct (Z.eqb_spec b j) as [<-|Hnj]; [zb; auto; lia|]. rewrite Ei by auto. zb; auto.
  - split; auto. intros j Hj. rewrite Ei by auto. zb; auto.
Qed.
Lemma pasting_row d d' w g a : pasting d d' w g a w -> pasting d d' w g (a + 1) 0.
Proof.
  intros [P1 P2]. split; auto. intros i Hi. destruct (P2 i Hi) as [L E]. split; auto. intros j Hj. rewrite E by auto. zb; auto.
Qed.
Lemma pasting_done d d' h w g : pasting d d' w g h 0 -> pasted d d' h w g.
Proof.
  intros [P1 P2]. split; auto. intros i Hi. destruct (P2 i Hi) as [L E]. split; auto. intros j Hj. rewrite E by auto. zb; auto.
Qed.
Lemma pasting_init d w g : pasting d d w g 0 0.
Proof. split; auto. intros i Hi. split; auto. intros j Hj. zb; auto. Qed.

Lemma copysub_ok m r c f r0 r1 c0 c1 d : MatIs m r c f -> 0 <= r0 <= r1 -> r1 < r -> 0 <= c0 <= c1 -> c1 < c ->
  roomy d (r1 + 1 - r0) (c1 + 1 - c0) ->
  wp (CopySubMatrix m r0 r1 c0 c1 d) (fun d' => pasted d d' (r1 + 1 - r0) (c1 + 1 - c0) (fun i j => f (r0 + i) (c0 + j))).
Proof.
  intros H B1 B2 B3 B4 HR. pose proof HR as [R1 R2]. unfold CopySubMatrix.
  rewrite (checkSubMatrixIndex_ok m c) by (rewrite ?(MatIs_rows _ _ _ _ H); eauto using MatIs_cols). cbn [orpanic bind].
  set (h := r1 + 1 - r0) in *. set (w := c1 + 1 - c0) in *.
  destruct (Z.ltb_spec (len d) h); [lia|]. rewrite zget_ok by lia. cbn [bind]. specialize (R2 0 ltac:(lia)) as R0.
  destruct (Z.ltb_spec (len (nthZ d 0)) w); [lia|].
  apply wp_bind. apply (wp_for (fun _ _ => True)); try (auto; lia).
  { intros i [] Hi _. rewrite zget_ok by lia. cbn [bind]. specialize (R2 i ltac:(lia)). destruct (Z.ltb_spec (len (nthZ d i)) w); [lia|]. apply wp_ok. auto. }
  intros [] _. apply (wp_for (fun i d' => pasting d d' w (fun i j => f (r0 + i) (c0 + j)) (i - r0) 0)); try lia.
  - rewrite Z.sub_diag. apply pasting_init.
  - intros i d' Hi P. apply (wp_for (fun j d' => pasting d d' w (fun i j => f (r0 + i) (c0 + j)) (i - r0) (j - c0))); try lia.
    + rewrite Z.sub_diag. auto.
    + intros j d2 Hj P2. destruct H as (_ & _ & _ & HA & _). rewrite HA by lia. cbn [bind].
      replace (j + 1 - c0) with (j - c0 + 1) by lia. apply (pasting_step d d2 h w); auto; try lia. cbn beta. f_equal; lia.
    + intros d2 P2. replace (i + 1 - r0) with (i - r0 + 1) by lia. apply pasting_row. exact P2.
  - intros d' P. apply pasting_done. exact P.
Qed.
Lemma copysub_bad m r c f r0 r1 c0 c1 d : MatIs m r c f ->
  ~ (0 <= r0 <= r1 /\ r1 < r /\ 0 <= c0 <= c1 /\ c1 < c /\ roomy d (r1 + 1 - r0) (c1 + 1 - c0)) ->
  panics (CopySubMatrix m r0 r1 c0 c1 d).
Proof.
  intros H Hn. pose proof (MatIs_rows _ _ _ _ H) as Er. pose proof (MatIs_cols _ _ _ _ H) as Ec. unfold CopySubMatrix.
  destruct (Z_le_gt_dec 0 r0); [destruct (Z_le_gt_dec r0 r1); [destruct (Z_lt_ge_dec r1 r); [destruct (Z_le_gt_dec 0 c0); [destruct (Z_le_gt_dec c0 c1); [destruct (Z_lt_ge_dec c1 c)|]|]|]|]|].
  2-7: destruct (checkSubMatrixIndex_err m c r0 r1 c0 c1 Ec) as (e & ->); [rewrite Er; lia|eexists; reflexivity].
  rewrite (checkSubMatrixIndex_ok m c) by (rewrite ?Er; auto; lia). cbn [orpanic bind].
  set (h := r1 + 1 - r0) in *. set (w := c1 + 1 - c0) in *.
  destruct (Z.ltb_spec (len d) h).
  { cbn [bind]. destruct (Z_lt_le_dec 0 (len d)); [rewrite zget_ok by lia|rewrite zget_panic by lia]; eexists; reflexivity. }
  rewrite zget_ok by lia. cbn [bind]. destruct (Z.ltb_spec (len (nthZ d 0)) w); [eexists; reflexivity|].
  assert (B : exists k, 1 <= k < h /\ len (nthZ d k) < w).
  { assert (D : forall n, 0 <= n -> (forall i, 1 <= i < n -> w <= len (nthZ d i)) \/ exists k, 1 <= k < n /\ len (nthZ d k) < w).
    { intros n Hn0. pattern n. apply natlike_ind; auto; [left; intros; lia|]. intros x Hx [IH|(k & K1 & K2)]; [|right; exists k; split; [lia|auto]].
      destruct (Z_lt_le_dec (len (nthZ d x)) w).
      - destruct (Z.eq_dec x 0); [left; intros; lia|]. right. exists x. split; [lia|auto].
      - left. intros i Hi. destruct (Z.eq_dec i x); [subst; auto|apply IH; lia]. }
    destruct (D h ltac:(lia)) as [D'|]; auto. exfalso. apply Hn. repeat (split; [lia|]). intros i Hi. destruct (Z.eq_dec i 0); [subst; auto|]. apply D'. lia. }
  destruct B as (k & K1 & K2).
  match goal with |- context [for_ 1 h ?b tt] => assert (P : panics (for_ 1 h b tt)) end.
  { rewrite (for_app 1 k h) by lia. match goal with |- context [for_ 1 k ?b tt] => destruct (for_ 1 k b tt) as [[]|e|e] eqn:E1 end; cbn [bind].
    - rewrite for_step by lia. rewrite zget_ok by lia. cbn [bind]. destruct (Z.ltb_spec (len (nthZ d k)) w); [eexists; reflexivity|lia].
    - exfalso. match type of E1 with for_ 1 k ?b tt = _ => assert (N : forall j, 0 <= j -> 1 + j <= k -> forall e, for_ 1 (1 + j) b tt <> Err e) end.
      { intros j Hj. pattern j. apply natlike_ind; auto; [intros _ e0; rewrite for_nil by lia; discriminate|]. intros x Hx IH Hk e0.
        rewrite for_snoc by lia. replace (1 + Z.succ x - 1) with (1 + x) by lia.
        match goal with |- context [for_ 1 (1 + x) ?b tt] => destruct (for_ 1 (1 + x) b tt) as [[]|e1|e1] eqn:E2 end; cbn [bind]; try discriminate.
        - rewrite zget_ok by lia. cbn [bind]. destruct (_ <? _); discriminate.
        - exfalso. exact (IH ltac:(lia) e1 eq_refl). }
      apply (N (k - 1) ltac:(lia) ltac:(lia) e). replace (1 + (k - 1)) with k by lia. exact E1.
    - eexists; reflexivity. }
  destruct P as (e & ->). eexists; reflexivity.
Qed.
Lemma for_panics {S} (P : Z -> S -> Prop) lo hi (body : Z -> S -> res S) s k : lo <= k < hi -> P lo s ->
  (forall i s, lo <= i < k -> P i s -> wp (body i s) (P (i + 1))) -> (forall s, P k s -> panics (body k s)) -> panics (for_ lo hi body s).
Proof.
  intros Hk H0 Hs Hp. rewrite (for_app lo k hi) by lia.
  destruct (wp_for P lo k body s (P k) ltac:(lia) H0 Hs ltac:(auto)) as (s' & E & H'). rewrite E. cbn [bind]. rewrite for_step by lia.
  destruct (Hp s' H') as (e & ->). eexists; reflexivity.
Qed.
Lemma first_bad (p : Z -> bool) n : 0 <= n -> (forall i, 0 <= i < n -> p i = true) \/ exists k, 0 <= k < n /\ p k = false /\ forall i, 0 <= i < k -> p i = true.
Proof.
  intros Hn. pattern n. apply natlike_ind; auto; [left; intros; lia|]. intros x Hx [IH|(k & K1 & K2)]; [|right; exists k; split; [lia|auto]].
  destruct (p x) eqn:E; [left|right; exists x; split; [lia|auto]]. intros i Hi. destruct (Z.eq_dec i x); [subst; auto|apply IH; lia].
Qed.
Lemma check_all (chk : Z -> res unit) l : (forall k, In k l -> chk k = Ok tt) ->
  fold_left (fun acc k => let* _ := acc in chk k) l (Ok tt) = Ok tt.
Proof. induction l as [|x l IH]; intros H; auto. cbn [fold_left bind]. rewrite H by (left; auto). apply IH. intros; apply H; right; auto. Qed.
Lemma check_err (chk : Z -> res unit) l e : fold_left (fun acc k => let* _ := acc in chk k) l (Err e) = Err e.
Proof. induction l as [|x l IH]; auto. Qed.
Lemma check_some (chk : Z -> res unit) l : (forall k, In k l -> chk k = Ok tt \/ exists e, chk k = Err e) -> (exists k e, In k l /\ chk k = Err e) ->
  exists e, fold_left (fun acc k => let* _ := acc in chk k) l (Ok tt) = Err e.
Proof.
  induction l as [|x l IH]; intros H (k & e & Hk & Ek); [destruct Hk|]. cbn [fold_left bind].
  destruct (H x (or_introl eq_refl)) as [E|(e' & E)]; rewrite E; [|exists e'; apply check_err]. apply IH; [intros; apply H; right; auto|].
  exists k, e. split; auto. destruct Hk as [->|]; auto. congruence.
Qed.
Lemma check_ids m r c f rs cs : MatIs m r c f ->
  (rs <> [] /\ cs <> [] /\ within rs r /\ within cs c -> checkSubMatrixIndexFromIndices m (Some rs) (Some cs) = Ok tt) /\
  (~ (rs <> [] /\ cs <> [] /\ within rs r /\ within cs c) -> exists e, checkSubMatrixIndexFromIndices m (Some rs) (Some cs) = Err e).
Proof.
  intros H. pose proof (MatIs_rows _ _ _ _ H) as Er. pose proof (MatIs_cols _ _ _ _ H) as Ec. unfold checkSubMatrixIndexFromIndices.
  assert (Hr : forall k, (0 <= k < r -> checkRowIndex m k = Ok tt) /\ (~ (0 <= k < r) -> checkRowIndex m k = Err EOutOfRange)).
  { intros k. split; intros; [apply checkRowIndex_ok|apply checkRowIndex_err]; rewrite Er; auto. }
  assert (Hc : forall k, (0 <= k < c -> checkColumnIndex m k = Ok tt) /\ (~ (0 <= k < c) -> checkColumnIndex m k = Err EOutOfRange)).
  { intros k. split; intros; [eapply checkColumnIndex_ok|eapply checkColumnIndex_err]; eauto. }
  assert (Hd : forall (l : list Z) n, within l n \/ exists k, In k l /\ ~ (0 <= k < n)).
  { intros l n. induction l as [|x l IH]; [left; intros k []|]. destruct (inb x n) eqn:E; [apply inb_true in E|apply inb_false in E; right; exists x; split; [left; auto|auto]].
    destruct IH as [IH|(k & K1 & K2)]; [left|right; exists k; split; [right; auto|auto]]. intros k [<-|Hk]; auto. }
  assert (Hz : forall (l : list Z), len l = 0 <-> l = []).
  { intros [|x l]; [split; auto|]. rewrite len_cons. pose proof (len_nonneg l). split; [lia|discriminate]. }
  split.
  - intros (N1 & N2 & W1 & W2). destruct (Z.eqb_spec (len rs) 0) as [E|E]; [apply Hz in E; contradiction|]. destruct (Z.eqb_spec (len cs) 0) as [E'|E']; [apply Hz in E'; contradiction|].
    rewrite check_all by (intros; apply Hr; auto). cbn [bind]. apply check_all. intros; apply Hc; auto.
  - intros Hn. destruct (Z.eqb_spec (len rs) 0) as [E|E]; [eexists; reflexivity|]. destruct (Z.eqb_spec (len cs) 0) as [E'|E']; [eexists; reflexivity|].
    destruct (Hd rs r) as [W1|(k & K1 & K2)].
    + rewrite check_all by (intros; apply Hr; auto). cbn [bind]. destruct (Hd cs c) as [W2|(k & K1 & K2)].
      * exfalso. apply Hn. rewrite Hz in E, E'. auto.
      * apply check_some; [|exists k, EOutOfRange; split; auto; apply Hc; auto].
        intros q Hq. destruct (inb q c) eqn:Eb; [apply inb_true in Eb; left; apply Hc; auto|apply inb_false in Eb; right; eexists; apply Hc; auto].
    + destruct (check_some (checkRowIndex m) rs) as (e & Ee); [|exists k, EOutOfRange; split; auto; apply Hr; auto|rewrite Ee; eexists; reflexivity].
      intros q Hq. destruct (inb q r) eqn:Eb; [apply inb_true in Eb; left; apply Hr; auto|apply inb_false in Eb; right; eexists; apply Hr; auto].
Qed.
Lemma copyidx_row m r c f rs cs d i d' : MatIs m r c f -> within rs r -> within cs c -> 0 <= i < len rs -> roomy d (i + 1) (len cs) ->
  pasting d d' (len cs) (fun i j => f (nthZ rs i) (nthZ cs j)) i 0 ->
  wp (for_ 0 (len cs) (fun j destination =>
          let* r := zget rs i in
          let* c := zget cs j in
          let* x := m_At m r c in
          mset destination i j x) d') (fun d2 => pasting d d2 (len cs) (fun i j => f (nthZ rs i) (nthZ cs j)) (i + 1) 0).
Proof.
  intros H Wr Wc Hi HR P. apply (wp_for (fun j d' => pasting d d' (len cs) (fun i j => f (nthZ rs i) (nthZ cs j)) i j)); auto; try apply len_nonneg.
  - intros j d2 Hj P2. rewrite !zget_ok by auto. cbn [bind]. destruct H as (_ & _ & _ & HA & _).
    rewrite HA by (apply Wr, nthZ_In || apply Wc, nthZ_In; auto). cbn [bind]. apply (pasting_step d d2 (i + 1) (len cs)); auto; lia.
  - intros d2. apply pasting_row.
Qed.
Lemma copyidx_ok m r c f rs cs d : MatIs m r c f -> rs <> [] -> cs <> [] -> within rs r -> within cs c -> roomy d (len rs) (len cs) ->
  wp (CopySubMatrixFromIndices m (Some rs) (Some cs) d) (fun d' => pasted d d' (len rs) (len cs) (fun i j => f (nthZ rs i) (nthZ cs j))).
Proof.
  intros H N1 N2 Wr Wc [R1 R2]. unfold CopySubMatrixFromIndices. rewrite (proj1 (check_ids m r c f rs cs H)) by auto. cbn [orpanic bind].
  assert (1 <= len rs) by (destruct rs; [contradiction|]; rewrite len_cons; pose proof (len_nonneg rs); lia).
  destruct (Z.ltb_spec (len d) (len rs)); [lia|]. rewrite zget_ok by lia. cbn [bind]. pose proof (R2 0 ltac:(lia)).
  destruct (Z.ltb_spec (len (nthZ d 0)) (len cs)); [lia|].
  apply (wp_for (fun i d' => pasting d d' (len cs) (fun i j => f (nthZ rs i) (nthZ cs j)) i 0)); [lia|apply pasting_init| |intros; apply pasting_done; auto].
  intros i d' Hi P. destruct P as [P1 P2] eqn:EP. destruct (P2 i ltac:(lia)) as [L _]. rewrite zget_ok by lia. cbn [bind]. rewrite L. pose proof (R2 i Hi).
  destruct (Z.ltb_spec (len (nthZ d i)) (len cs)); [lia|]. eapply copyidx_row; eauto. split; [lia|]. intros; apply R2; lia.
Qed.
Lemma copyidx_bad m r c f rs cs d : MatIs m r c f ->
  ~ (rs <> [] /\ cs <> [] /\ within rs r /\ within cs c /\ roomy d (len rs) (len cs)) -> panics (CopySubMatrixFromIndices m (Some rs) (Some cs) d).
Proof.
  intros H Hn. destruct (check_ids m r c f rs cs H) as [C1 C2]. unfold CopySubMatrixFromIndices.
  destruct (checkSubMatrixIndexFromIndices m (Some rs) (Some cs)) as [[]|e|e] eqn:Ec; cbn [orpanic bind]; try (eexists; reflexivity).
  assert (G : rs <> [] /\ cs <> [] /\ within rs r /\ within cs c).
  { assert (D : (rs <> [] /\ cs <> [] /\ within rs r /\ within cs c) \/ ~ (rs <> [] /\ cs <> [] /\ within rs r /\ within cs c)).
    { assert (Dw : forall (l : list Z) n, within l n \/ ~ within l n).
      { intros l n. induction l as [|x l IH]; [left; intros k []|]. destruct (inb x n) eqn:E; [apply inb_true in E|apply inb_false in E; right; intros W; apply E, W; left; auto].
        destruct IH as [IH|IH]; [left|right]; [intros k [<-|Hk]; auto|intros W; apply IH; intros k Hk; apply W; right; auto]. }
      destruct rs; [right; tauto|]. destruct cs; [right; tauto|]. destruct (Dw (z :: rs) r); [|right; tauto]. destruct (Dw (z0 :: cs) c); [|right; tauto]. left. split; [discriminate|]. split; [discriminate|]. auto. }
    destruct D as [|D]; auto. destruct (C2 D) as (e & E). discriminate. }
  destruct G as (N1 & N2 & W1 & W2). assert (1 <= len rs) by (destruct rs; [contradiction|]; rewrite len_cons; pose proof (len_nonneg rs); lia).
  destruct (Z.ltb_spec (len d) (len rs)).
  { cbn [bind]. destruct (Z_lt_le_dec 0 (len d)); [rewrite zget_ok by lia|rewrite zget_panic by lia]; eexists; reflexivity. }
  rewrite zget_ok by lia. cbn [bind]. destruct (Z.ltb_spec (len (nthZ d 0)) (len cs)); [eexists; reflexivity|].
  destruct (first_bad (fun i => len cs <=? len (nthZ d i)) (len rs) ltac:(lia)) as [A|(k & K1 & K2 & K3)].
  { exfalso. apply Hn. split; [assumption|]. split; [assumption|]. split; [assumption|]. split; [assumption|]. split; [lia|]. intros i Hi. apply Z.leb_le. apply (A i Hi). }
  apply Z.leb_gt in K2.
  apply (for_panics (fun i d' => pasting d d' (len cs) (fun i j => f (nthZ rs i) (nthZ cs j)) i 0) _ _ _ _ k); [lia|apply pasting_init| |].
  - intros i d' Hi P. pose proof P as [P1 P2]. destruct (P2 i ltac:(lia)) as [L _]. rewrite zget_ok by lia. cbn [bind]. rewrite L. pose proof (K3 i Hi) as K. apply Z.leb_le in K.
    destruct (Z.ltb_spec (len (nthZ d i)) (len cs)); [lia|]. eapply copyidx_row; eauto; [lia|]. split; [lia|]. intros q Hq. apply Z.leb_le. apply (K3 q). lia.
  - intros d' [P1 P2]. destruct (P2 k ltac:(lia)) as [L _]. rewrite zget_ok by lia. cbn [bind]. rewrite L. destruct (Z.ltb_spec (len (nthZ d k)) (len cs)); [eexists; reflexivity|lia].
Qed.
End AnyOps.

(** ** Norms *)
#[local] Existing Instance ROps.
Definition lsum {A} (h : A -> R) (l : list A) : R := fold_right (fun x s => (h x + s)%R) 0%R l.
Lemma lsum_app {A} (h : A -> R) l1 l2 : lsum h (l1 ++ l2) = (lsum h l1 + lsum h l2)%R.
Proof. induction l1 as [|x l1 IH]; cbn [app lsum fold_right]; unfold lsum in *; [lra|]. rewrite IH. lra. Qed.
Lemma lsum_perm {A} (h : A -> R) l1 l2 : Permutation l1 l2 -> lsum h l1 = lsum h l2.
Proof. induction 1; cbn [lsum fold_right] in *; unfold lsum in *; lra. Qed.
Lemma lsum_range h lo hi : lsum h (range lo hi) = Rs lo hi h.
Proof.
  destruct (Z_le_gt_dec lo hi) as [H|H]; [|rewrite range_nil, Rs_nil by lia; auto].
  apply (Rs_ind (fun hi => lsum h (range lo hi) = Rs lo hi h) lo hi H).
  - rewrite range_nil, Rs_nil by lia. auto.
  - intros k Hk IH. rewrite (range_app lo k (k + 1)), lsum_app, IH by lia. rewrite Rs_last by lia. f_equal.
    rewrite range_step, range_nil by lia. cbn [lsum fold_right]. lra.
Qed.
Lemma lsum_flat {A B} (h : B -> R) (t : A -> list B) l : lsum h (flat_map t l) = lsum (fun x => lsum h (t x)) l.
Proof. induction l as [|x l IH]; cbn [flat_map]; auto. rewrite lsum_app, IH. reflexivity. Qed.
Lemma lsum_map {A B} (h : B -> R) (t : A -> B) l : lsum h (map t l) = lsum (fun x => h (t x)) l.
Proof. induction l as [|x l IH]; auto. cbn [map lsum fold_right]. unfold lsum in *. rewrite IH. auto. Qed.
Lemma lsum_ext {A} (h h' : A -> R) l : (forall x, h x = h' x) -> lsum h l = lsum h' l.
Proof. intros E. induction l as [|x l IH]; auto. cbn [lsum fold_right]. unfold lsum in *. rewrite IH, E. auto. Qed.
Lemma lsum_rows r c (h : Z -> Z -> R) : lsum (fun '(i, j) => h i j) (row_order 0 (r - 1) 0 (c - 1)) = Rs 0 r (fun i => Rs 0 c (fun j => h i j)).
Proof.
  unfold row_order. rewrite lsum_flat. replace (r - 1 + 1) with r by lia. replace (c - 1 + 1) with c by lia. rewrite lsum_range. apply Rs_ext.
  intros i _. rewrite lsum_map, lsum_range. auto.
Qed.
Lemma frob_visits cs (f : Z -> Z -> R) : forall s : R, visits frobVisitor cs f s = Ok (s + lsum (fun '(i, j) => f i j * f i j) cs)%R.
Proof.
  induction cs as [|[i j] cs IH]; intros s; cbn [visits frobVisitor mv_visit bind]; [cbn [lsum fold_right]; f_equal; lra|].
  rewrite IH. f_equal. cbn [lsum fold_right]. change (@fadd ROps) with Rplus. change (@fmul ROps) with Rmult. unfold lsum. lra.
Qed.
Lemma frobenius m r c f : library m -> MatIs m r c f -> 1 <= r -> 1 <= c ->
  MatFrobeniusNorm m = Ok (sqrt (Rs 0 r (fun i => Rs 0 c (fun j => f i j * f i j))))%R.
Proof.
  intros Hl H Hr Hc. unfold MatFrobeniusNorm. rewrite (m_Walk_ok OptimizedOrder m r c f frobVisitor fzero Hl H). unfold read_result.
  cbn [mv_start frobVisitor]. rewrite frob_visits. cbn [bind snd mv_end frobVisitor]. f_equal. change (@fsqrt ROps) with sqrt. f_equal.
  rewrite (lsum_perm _ _ _ (walk_order_perm OptimizedOrder m 0 (r - 1) 0 (c - 1) ltac:(lia) ltac:(lia))). change (@fzero ROps) with 0%R. rewrite lsum_rows. lra.
Qed.

Lemma visits_app {O : Ops} {St} (v : MatVisitor St) l1 l2 f st : visits v (l1 ++ l2) f st = let* st := visits v l1 f st in visits v l2 f st.
Proof.
  revert st. induction l1 as [|[i j] l1 IH]; intros st; auto. cbn [app visits]. rewrite bind_assoc. apply bind_ext. intros [y st'] _. apply IH.
Qed.
Lemma norm_col r (f : Z -> Z -> R) j mx : 1 <= r ->
  visits (O := ROps) normVisitor (map (fun i => (i, j)) (range 0 r)) f (r - 1, 0%R, mx) = Ok (r - 1, 0%R, Rmax mx (Rs 0 r (fun i => Rabs (f i j)))).
Proof.
  intros Hr. assert (G : forall k, 0 <= k <= r - 1 -> visits (O := ROps) normVisitor (map (fun i => (i, j)) (range 0 k)) f (r - 1, 0%R, mx) = Ok (r - 1, Rs 0 k (fun i => Rabs (f i j)), mx)).
  { intros k [Hk0 Hk]. revert Hk. apply (Rs_ind (fun k => k <= r - 1 -> visits (O := ROps) normVisitor (map (fun i => (i, j)) (range 0 k)) f (r - 1, 0%R, mx) = Ok (r - 1, Rs 0 k (fun i => Rabs (f i j)), mx)) 0 k Hk0).
    - intros _. rewrite range_nil, Rs_nil by lia. reflexivity.
    - intros k' Hk' IH Hle. rewrite (range_app 0 k' (k' + 1)), map_app, visits_app, IH by lia. rewrite range_step, range_nil by lia. cbn [map visits normVisitor mv_visit bind].
      destruct (Z.eqb_spec k' (r - 1)); [lia|]. cbn [bind]. rewrite Rs_last by lia. reflexivity. }
  rewrite (range_app 0 (r - 1) r), map_app, visits_app, G by lia. rewrite range_step, range_nil by lia. cbn [map visits normVisitor mv_visit bind].
  rewrite Z.eqb_refl. cbn [bind]. replace (Rs 0 r) with (Rs 0 (r - 1 + 1)) by (f_equal; lia). rewrite Rs_last by lia. reflexivity.
Qed.
Definition column_sum (f : Z -> Z -> R) r j := Rs 0 r (fun i => Rabs (f i j)).
Lemma linf m r c f : library m -> MatIs m r c f -> 1 <= r -> 1 <= c ->
  exists x, MatLInfNorm m = Ok x /\ (forall j, 0 <= j < c -> (column_sum f r j <= x)%R) /\ exists j, 0 <= j < c /\ x = column_sum f r j.
Proof.
  intros Hl H Hr Hc. unfold MatLInfNorm. rewrite (m_Walk_ok ColumnOrder m r c f normVisitor _ Hl H). unfold read_result. cbn [walk_order].
  change (mv_start normVisitor r c 0 (r - 1) 0 (c - 1) (0, @fzero ROps, @fzero ROps)) with (r - 1, 0%R, 0%R).
  unfold column_order. replace (r - 1 + 1) with r by lia. replace (c - 1 + 1) with c by lia.
  assert (G : forall k, 0 <= k <= c -> exists mx, visits (O := ROps) normVisitor (flat_map (fun j => map (fun i => (i, j)) (range 0 r)) (range 0 k)) f (r - 1, 0%R, 0%R) = Ok (r - 1, 0%R, mx) /\
     (0 <= mx)%R /\ (forall j, 0 <= j < k -> (column_sum f r j <= mx)%R) /\ (k = 0 /\ mx = 0%R \/ exists j, 0 <= j < k /\ mx = column_sum f r j)).
  { intros k [Hk0 Hk]. revert Hk. apply (Rs_ind (fun k => k <= c -> exists mx, visits (O := ROps) normVisitor (flat_map (fun j => map (fun i => (i, j)) (range 0 r)) (range 0 k)) f (r - 1, 0%R, 0%R) = Ok (r - 1, 0%R, mx) /\
     (0 <= mx)%R /\ (forall j, 0 <= j < k -> (column_sum f r j <= mx)%R) /\ (k = 0 /\ mx = 0%R \/ exists j, 0 <= j < k /\ mx = column_sum f r j)) 0 k Hk0).
    - intros _. exists 0%R. rewrite (range_nil 0 0) by lia. cbn [flat_map visits]. split; auto. split; [lra|]. split; [intros; lia|auto].
    - intros k' Hk' IH Hle. destruct (IH ltac:(lia)) as (mx & E & P0 & P1 & P2). rewrite (range_app 0 k' (k' + 1)), flat_map_app, visits_app, E by lia. cbn [bind].
      rewrite (range_step k' (k' + 1)), (range_nil (k' + 1) (k' + 1)) by lia. cbn [flat_map]. rewrite app_nil_r. rewrite norm_col by auto.
      fold (column_sum f r k'). exists (Rmax mx (column_sum f r k')). pose proof (Rmax_l mx (column_sum f r k')). pose proof (Rmax_r mx (column_sum f r k')).
      split; auto. split; [lra|]. split.
      + intros j Hj. destruct (Z.eq_dec j k'); [subst; auto|]. specialize (P1 j ltac:(lia)). lra.
      + right. destruct (Rle_dec (column_sum f r k') mx) as [L|L].
        * rewrite Rmax_left by auto. destruct P2 as [[-> ->]|(j & Hj & Ej)].
          -- exists 0. split; [lia|]. assert (0 <= column_sum f r 0)%R by (apply Rs_nonneg; intros; apply Rabs_pos). lra.
          -- exists j. split; [lia|auto].
        * rewrite Rmax_right by lra. exists k'. split; [lia|auto]. }
  destruct (G c ltac:(lia)) as (mx & E & P0 & P1 & P2). rewrite E. cbn [bind snd mv_end normVisitor].
  exists mx. split; auto. split; auto. destruct P2 as [[K _]|]; [lia|auto].
Qed.
Lemma trace m n f : library m -> MatIs m n n f -> m_Trace m = Ok (Rs 0 n (fun i => f i i)).
Proof. intros Hl H. rewrite (m_Trace_ok m n f Hl H). f_equal. apply fsum_Rs. Qed.
Lemma diag_inv_real d n (g : Z -> R) t : DiagIs (MDiag d) n g -> (0 <= t)%R -> (forall i, 0 <= i < n -> (t < Rabs (g i))%R) ->
  exists p, d_InverseWithThreshold d t = Ok p /\
    exists h, DiagIs (MDiag p) n h /\ meq n n (mmul n (diagonal g) (diagonal h)) idm /\ meq n n (mmul n (diagonal h) (diagonal g)) idm.
Proof.
  intros H Ht Hg. destruct (diag_inverse d n g t H) as [A _]. destruct A as (p & E & Hp).
  { intros i Hi. unfold equalsWithError. specialize (Hg i Hi). unfold fgt.
    change (@fulp1 ROps) with Reqb. change (@fsub ROps) with Rminus. change (@fabs ROps) with Rabs. change (@fzero ROps) with 0%R. change (@fle ROps) with Rleb.
    rewrite Rminus_0_l, ?Rabs_Ropp || rewrite ?Rminus_0_r. 
    assert (g i <> 0%R) by (intros E; rewrite E, Rabs_R0 in Hg; lra).
    rewrite (proj2 (Reqb_false _ _)) by auto. rewrite (proj2 (Rleb_false _ _)) by (rewrite ?Rabs_Ropp; auto). reflexivity. }
  unfold liftD in E. destruct (d_InverseWithThreshold d t) as [p0|e|e]; try discriminate. injection E as <-. exists p0. split; auto.
  exists (fun i => / g i)%R. assert (K : forall i, 0 <= i < n -> g i <> 0%R).
  { intros i Hi E. specialize (Hg i Hi). rewrite E, Rabs_R0 in Hg. lra. }
  split.
  - destruct Hp as [X Hp]. split; auto. eapply MatIs_ext; [exact Hp|]. intros i j Hi Hj. unfold diagonal. destruct (i =? j); auto.
    change (1 / g i = / g i)%R. unfold Rdiv. ring.
  - split; intros i j Hi Hj; rewrite diag_mmul by auto; unfold diagonal, idm; destruct (i =? j); try (change (@fzero ROps) with 0%R; lra); field; auto.
Qed.
Lemma norm_values (v : RealVector) n f : VecIs v n f ->
  (exists x, VecNorm v = Ok x /\ (0 <= x)%R /\ (x * x)%R = Rs 0 n (fun k => f k * f k)%R) /\
  VecL1Norm v = Ok (Rs 0 n (fun k => Rabs (f k))) /\
  (exists x, VecLInfNorm v = Ok x /\ (forall k, 0 <= k < n -> (Rabs (f k) <= x)%R) /\
     (n = 0 /\ x = 0%R \/ exists k, 0 <= k < n /\ x = Rabs (f k))).
Proof.
  intros H. pose proof (VecIs_dim _ _ _ H) as Hn. split; [|split].
  - exists (norm2 n f). split; [apply rnorm; auto|]. split; [apply sqrt_pos|apply norm2_sq].
  - apply rnorm1; auto.
  - exists (maxabs n f). split; [apply rnormi; auto|]. destruct (maxabs_spec n f Hn) as (H1 & H2 & H3). split; auto.
    destruct (Z.eq_dec n 0) as [->|]; [left; split; auto; reflexivity|]. right. destruct H3 as [E|]; auto. exists 0. split; [lia|].
    specialize (H2 0 ltac:(lia)). pose proof (Rabs_pos (f 0)). lra.
Qed.
Lemma linf_rows_refuted : exists (m : RealMatrix) r c f, library m /\ MatIs m r c f /\ 1 <= r /\ 1 <= c /\
  ~ exists x, MatLInfNorm m = Ok x /\ (forall i, 0 <= i < r -> (Rs 0 c (fun j => Rabs (f i j)) <= x)%R).
Proof.
  exists (rmat [[1; 1]; [0; 0]]%R), 2, 2, (rent [[1; 1]; [0; 0]]%R). split; [exact I|]. split; [apply rmat2_is|]. split; [lia|]. split; [lia|].
  intros (x & E & H). destruct (linf _ _ _ _ (rmat_lib _) (rmat2_is 1 1 0 0)) as (y & E' & _ & j & Hj & Ey); try lia. rewrite E in E'. injection E' as <-.
  specialize (H 0 ltac:(lia)). rewrite Rs_2 in H. unfold column_sum in Ey. rewrite Rs_2 in Ey.
  assert (E0 : forall a b c d : R, rent [[a; b]; [c; d]] 0 0 = a /\ rent [[a; b]; [c; d]] 0 1 = b /\ rent [[a; b]; [c; d]] 1 0 = c /\ rent [[a; b]; [c; d]] 1 1 = d)
    by (intros; repeat split; reflexivity).
  destruct (E0 1%R 1%R 0%R 0%R) as (A & B & C & D).
  assert (j = 0 \/ j = 1) as [-> | ->] by lia; rewrite A, B in H; rewrite ?A, ?B, ?C, ?D in Ey; rewrite ?Rabs_R1, ?Rabs_R0 in *; change (@F ROps) with R in *; lra.
Qed.
Definition proj_obs (u v : list SpecFloat.spec_float) : option (list SpecFloat.spec_float * list SpecFloat.spec_float) :=
  match Projection (O := E64) (@VArr E64 u) (@VArr E64 v) with Ok (w, dest) => Some (@v_data E64 w, @v_data E64 dest) | _ => None end.
Lemma projection_mutates : exists (O : Ops) (u v w dest : @RealVector O), Projection u v = Ok (w, dest) /\ dest <> v.
Proof.
  assert (E : proj_obs (fls [6; 8]) (fls [1; 0]) = Some (fls [6; 0], fls [6; 0])) by (vm_compute; reflexivity).
  unfold proj_obs in E. destruct (Projection (O := E64) (@VArr E64 (fls [6; 8])) (@VArr E64 (fls [1; 0]))) as [[w dest]| |] eqn:P; try discriminate.
  exists E64, (@VArr E64 (fls [6; 8])), (@VArr E64 (fls [1; 0])), w, dest. split; [exact P|]. intros ->. cbn [v_data] in E. discriminate E.
Qed.

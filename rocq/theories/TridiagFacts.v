(** The tridiagonal transform, for arbitrary scalar operations: closed forms. *)
From Coq Require Import ZArith QArith List Lia Bool.
From Verif Require Import Base BaseLemmas Wpe Scalar Vector VecSpec VectorFacts Matrix MatSpec MatFacts Array2D BlockM Diagonal RealMatrixM Array2DFacts MatrixOps MatHist MatProps BlockFacts RealMat2 RealMat3 TabTac FSum CholFacts LUFacts2 QRFacts Tridiag HessSpec.
Import ListNotations.
Open Scope Z_scope.

Section TridiagFacts.
Context {O : Ops}.

Section Step.
Variable m : Z.
Variable M : Z -> Z -> F.
Variable k : Z.
Definition td_a : F := hh_a m (M k) (k + 1).
Definition td_v (j : Z) : F := hh_v m (M k) (k + 1) j.
Definition td_beta : F := (fneg fone / (td_a * td_v (k + 1)%Z))%f.
Definition td_z1 (i : Z) : F := (td_beta * (fadds fzero (k + 1)%Z i (fun t => M t i * td_v t) + fadds (M i i * td_v i) (i + 1)%Z m (fun j => M i j * td_v j)))%f.
Definition td_gamma : F := (fadds fzero (k + 1)%Z m (fun i => td_z1 i * td_v i) * (td_beta / flit (2#1)%Q))%f.
Definition td_z2 (i : Z) : F := (td_z1 i - td_gamma * td_v i)%f.
Definition td_M (i j : Z) : F :=
  if i =? k then td_v j else
  if feq td_a fzero then M i j else
  if (k <? i) && (i <=? j) then (M i j - (td_v i * td_z2 j + td_z2 i * td_v j))%f else M i j.
End Step.
Definition td_upd (D : Z -> F) (k : Z) (x : F) (i : Z) : F := if i =? k then x else D i.
Definition td_st : Type := (Z -> Z -> F) * (Z -> F) * (Z -> F).
Definition td_stp (m k : Z) (s : td_st) : td_st :=
  let '(M, D, Sc) := s in (td_M m M k, td_upd D k (M k k), td_upd Sc k (td_a m M k)).
Definition td_iter (m : Z) (A : Z -> Z -> F) (k : Z) : td_st := accum (td_stp m) (Z.to_nat k) (A, fun _ => fzero, fun _ => fzero).

Lemma td_v_row m M k j : j <> k + 1 -> td_v m M k j = M k j.
Proof. intros H. unfold td_v, hh_v. destruct (feq _ _); auto. zbq; auto. Qed.

Lemma td_product_ok m k beta hv M z Z0 v : RTab hv m m M -> VTab z m Z0 -> 0 <= k -> k + 1 <= m -> (forall j, k < j < m -> M k j = v j) ->
  wp (td_product m k beta hv z) (fun z' => VTab z' m (fun i => if i <? k + 1 then Z0 i else
    (beta * (fadds fzero (k + 1)%Z i (fun t => M t i * v t) + fadds (M i i * v i) (i + 1)%Z m (fun j => M i j * v j)))%f)).
Proof.
  intros H Hz Hk Hkm Hv. unfold td_product. apply wp_bind.
  apply (wp_vecloop (fun _ => fzero) z m Z0 (k + 1) m _ _ Hz); try lia; [auto|]. intros z1 Hz1.
  apply (wp_for (fun c z => VTab z m (fun i => if i <? k + 1 then Z0 i else
    if i <? c then (beta * (fadds fzero (k + 1)%Z i (fun t => M t i * v t) + fadds (M i i * v i) (i + 1)%Z m (fun j => M i j * v j)))%f
    else fadds fzero (k + 1)%Z c (fun t => M t i * v t)%f))); [lia| | |].
  - eapply VTab_ext; [exact Hz1|]. intros i Hi. unfold vecpart. zbq; auto; rewrite fadds_nil by lia; auto.
  - intros i z2 Hi Hz2. repeat tget. apply wp_bind. rewrite Hv by lia.
    apply (wp_for (fun c s => fst s = fadds (M i i * v i)%f (i + 1)%Z c (fun j => M i j * v j)%f /\ VTab (snd s) m (fun p => if p <? k + 1 then Z0 p else
      if p <? i then (beta * (fadds fzero (k + 1)%Z p (fun t => M t p * v t) + fadds (M p p * v p) (p + 1)%Z m (fun j => M p j * v j)))%f
      else if (i <? p) && (p <? c) then fadds fzero (k + 1)%Z (i + 1)%Z (fun t => M t p * v t)%f else fadds fzero (k + 1)%Z i (fun t => M t p * v t)%f))); [lia| | |].
    + cbn [fst snd]. rewrite fadds_nil by lia. split; auto. eapply VTab_ext; [exact Hz2|]. intros p Hp. cbn beta. zbq; auto.
    + intros j [zI z3] Hj [EI H3]. cbn [fst snd] in *. repeat tget. rewrite (Hv j) by lia. vget. vput z4 H4. apply wp_ok. cbn [fst snd]. split.
      * rewrite fadds_S by lia. rewrite EI. auto.
      * eapply VTab_ext; [exact H4|]. intros p Hp. cbn beta. destruct (Z.eqb_spec p j) as [->|]; [|zbq; auto].
        zbq. rewrite fadds_S by lia. auto.
    + intros [zI z3] [EI H3]. cbn [fst snd] in *. vget. subst zI.
      match goal with |- wp (zset z3 i ?x) _ => destruct (VTab_set z3 m _ i x H3) as (z4 & E4 & H4); [lia|] end.
      rewrite E4. apply wp_ok. eapply VTab_ext; [exact H4|]. intros p Hp. cbn beta. destruct (Z.eqb_spec p i) as [->|]; [|zbq; auto].
      rewrite !Z.ltb_irrefl. cbn [andb]. zbq. auto.
  - intros z2 Hz2. eapply VTab_ext; [exact Hz2|]. intros i Hi. cbn beta. zbq; auto.
Qed.
Lemma td_update_ok m k hv M z w v : RTab hv m m M -> VTab z m w -> 0 <= k -> k + 1 <= m -> (forall j, k < j < m -> M k j = v j) ->
  wp (td_update m k hv z) (fun d => RTab d m m (fun i j => if (k <? i) && (i <=? j) then (M i j - (v i * w j + w i * v j))%f else M i j)).
Proof.
  intros H Hz Hk Hkm Hv. unfold td_update.
  apply (wp_for (fun c d => RTab d m m (fun i j => if (k <? i) && (i <? c) && (i <=? j) then (M i j - (v i * w j + w i * v j))%f else M i j))); [lia| | |].
  - eapply RTab_ext; [exact H|]. intros i j Hi Hj. cbn beta. zbq; auto.
  - intros i d Hi Hd.
    apply (wp_rowloop (fun j => M i j - (v i * w j + w i * v j))%f d m m _ i i m _ _ Hd); try lia.
    + intros j d' Hj Hd'. repeat tget. repeat vget. unfold rowpart. f_equal.
      replace ((k =? i) && (i <=? i) && (i <? j)) with false by (zbq; auto). replace ((k =? i) && (i <=? j) && (j <? j)) with false by (zbq; auto).
      replace ((k <? k) && (k <? i) && (k <=? i)) with false by (zbq; auto). replace ((k <? k) && (k <? i) && (k <=? j)) with false by (zbq; auto).
      rewrite !Hv by lia. f_equal. zbq; auto.
    + intros d' Hd'. eapply RTab_ext; [exact Hd'|]. intros p q Hp Hq. cbn beta. rp.
  - intros d Hd. eapply RTab_ext; [exact Hd|]. intros i j Hi Hj. cbn beta. zbq; auto.
Qed.

Lemma td_step_ok m hv M mn D sec Sc z Z0 k : RTab hv m m M -> VTab mn m D -> VTab sec (m - 1) Sc -> VTab z m Z0 -> 0 <= k < m - 1 ->
  wp (td_step m k (hv, mn, sec, z)) (fun s => let '(hv', mn', sec', z') := s in
    RTab hv' m m (td_M m M k) /\ VTab mn' m (td_upd D k (M k k)) /\ VTab sec' (m - 1) (td_upd Sc k (td_a m M k)) /\ exists Z1, VTab z' m Z1).
Proof.
  intros H HD HS Hz Hk. unfold td_step. tget. vput mn1 HD1.
  assert (HD2 : VTab mn1 m (td_upd D k (M k k))) by (eapply VTab_ext; [exact HD1|]; intros; unfold td_upd; cbn beta; zbq; subst; auto). clear HD1.
  rewrite (for_adds (fun r => M k r * M k r)%f) by (try lia; intros; tget; auto). cbn [bind]. tget.
  match goal with |- context [if fgt ?a ?b then ?c else ?d] => change (if fgt a b then c else d) with (td_a m M k) end.
  vput sec1 HS1. assert (HS2 : VTab sec1 (m - 1) (td_upd Sc k (td_a m M k))) by (eapply VTab_ext; [exact HS1|]; intros; unfold td_upd; cbn beta; zbq; subst; auto). clear HS1.
  destruct (feq (td_a m M k) fzero) eqn:Ea.
  - apply wp_ok. split; [|eauto]. eapply RTab_ext; [exact H|]. intros i j Hi Hj. unfold td_M. rewrite Ea. zbq; auto. subst. unfold td_v, hh_v. unfold td_a in Ea. rewrite Ea. auto.
  - tput d1 H1. assert (H2 : RTab d1 m m (fun i j => if i =? k then td_v m M k j else M i j)).
    { eapply RTab_ext; [exact H1|]. intros i j Hi Hj. cbn beta. unfold tset, td_v, hh_v. unfold td_a in Ea. rewrite Ea. fold (td_a m M k). zbq; subst; auto. }
    clear H1. tget. rewrite Z.eqb_refl. fold (td_beta m M k). apply wp_bind.
    eapply wp_conseq; [apply (td_product_ok m k (td_beta m M k) d1 _ z Z0 (td_v m M k) H2 Hz); try lia; intros; zbq; auto|]. cbn beta. intros z1 Hz1.
    assert (Hz2 : VTab z1 m (fun i => if i <? k + 1 then Z0 i else td_z1 m M k i)).
    { eapply VTab_ext; [exact Hz1|]. intros i Hi. cbn beta. unfold td_z1. destruct (Z.ltb_spec i (k + 1)); auto. destruct (Z.eqb_spec i k); [lia|].
      f_equal. f_equal. apply fadds_ext. intros t Ht. zbq; auto. }
    clear Hz1. rewrite (for_adds (fun i => td_z1 m M k i * td_v m M k i)%f) by (try lia; intros; vget; tget; zbq; auto). cbn [bind].
    fold (td_gamma m M k). apply wp_bind.
    apply (wp_vecloop (td_z2 m M k) z1 m _ (k + 1) m _ _ Hz2); try lia.
    { intros i z' Hi Hz'. vget. tget. unfold vecpart. zbq. auto. }
    intros z2 Hz3. apply wp_bind.
    eapply wp_conseq; [apply (td_update_ok m k d1 _ z2 _ (td_v m M k) H2 Hz3); try lia; intros; zbq; auto|]. cbn beta. intros d2 H3. apply wp_ok.
    split; [|eauto]. eapply RTab_ext; [exact H3|]. intros i j Hi Hj. cbn beta. unfold td_M, vecpart. rewrite Ea.
    destruct (Z.eqb_spec i k); [zbq; subst; auto|]. zbq; auto.
Qed.

Definition td_fin (m : Z) (A : Z -> Z -> F) : td_st := let '(M, D, Sc) := td_iter m A (m - 1) in (M, td_upd D (m - 1) (M (m - 1)%Z (m - 1)%Z), Sc).
Lemma td_new_spec x m A : library x -> MatIs x m m A -> 1 <= m ->
  wp (NewTriDiagonalTransformer x) (fun d => let '(M, D, Sc) := td_fin m A in RTab (td_hv d) m m M /\ VTab (td_main d) m D /\ VTab (td_sec d) (m - 1) Sc /\
    td_cachedQ d = None /\ td_cachedQt d = None /\ td_cachedT d = None).
Proof.
  intros Hl Hx Hm. unfold NewTriDiagonalTransformer, IsSquare. rewrite (MatIs_rows _ _ _ _ Hx), (MatIs_cols _ _ _ _ Hx). cbn [bind]. rewrite Z.eqb_refl. cbn [negb].
  apply wp_bind. eapply wp_conseq; [apply (m_Data_ok x m m _ Hl Hx)|]. cbn beta. intros hv Hv.
  destruct (make_VTab m ltac:(lia)) as (mn & E1 & HD). rewrite E1. cbn [bind].
  destruct (make_VTab (m - 1) ltac:(lia)) as (sec & E2 & HS). rewrite E2. cbn [bind]. rewrite (RTab_len _ _ _ _ Hv).
  rewrite E1. cbn [bind]. apply wp_bind.
  apply (wp_for (fun k s => let '(hv, mn, sec, z) := s in let '(M, D, Sc) := td_iter m A k in
    RTab hv m m M /\ VTab mn m D /\ VTab sec (m - 1) Sc /\ exists Z1, VTab z m Z1)); [lia| | |].
  - cbn. eauto 6.
  - intros k [[[hv1 mn1] sec1] z1] Hk HI. unfold td_iter. rewrite accum_S by lia. fold (td_iter m A k). destruct (td_iter m A k) as [[M D] Sc].
    destruct HI as (H1 & H2 & H3 & Z1 & H4). eapply wp_conseq; [apply (td_step_ok m hv1 M mn1 D sec1 Sc z1 Z1 k H1 H2 H3 H4); lia|]. cbn beta.
    intros [[[hv2 mn2] sec2] z2] K. exact K.
  - intros [[[hv1 mn1] sec1] z1] HI. unfold td_fin. destruct (td_iter m A (m - 1)) as [[M D] Sc]. destruct HI as (H1 & H2 & H3 & Z1 & H4).
    tget. vput mn2 H5. apply wp_ok. cbn. split; auto.
Qed.
Lemma td_new_nonsquare x r c A : MatIs x r c A -> r <> c -> NewTriDiagonalTransformer x = Err ENonSquare.
Proof.
  intros Hx Hr. unfold NewTriDiagonalTransformer, IsSquare. rewrite (MatIs_rows _ _ _ _ Hx), (MatIs_cols _ _ _ _ Hx). cbn [bind].
  destruct (Z.eqb_spec c r); [congruence|]. reflexivity.
Qed.

(** ** Accessors *)
Section Tabs.
Variable m : Z.
Variable M : Z -> Z -> F.
Variables D Sc : Z -> F.
Definition td_tabT (i j : Z) : F := if i =? j then D i else if i =? j + 1 then Sc j else if j =? i + 1 then Sc i else fzero.
Definition tq_unit (T : Z -> Z -> F) (k i j : Z) : F := if (i =? k) && (j =? k) then fone else T i j.
Definition tq_beta (k : Z) (T : Z -> Z -> F) (j : Z) : F := (fadds fzero (k + 1)%Z m (fun i => T j i * M (k - 1)%Z i) * (fone / (Sc (k - 1)%Z * M (k - 1)%Z k)))%f.
Definition tq_step (k : Z) (T : Z -> Z -> F) (i j : Z) : F :=
  if feq (M (k - 1) k) fzero then tq_unit T k i j else
  if i =? k then (if j =? k then (fone + (fone / Sc (k - 1)%Z) * M (k - 1)%Z k)%f else if k <? j then ((fone / Sc (k - 1)%Z) * M (k - 1)%Z j)%f else T i j) else
  if k <? i then (if j =? k then (tq_beta k T i * M (k - 1)%Z k)%f else if k <? j then (T i j + tq_beta k T i * M (k - 1)%Z j)%f else T i j) else T i j.
(** After the steps m-1, ..., k. *)
Definition tq_iter (k : Z) : Z -> Z -> F := accum (fun t T => tq_step (m - 1 - t) T) (Z.to_nat (m - k)) (fun _ _ => fzero).
Definition td_tabQT : Z -> Z -> F := tq_unit (tq_iter 1) 0.
Lemma tq_iter_S k : k < m -> tq_iter k = tq_step k (tq_iter (k + 1)).
Proof.
  intros Hk. unfold tq_iter. replace (m - k) with (m - (k + 1) + 1) by lia. rewrite accum_S by lia. f_equal. lia.
Qed.
Definition td_ok (d : TdD) : Prop :=
  RTab (td_hv d) m m M /\ VTab (td_main d) m D /\ VTab (td_sec d) (m - 1) Sc /\
  tcache (td_cachedQ d) m m (fun i j => td_tabQT j i) /\ tcache (td_cachedQt d) m m td_tabQT /\ tcache (td_cachedT d) m m td_tabT.
End Tabs.
Ltac tdok := refine (conj _ (conj _ (conj _ (conj _ (conj _ _))))); auto; try (split; auto; fail).

Lemma td_T_ok m M D Sc d : 1 <= m -> td_ok m M D Sc d ->
  wp (td_T d) (fun r => general (fst r) /\ MatIs (fst r) m m (td_tabT D Sc) /\ td_ok m M D Sc (snd r)).
Proof.
  intros Hm (HT & HD & HS & CQ & CQt & CT). unfold td_T. destruct (td_cachedT d) as [r|] eqn:Ec.
  - apply wp_ok. cbn [fst snd]. destruct CT as [G1 G2]. refine (conj G1 (conj G2 _)). unfold td_ok. rewrite Ec. tdok.
  - rewrite (VTab_len _ _ _ HD). apply wp_bind. eapply wp_conseq; [apply (make2_spec m m); lia|]. cbn beta. intros t0 H0. apply wp_bind.
    apply (wp_for (fun k h => RTab h m m (fun i j => if i <? k then td_tabT D Sc i j else fzero))); [lia| | |].
    + eapply RTab_ext; [exact H0|]. intros i j Hi Hj. cbn beta. zbq; auto.
    + intros i t Hi Ht. vget. tput t1 H1. apply wp_bind.
      assert (K : wp (if 0 <? i then let* x := zget (td_sec d) (i - 1) in mset t1 i (i - 1) x else Ok t1)
        (fun h => RTab h m m (fun p q => if (p <? i) || (p =? i) && ((p =? q) || (p =? q + 1)) then td_tabT D Sc p q else fzero))).
      { destruct (Z.ltb_spec 0 i).
        - vget. destruct (RTab_set t1 m m _ i (i - 1) (Sc (i - 1)) H1) as (h2 & -> & H2); [lia|lia|]. apply wp_ok.
          eapply RTab_ext; [exact H2|]. intros p q Hp Hq. cbn beta. unfold tset, td_tabT. zbq; subst; auto; f_equal; lia.
        - apply wp_ok. eapply RTab_ext; [exact H1|]. intros p q Hp Hq. cbn beta. unfold tset, td_tabT. zbq; subst; auto. }
      eapply wp_conseq; [exact K|]. cbn beta. intros t2 H2. destruct (Z.ltb_spec i (m - 1)).
      * vget. destruct (RTab_set t2 m m _ i (i + 1) (Sc i) H2) as (h3 & -> & H3); [lia|lia|]. apply wp_ok.
        eapply RTab_ext; [exact H3|]. intros p q Hp Hq. cbn beta. unfold tset, td_tabT. zbq; subst; auto; f_equal; lia.
      * apply wp_ok. eapply RTab_ext; [exact H2|]. intros p q Hp Hq. cbn beta. unfold td_tabT. zbq; subst; auto.
    + intros h Hh. assert (H2 : RTab h m m (td_tabT D Sc)) by (eapply RTab_ext; [exact Hh|]; intros; cbn beta; zbq; auto).
      destruct (FromSlices_RTab h m m _ ltac:(lia) ltac:(lia) H2) as (r & -> & Hg & Hr). cbn [orpanic bind]. apply wp_ok. cbn [fst snd].
      refine (conj Hg (conj Hr _)). unfold td_ok. cbn. tdok.
Qed.
Lemma td_QT_ok m M D Sc d : 1 <= m -> td_ok m M D Sc d ->
  wp (td_QT d) (fun r => general (fst r) /\ MatIs (fst r) m m (td_tabQT m M Sc) /\ td_ok m M D Sc (snd r)).
Proof.
  intros Hm (HT & HD & HS & CQ & CQt & CT). unfold td_QT. destruct (td_cachedQt d) as [r|] eqn:Ec.
  - apply wp_ok. cbn [fst snd]. destruct CQt as [G1 G2]. refine (conj G1 (conj G2 _)). unfold td_ok. rewrite Ec. tdok.
  - rewrite (RTab_len _ _ _ _ HT). apply wp_bind. eapply wp_conseq; [apply (make2_spec m m); lia|]. cbn beta. intros q0 H0. apply wp_bind.
    apply (wp_for_down (fun k q => RTab q m m (tq_iter m M Sc k))); [lia| | |].
    + replace (m - 1 + 1) with m by lia. unfold tq_iter. rewrite Z.sub_diag. exact H0.
    + intros k q Hk Hq. rewrite tq_iter_S by lia. remember (tq_iter m M Sc (k + 1)) as T eqn:ET.
      tput q1 H1. assert (H1' : RTab q1 m m (tq_unit T k)) by exact H1. clear H1. tget. unfold tq_step. destruct (feq (M (k - 1) k) fzero) eqn:E0.
      { apply wp_ok. exact H1'. }
      repeat vget. tput q2 H2. apply wp_bind.
      apply (wp_rowloop (fun i => (fone / Sc (k - 1)%Z) * M (k - 1)%Z i)%f q2 m m _ k (k + 1) m _ _ H2); try lia.
      { intros i q' Hi Hq'. tget. auto. }
      intros q3 H3.
      apply (wp_for (fun c q => RTab q m m (fun i j =>
        if i =? k then (if j =? k then (fone + (fone / Sc (k - 1)%Z) * M (k - 1)%Z k)%f else if k <? j then ((fone / Sc (k - 1)%Z) * M (k - 1)%Z j)%f else T i j) else
        if (k <? i) && (i <? c) then (if j =? k then (tq_beta m M Sc k T i * M (k - 1)%Z k)%f else if k <? j then (T i j + tq_beta m M Sc k T i * M (k - 1)%Z j)%f else T i j) else T i j))); [lia| | |].
      * eapply RTab_ext; [exact H3|]. intros i j Hi Hj. cbn beta. unfold tq_unit. rp.
      * intros j q4 Hj H4. rewrite (for_adds (fun i => T j i * M (k - 1)%Z i)%f) by (try lia; intros; repeat tget; zbq; auto). cbn [bind]. fold (tq_beta m M Sc k T j).
        tput q5 H5.
        apply (wp_rowloop (fun i => T j i + tq_beta m M Sc k T j * M (k - 1)%Z i)%f q5 m m _ j (k + 1) m _ _ H5); try lia.
        -- intros i q' Hi Hq'. repeat tget. f_equal. f_equal. unfold rowpart, tset. zbq; auto.
        -- intros q' Hq'. eapply RTab_ext; [exact Hq'|]. intros a b Ha Hb. cbn beta. rp.
      * intros q4 H4. eapply RTab_ext; [exact H4|]. intros i j Hi Hj. cbn beta. zbq; auto.
    + intros q1 H1. tput q2 H2.
      destruct (FromSlices_RTab q2 m m _ ltac:(lia) ltac:(lia) H2) as (r & -> & Hg & Hr). cbn [orpanic bind]. apply wp_ok. cbn [fst snd].
      refine (conj Hg (conj Hr _)). unfold td_ok. cbn. tdok.
Qed.
Lemma td_Q_ok m M D Sc d : 1 <= m -> td_ok m M D Sc d ->
  wp (td_Q d) (fun r => general (fst r) /\ MatIs (fst r) m m (fun i j => td_tabQT m M Sc j i) /\ td_ok m M D Sc (snd r)).
Proof.
  intros Hm H. unfold td_Q. destruct (td_cachedQ d) as [r|] eqn:Ec.
  - destruct H as (HT & HD & HS & CQ & CQt & CT). rewrite Ec in CQ.
    apply wp_ok. cbn [fst snd]. destruct CQ as [G1 G2]. refine (conj G1 (conj G2 _)). unfold td_ok. rewrite Ec. tdok.
  - apply wp_bind. eapply wp_conseq; [apply (td_QT_ok m M D Sc d Hm H)|]. cbn beta. intros [t d1] (Hg & Ht & H1). cbn [fst snd] in *.
    destruct (m_Transpose_ok t m m _ Hg Ht) as (r & -> & Hgr & Hr). cbn [bind]. apply wp_ok. cbn [fst snd].
    refine (conj Hgr (conj Hr _)). destruct H1 as (HT & HD & HS & CQ & CQt & CT). unfold td_ok. cbn. tdok.
Qed.
Lemma td_calls_ok m M D Sc d d' : 1 <= m -> td_ok m M D Sc d -> td_calls d d' -> td_ok m M D Sc d'.
Proof.
  intros Hm Hd Hc. induction Hc as [d|d d1 d2 x E _ IH|d d1 d2 x E _ IH|d d1 d2 x E _ IH]; auto; apply IH.
  - destruct (td_Q_ok m M D Sc d Hm Hd) as ([x' d1'] & E' & _ & _ & K). rewrite E in E'. injection E' as <- <-. exact K.
  - destruct (td_QT_ok m M D Sc d Hm Hd) as ([x' d1'] & E' & _ & _ & K). rewrite E in E'. injection E' as <- <-. exact K.
  - destruct (td_T_ok m M D Sc d Hm Hd) as ([x' d1'] & E' & _ & _ & K). rewrite E in E'. injection E' as <- <-. exact K.
Qed.
Lemma td_state x m A d : library x -> MatIs x m m A -> 1 <= m -> td_of x d -> let '(M, D, Sc) := td_fin m A in td_ok m M D Sc d.
Proof.
  intros Hl Hx Hm (d0 & E & Hc). pose proof (td_new_spec x m A Hl Hx Hm) as W. destruct (td_fin m A) as [[M D] Sc].
  eapply td_calls_ok; [auto| |exact Hc]. destruct W as (d1 & E1 & H1 & H2 & H3 & C1 & C2 & C3). rewrite E in E1. injection E1 as <-.
  unfold td_ok. rewrite C1, C2, C3. refine (conj H1 (conj H2 (conj H3 _))). repeat split.
Qed.

(** ** Only the upper triangle is read *)
Definition eqU (m : Z) (A B : Z -> Z -> F) : Prop := forall i j, 0 <= i <= j -> j < m -> A i j = B i j.
Lemma hh_a_ext m x y k : (forall j, k <= j < m -> x j = y j) -> k < m -> hh_a m x k = hh_a m y k.
Proof.
  intros H Hk. unfold hh_a, hh_norm. rewrite (fadds_ext fzero k m _ (fun r => y r * y r)%f) by (intros; rewrite !H by auto; auto). rewrite H by lia. auto.
Qed.
Lemma td_step_upper m A B k : eqU m A B -> 0 <= k < m - 1 -> td_a m A k = td_a m B k /\ eqU m (td_M m A k) (td_M m B k).
Proof.
  intros H Hk. assert (Ea : td_a m A k = td_a m B k) by (apply hh_a_ext; [intros; apply H|]; lia). split; auto.
  assert (Ev : forall j, k <= j < m -> td_v m A k j = td_v m B k j).
  { intros j Hj. unfold td_v, hh_v. fold (td_a m A k) (td_a m B k). rewrite Ea, !(H k) by lia. auto. }
  assert (Eb : td_beta m A k = td_beta m B k) by (unfold td_beta; rewrite Ea, Ev by lia; auto).
  assert (Ez : forall i, k < i < m -> td_z1 m A k i = td_z1 m B k i).
  { intros i Hi. unfold td_z1. rewrite Eb, (H i i), (Ev i) by lia. f_equal. f_equal; apply fadds_ext; intros t Ht; rewrite H, Ev by lia; auto. }
  assert (Eg : td_gamma m A k = td_gamma m B k).
  { unfold td_gamma. rewrite Eb. f_equal. apply fadds_ext. intros t Ht. rewrite Ez, Ev by lia. auto. }
  intros i j Hij Hj. unfold td_M, td_z2. rewrite Ea, Eg. destruct (Z.eqb_spec i k) as [->|]; [apply Ev; lia|]. destruct (feq _ _); [apply H; auto|].
  destruct (Z.ltb_spec k i); cbn [andb]; [|apply H; auto]. zbq. rewrite !Ez, !Ev, H by lia. auto.
Qed.
Lemma td_iter_upper m A B k : eqU m A B -> 0 <= k -> k <= m - 1 ->
  let '(M, D, Sc) := td_iter m A k in let '(M', D', Sc') := td_iter m B k in eqU m M M' /\ (forall i, D i = D' i) /\ (forall i, Sc i = Sc' i).
Proof.
  intros H Hk. pattern k. apply natlike_ind; auto.
  - intros _. cbn. auto.
  - intros t Ht IH Htm. change (Z.succ t) with (t + 1) in *. unfold td_iter. rewrite !accum_S by lia. fold (td_iter m A t) (td_iter m B t).
    specialize (IH ltac:(lia)). destruct (td_iter m A t) as [[M D] Sc], (td_iter m B t) as [[M' D'] Sc']. destruct IH as (I1 & I2 & I3).
    destruct (td_step_upper m M M' t I1 ltac:(lia)) as [Ea EM]. cbn. split; [auto|]. split; intros i; unfold td_upd; rewrite ?Ea, ?I2, ?I3, ?(I1 t t) by lia; auto.
Qed.
Lemma td_fin_upper m A B : eqU m A B -> 1 <= m ->
  let '(M, D, Sc) := td_fin m A in let '(M', D', Sc') := td_fin m B in eqU m M M' /\ (forall i, D i = D' i) /\ (forall i, Sc i = Sc' i).
Proof.
  intros H Hm. unfold td_fin. pose proof (td_iter_upper m A B (m - 1) H ltac:(lia) ltac:(lia)) as K.
  destruct (td_iter m A (m - 1)) as [[M D] Sc], (td_iter m B (m - 1)) as [[M' D'] Sc']. destruct K as (I1 & I2 & I3).
  split; auto. split; auto. intros i. unfold td_upd. rewrite I2, (I1 (m - 1) (m - 1)) by lia. auto.
Qed.
Lemma tq_upper m M Sc M' Sc' k : eqU m M M' -> (forall i, Sc i = Sc' i) -> 1 <= k <= m -> forall i j, 0 <= i < m -> 0 <= j < m -> tq_iter m M Sc k i j = tq_iter m M' Sc' k i j.
Proof.
  intros HM HS [Hk Hkm]. replace k with (m - (m - k)) by lia. assert (Hq : 0 <= m - k) by lia. assert (Hq2 : m - k <= m - 1) by lia. revert Hq2. pattern (m - k).
  apply natlike_ind; auto.
  - intros _ i j _ _. rewrite Z.sub_0_r. unfold tq_iter. rewrite Z.sub_diag. auto.
  - intros t Ht IH Hq2 i j Hi Hj. change (Z.succ t) with (t + 1) in *. specialize (IH ltac:(lia)). rewrite (tq_iter_S m M Sc (m - (t + 1))), (tq_iter_S m M' Sc' (m - (t + 1))) by lia. replace (m - (t + 1) + 1) with (m - t) by lia.
    set (q := m - (t + 1)) in *. set (T := tq_iter m M Sc (m - t)) in *. set (T' := tq_iter m M' Sc' (m - t)) in *.
    assert (Eb : forall i, 0 <= i < m -> tq_beta m M Sc q T i = tq_beta m M' Sc' q T' i).
    { intros r Hr. unfold tq_beta. rewrite HS, HM by lia. f_equal. apply fadds_ext. intros s Hs. rewrite IH, HM by lia. auto. }
    unfold tq_step, tq_unit. rewrite HS, (HM (q - 1) q) by lia. rewrite Eb by auto. rewrite IH by auto.
    destruct (feq _ _); auto. zbq; auto; try (rewrite HM by lia; auto; fail).
Qed.
End TridiagFacts.

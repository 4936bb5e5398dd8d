(** The QR properties in exact arithmetic assembled. *)
From Coq Require Import ZArith List Lia Bool Reals Lra.
From Verif Require Import Base BaseLemmas Wpe Scalar Vector VecSpec VectorFacts Matrix MatSpec MatFacts Array2D BlockM Diagonal RealMatrixM Array2DFacts MatrixOps MatHist MatProps DiagSpec DiagFacts DiagFacts3 DiagProps TabTac FSum QR QRSpec QRFacts QRFacts2 QRFacts3 LUSpec LUFacts2 RealOps RSum RealMat RealMat2 RealMat3 Det Tri LUReal CholFacts House QRReal QRReal2 QRReal3 QRProps.
Import ListNotations.
Open Scope Z_scope.
#[local] Existing Instance ROps.

Lemma real_transposable (x : @RealMatrix ROps) : library x -> transposable x.
Proof. intros H. right. split; auto. unfold zero_like. apply Reqb_true. reflexivity. Qed.
Notation qM m n A := (fst (hh_iter (O := ROps) m A (Z.min m n))).
Notation qD m n A := (snd (hh_iter (O := ROps) m A (Z.min m n))).
Lemma qr_state_R (x : @RealMatrix ROps) m n A thr d : library x -> MatIs x m n A -> 1 <= m -> 1 <= n -> qr_of x thr d ->
  qr_ok (O := ROps) m n (qM m n A) (qD m n A) thr d /\ qinv m n A (Z.min m n) (qM m n A) (qD m n A).
Proof.
  intros Hl Hx Hm Hn Hd. split; [exact (qr_state x m n A thr d (real_transposable _ Hl) Hx Hm Hn Hd)|]. apply qinv_iter. lia.
Qed.

Lemma qr_factor (x : @RealMatrix ROps) m n A thr d : library x -> MatIs x m n A -> 1 <= m -> 1 <= n -> qr_of x thr d ->
  exists Qm Tm Rm Q T U d1 d2 d3, qr_Q d = Ok (Qm, d1) /\ qr_QT d = Ok (Tm, d2) /\ qr_R d = Ok (Rm, d3) /\
    MatIs Qm m m Q /\ MatIs Tm m m T /\ MatIs Rm m n U /\
    meq m n (mmul m Q U) A /\ orthogonal m Q /\ meq m m T (trm Q) /\ (forall i j, 0 <= j < i -> i < m -> U i j = 0%R).
Proof.
  intros Hl Hx Hm Hn Hd. destruct (qr_state_R x m n A thr d Hl Hx Hm Hn Hd) as [K Inv].
  destruct (qr_Q_ok _ _ _ _ _ _ Hm Hn K) as ([a1 d1] & E1 & _ & H1 & _). destruct (qr_QT_ok _ _ _ _ _ _ Hm Hn K) as ([a2 d2] & E2 & _ & H2 & _).
  destruct (qr_R_ok _ _ _ _ _ _ Hm Hn K) as ([a3 d3] & E3 & _ & H3 & _). cbn [fst snd] in *.
  exists a1, a2, a3, (trm (tabQT (O := ROps) m n (qM m n A) (qD m n A))), (tabQT (O := ROps) m n (qM m n A) (qD m n A)), (tabR (O := ROps) m n (qM m n A) (qD m n A)), d1, d2, d3.
  do 6 (split; [auto|]). split; [apply Q_R; auto|]. split; [apply orth_tr, (QT_orth m n A); auto|]. split; [intros i j _ _; reflexivity|].
  intros. apply R_upper; lia.
Qed.
Lemma qr_reflectors (x : @RealMatrix ROps) m n A thr d : library x -> MatIs x m n A -> 1 <= m -> 1 <= n -> qr_of x thr d ->
  exists Tm Rm Hm T U H d1 d2 d3, qr_QT d = Ok (Tm, d1) /\ qr_R d = Ok (Rm, d2) /\ qr_H d = Ok (Hm, d3) /\
    MatIs Tm m m T /\ MatIs Rm m n U /\ MatIs Hm m n H /\
    (forall i j, 0 <= i < j -> j < n -> H i j = 0%R) /\
    ((forall i, 0 <= i < Z.min m n -> U i i <> 0%R) ->
       meq m m T (accum (fun k T => mmul m (reflector H k) T) (Z.to_nat (Z.min m n)) idm)).
Proof.
  intros Hl Hx Hm Hn Hd. destruct (qr_state_R x m n A thr d Hl Hx Hm Hn Hd) as [K Inv].
  destruct (qr_H_ok _ _ _ _ _ _ Hm Hn K) as ([a1 d1] & E1 & _ & H1 & _). destruct (qr_QT_ok _ _ _ _ _ _ Hm Hn K) as ([a2 d2] & E2 & _ & H2 & _).
  destruct (qr_R_ok _ _ _ _ _ _ Hm Hn K) as ([a3 d3] & E3 & _ & H3 & _). cbn [fst snd] in *.
  set (M := qM m n A) in *. set (D := qD m n A) in *.
  exists a2, a3, a1, (tabQT (O := ROps) m n M D), (tabR (O := ROps) m n M D), (tabH (O := ROps) M D), d2, d3, d1.
  do 6 (split; [auto|]). split; [intros; unfold tabH; change (@fzero ROps) with 0%R; zbq; auto|].
  intros HD. eapply meq_trans; [apply (QT_G m n A); auto|].
  assert (HD' : forall i, 0 <= i < Z.min m n -> D i <> 0%R) by (intros i Hi; rewrite <- (R_diag m n M D i) by lia; auto).
  assert (G : forall k, 0 <= k <= Z.min m n -> meq m m (Gk m M D k) (accum (fun k T => mmul m (reflector (tabH (O := ROps) M D) k) T) (Z.to_nat k) idm)).
  { intros k [Hk Hkp]. revert Hkp. pattern k. apply natlike_ind; auto.
    - intros _. apply meq_refl.
    - intros t Ht IH Htp. change (Z.succ t) with (t + 1) in *. rewrite Gk_S, accum_S by lia. apply meq_mmul; [|apply IH; lia].
      intros i j Hi Hj. unfold QRReal.Hm, refl, reflector, tabH. change (@fdiv ROps) with Rdiv. change (@fneg ROps) with Ropp. change (@fzero ROps) with 0%R. rewrite Z.leb_refl.
      specialize (HD' t ltac:(lia)). unfold tail.
      destruct (Z.leb_spec t i), (Z.ltb_spec i t); try lia; [|unfold Rdiv; ring]. destruct (Z.leb_spec t j), (Z.ltb_spec j t); try lia; [|unfold Rdiv; ring].
      destruct (Req_dec (M t t) 0) as [E0|E0].
      + destruct Inv as [I1 _]. specialize (I1 t ltac:(lia)). rewrite E0, Rmult_0_r, Rmult_0_r in I1. pose proof (sq0 m _ I1 i Hi) as Z1. rewrite tail_ge in Z1 by lia. rewrite Z1. unfold Rdiv. ring.
      + field. auto. }
  apply G. lia.
Qed.

(** Systems *)
Lemma nonsing_D m n M D thr d : 1 <= m -> 1 <= n -> (0 <= thr)%R -> qr_ok (O := ROps) m n M D thr d -> qrs_IsNonSingular d = Ok true ->
  (forall i, 0 <= i < Z.min m n -> fle (fabs (D i)) thr = false) /\ forall i, 0 <= i < Z.min m n -> D i <> 0%R.
Proof.
  intros Hm Hn Ht K Es. destruct (qrs_IsNonSingular_ok _ _ _ _ _ _ Hm Hn K) as (s & Es' & Hs). rewrite Es in Es'. injection Es' as <-.
  pose proof (proj1 Hs eq_refl) as H. split; auto. intros i Hi E. specialize (H i Hi). rewrite E in H. change (Rleb (Rabs 0) thr = false) in H.
  apply Rleb_false in H. rewrite Rabs_R0 in H. lra.
Qed.
Lemma res_norm m n A z b : residual2 m n A z b = norm2 m (fun i => mvec n A z i - b i)%R.
Proof. reflexivity. Qed.

Lemma qr_solve_vector (x : @RealMatrix ROps) m n A thr d v b : library x -> MatIs x m n A -> 1 <= m -> 1 <= n -> (0 <= thr)%R -> qr_of x thr d ->
  qrs_IsNonSingular d = Ok true -> VecIs v m b ->
  exists r y, qrs_SolveVector d v = Ok r /\ VecIs r n y /\
    (m <= n -> forall i, 0 <= i < m -> mvec n A y i = b i) /\
    (n <= m -> forall z, (residual2 m n A y b <= residual2 m n A z b)%R /\
       ((residual2 m n A z b <= residual2 m n A y b)%R -> forall i, 0 <= i < n -> z i = y i)).
Proof.
  intros Hl Hx Hm Hn Ht Hd Hs Hv. destruct (qr_state_R x m n A thr d Hl Hx Hm Hn Hd) as [K Inv]. destruct (nonsing_D _ _ _ _ _ _ Hm Hn Ht K Hs) as [Hz HD].
  destruct (qrs_SolveVector_ok _ _ _ _ _ _ v b Hm Hn K Hv Hz) as (r & Er & y & Hy & HS). exists r, y. split; [auto|]. split; [auto|].
  assert (HQ : qsol m n (qM m n A) (qD m n A) b y) by (apply (sv_qsol m n A); auto). split.
  - intros Hmn. apply (qsol_exact m n A _ _ Hm Hn Inv b y Hmn HQ).
  - intros Hnm z. rewrite !res_norm. split; [apply (qsol_least m n A _ _ Hm Hn Inv b y z Hnm HQ)|]. apply (qsol_least_strict m n A _ _ Hm Hn Inv HD b y z Hnm HQ).
Qed.
Lemma qr_solve_matrix (x : @RealMatrix ROps) m n A thr d b c B : library x -> MatIs x m n A -> 1 <= m -> 1 <= n -> 1 <= c -> (0 <= thr)%R -> qr_of x thr d ->
  qrs_IsNonSingular d = Ok true -> MatIs b m c B ->
  exists r X, qrs_SolveMatrix d b = Ok r /\ MatIs r n c X /\
    (m <= n -> meq m c (mmul n A X) B) /\
    forall q v, 0 <= q < c -> VecIs v m (fun i => B i q) -> exists r' y, qrs_SolveVector d v = Ok r' /\ VecIs r' n y /\ forall i, 0 <= i < n -> y i = X i q.
Proof.
  intros Hl Hx Hm Hn Hc Ht Hd Hs Hb. destruct (qr_state_R x m n A thr d Hl Hx Hm Hn Hd) as [K Inv]. destruct (nonsing_D _ _ _ _ _ _ Hm Hn Ht K Hs) as [Hz HD].
  destruct (qrs_SolveMatrix_ok _ _ _ _ _ _ b c B Hm Hn Hc K Hb Hz) as (r & Er & X & _ & HX & HS). exists r, X. split; [auto|]. split; [auto|].
  assert (HQ : forall q, 0 <= q < c -> qsol m n (qM m n A) (qD m n A) (fun i => B i q) (fun i => X i q)) by (intros; apply (sm_qsol m n A); auto). split.
  - intros Hmn i j Hi Hj. apply (qsol_exact m n A _ _ Hm Hn Inv (fun i => B i j) (fun i => X i j) Hmn (HQ j Hj) i Hi).
  - intros q v Hq Hv. destruct (qrs_SolveVector_ok _ _ _ _ _ _ v _ Hm Hn K Hv Hz) as (r' & Er' & y & Hy & HS'). exists r', y. split; [auto|]. split; [auto|].
    apply (qsol_unique m n (qM m n A) (qD m n A) Hm HD (fun i => B i q) y (fun i => X i q)); [apply (sv_qsol m n A); auto|apply HQ; auto].
Qed.
Lemma qr_inverse (x : @RealMatrix ROps) n A thr d : library x -> MatIs x n n A -> 1 <= n -> (0 <= thr)%R -> qr_of x thr d ->
  qrs_IsNonSingular d = Ok true -> exists r X, qrs_Inverse d = Ok r /\ MatIs r n n X /\ meq n n (mmul n A X) idm /\ meq n n (mmul n X A) idm.
Proof.
  intros Hl Hx Hn Ht Hd Hs. destruct (qr_state_R x n n A thr d Hl Hx Hn Hn Hd) as [K Inv].
  destruct (qrs_Inverse_eq _ _ _ _ _ _ Hn Hn K) as (im & _ & Hi & ->).
  destruct (qr_solve_matrix x n n A thr d im n _ Hl Hx Hn Hn Hn Ht Hd Hs Hi) as (r & X & Er & HX & HA & _). exists r, X. split; [auto|]. split; [auto|].
  assert (E : meq n n (mmul n A X) idm).
  { eapply meq_trans; [apply HA; lia|]. intros i j Hi' Hj. unfold diagonal, idm. auto. }
  split; auto.
  destruct (nonsing_D _ _ _ _ _ _ Hn Hn Ht K Hs) as [_ HD]. apply inverse_left; auto; try lia.
  apply (full_rank n n A (qM n n A) (qD n n A)); auto; [lia|]. intros i Hi'. apply HD. lia.
Qed.
Lemma qr_full_rank (x : @RealMatrix ROps) m n A d : library x -> MatIs x m n A -> 1 <= n <= m -> qr_of x 0%R d ->
  exists s, qrs_IsNonSingular d = Ok s /\ (s = true <-> independent m n A).
Proof.
  intros Hl Hx Hmn Hd. destruct (qr_state_R x m n A 0%R d Hl Hx ltac:(lia) ltac:(lia) Hd) as [K Inv].
  set (M := qM m n A) in *. set (D := qD m n A) in *. clearbody M D.
  destruct (qrs_IsNonSingular_ok (O := ROps) m n M D 0%R d ltac:(lia) ltac:(lia) K) as (s & Es & Hs). exists s. split; auto.
  rewrite Hs. rewrite <- (full_rank m n A M D Hmn Inv). rewrite Z.min_r by lia.
  split; intros H i Hi; specialize (H i Hi); [change (Rleb (Rabs (D i)) 0 = false) in H|change (Rleb (Rabs (D i)) 0 = false)].
  - apply Rleb_false in H. intros E. rewrite E, Rabs_R0 in H. lra.
  - apply Rleb_false. apply Rabs_pos_lt. auto.
Qed.

(** ** Rank-revealing *)
Notation rM m n A := (rrM (O := ROps) m n A).
Notation rD m n A := (rrD (O := ROps) m n A).
Notation rq m n A := (rrq (O := ROps) m n A).
Lemma rr_state_R (x : @RealMatrix ROps) m n A thr d : library x -> MatIs x m n A -> 1 <= m -> 1 <= n -> rr_of x thr d ->
  rr_ok (O := ROps) m n (rM m n A) (rD m n A) (rq m n A) thr d /\
  qinv m n (fun i j => A i (rq m n A j)) (Z.min m n) (rM m n A) (rD m n A) /\ pivoted m n (Z.min m n) (rM m n A) (rD m n A) /\ permutes n (rq m n A).
Proof.
  intros Hl Hx Hm Hn Hd. pose proof (rr_state x m n A thr d (real_transposable _ Hl) Hx Hm Hn Hd) as K. split; [exact K|].
  destruct (rr_inv m n A (Z.min m n) ltac:(lia)) as [I1 I2]. split; [exact I1|]. split; [exact I2|]. apply K.
Qed.
Lemma perm_cols n A q i j : permutes n q -> 0 <= j < n -> mmul n A (tabPt (O := ROps) q) i j = A i (q j).
Proof.
  intros (P1 & _) Hj. unfold mmul, tabPt. change (@fone ROps) with 1%R. change (@fzero ROps) with 0%R.
  rewrite (Rs_pick 0 n (q j)); [rewrite Z.eqb_refl; ring|apply P1; auto|]. intros k Hk Hne. destruct (Z.eqb_spec k (q j)); [contradiction|ring].
Qed.
Lemma perm_orth n q : permutes n q -> orthogonal n (tabPt (O := ROps) q).
Proof.
  intros Hq. pose proof Hq as (P1 & P2 & P3). split; intros i j Hi Hj.
  - rewrite perm_cols by auto. unfold trm, tabPt, idm. change (@fone ROps) with 1%R. change (@fzero ROps) with 0%R.
    destruct (Z.eqb_spec (q j) (q i)) as [E|E], (Z.eqb_spec i j) as [E'|E']; auto; [exfalso; apply E'; symmetry; auto|subst; contradiction].
  - unfold mmul, trm, tabPt, idm. change (@fone ROps) with 1%R. change (@fzero ROps) with 0%R. destruct (P3 i Hi) as (k & Hk & <-).
    rewrite (Rs_pick 0 n k); auto.
    + rewrite Z.eqb_refl. rewrite (Z.eqb_sym j). destruct (q k =? j); ring.
    + intros t Ht Hne. destruct (Z.eqb_spec (q k) (q t)) as [E|]; [|ring]. apply P2 in E; auto. lia.
Qed.
Lemma rr_factor (x : @RealMatrix ROps) m n A thr d : library x -> MatIs x m n A -> 1 <= m -> 1 <= n -> rr_of x thr d ->
  exists Qm Tm Rm Pm Q T U P p d1 d2 d3 d4, rr_lift qr_Q d = Ok (Qm, d1) /\ rr_lift qr_QT d = Ok (Tm, d2) /\ rr_lift qr_R d = Ok (Rm, d3) /\ rr_P d = Ok (Pm, d4) /\
    MatIs Qm m m Q /\ MatIs Tm m m T /\ MatIs Rm m n U /\ MatIs Pm n n P /\
    meq m n (mmul n A P) (mmul m Q U) /\ permutes n p /\ (forall i j, 0 <= i < n -> 0 <= j < n -> P i j = if i =? p j then 1%R else 0%R) /\
    orthogonal m Q /\ meq m m T (trm Q) /\ (forall i j, 0 <= j < i -> i < m -> U i j = 0%R) /\
    (forall t i j, 0 <= t < Z.min m n -> t <= i < m -> t <= j < n -> (Rabs (U i j) <= Rabs (U t t))%R).
Proof.
  intros Hl Hx Hm Hn Hd. destruct (rr_state_R x m n A thr d Hl Hx Hm Hn Hd) as (K & Inv & Piv & Hq).
  destruct (rr_accessors _ _ _ _ _ _ _ Hm Hn K) as (a1 & a2 & a3 & a4 & d1 & d2 & d3 & d4 & E1 & E2 & E3 & E4 & H1 & H2 & H3 & H4).
  set (M := rM m n A) in *. set (D := rD m n A) in *. set (q := rq m n A) in *.
  exists a1, a2, a3, a4, (trm (tabQT (O := ROps) m n M D)), (tabQT (O := ROps) m n M D), (tabR (O := ROps) m n M D), (tabPt (O := ROps) q), q, d1, d2, d3, d4.
  do 8 (split; [auto|]). split.
  { intros i j Hi Hj. rewrite perm_cols by auto. symmetry. apply (Q_R m n (fun i j => A i (q j)) M D); auto. }
  split; [auto|]. split; [reflexivity|]. split; [apply orth_tr, (QT_orth m n (fun i j => A i (q j))); auto|]. split; [intros i j _ _; reflexivity|].
  split; [intros; apply R_upper; lia|]. intros. apply R_dominates; auto.
Qed.
(** What Rank computes. *)
Lemma rr_rank_eq (x : @RealMatrix ROps) m n A thr d drop : library x -> MatIs x m n A -> 1 <= m -> 1 <= n -> rr_of x thr d ->
  exists r d', rr_Rank d drop = Ok (r, d') /\ 1 <= r <= Z.min m n /\
    let T := trailing m n (tabR (O := ROps) m n (rM m n A) (rD m n A)) in
    (r = Z.min m n \/ T r = 0%R \/ (T r / T (r - 1)%Z * T 0%Z < drop)%R) /\
    forall k, 1 <= k < r -> T k <> 0%R /\ (drop <= T k / T (k - 1)%Z * T 0%Z)%R.
Proof.
  intros Hl Hx Hm Hn Hd. destruct (rr_state_R x m n A thr d Hl Hx Hm Hn Hd) as (K & Inv & Piv & Hq).
  set (M := rM m n A) in *. set (D := rD m n A) in *. set (U := tabR (O := ROps) m n M D).
  cut (wp (rr_Rank d drop) (fun o => 1 <= fst o <= Z.min m n /\ let T := trailing m n U in
    (fst o = Z.min m n \/ T (fst o) = 0%R \/ (T (fst o) / T (fst o - 1)%Z * T 0%Z < drop)%R) /\
    forall k, 1 <= k < fst o -> T k <> 0%R /\ (drop <= T k / T (k - 1)%Z * T 0%Z)%R)).
  { intros ([r d'] & E & H). cbn [fst] in H. exists r, d'. split; auto. }
  cbv zeta. unfold rr_Rank. apply wp_bind.
  eapply wp_conseq; [apply (rr_lift_ok m n M D (rq m n A) thr d qr_R (fun r => general r /\ MatIs r m n U) K)|].
  { eapply wp_conseq; [apply (qr_R_ok m n M D thr (rr_qr d) Hm Hn (proj1 K))|]. cbn beta. intros r (A1 & A2 & A3). auto. }
  cbn beta. intros [r d1] [[Hg Hr] Hd1]. cbn [fst snd] in *. rewrite (MatIs_rows _ _ _ _ Hr), (MatIs_cols _ _ _ _ Hr). cbn [bind].
  rewrite (frobenius r m n U (gen_lib _ Hg) Hr Hm Hn). fold (trailing m n U 0). cbn [bind]. apply wp_bind. set (T := trailing m n U).
  apply (wp_for_brk (fun k s => fst s = k /\ snd s = T (k - 1) /\ 1 <= k <= Z.min m n /\ forall t, 1 <= t < k -> T t <> 0%R /\ (drop <= T t / T (t - 1)%Z * T 0%Z)%R)
    (fun s => 1 <= fst s <= Z.min m n /\ (T (fst s) = 0%R \/ (T (fst s) / T (fst s - 1)%Z * T 0%Z < drop)%R) /\ forall t, 1 <= t < fst s -> T t <> 0%R /\ (drop <= T t / T (t - 1)%Z * T 0%Z)%R)); [lia| | | |].
  - cbn [fst snd]. split; [auto|]. split; [auto|]. split; [lia|intros; lia].
  - intros k [rk ln] Hk (E & El & Hkm & IH). cbn [fst snd] in *. subst rk ln.
    destruct (m_SubMatrix_ok r m n _ k (m - 1) k (n - 1) Hg Hr) as (s & -> & Hgs & Hs); try lia. cbn [bind].
    rewrite (frobenius s _ _ _ (gen_lib _ Hgs) Hs) by lia. cbn [bind].
    assert (ET : sqrt (Rs 0 (m - 1 - k + 1) (fun i => Rs 0 (n - 1 - k + 1) (fun j => U (k + i)%Z (k + j)%Z * U (k + i)%Z (k + j)%Z)))%R = T k).
    { unfold T, trailing. f_equal.
      replace (Rs k m) with (Rs (0 + k) (m - k + k)) by (f_equal; lia). rewrite <- (Rs_shift 0 (m - k) k). replace (m - 1 - k + 1) with (m - k) by lia.
      apply Rs_ext. intros i Hi. replace (Rs k n) with (Rs (0 + k) (n - k + k)) by (f_equal; lia). rewrite <- (Rs_shift 0 (n - k) k). replace (n - 1 - k + 1) with (n - k) by lia.
      apply Rs_ext. intros j Hj. rewrite (Z.add_comm k i), (Z.add_comm k j). auto. }
    rewrite ET. change (@feq ROps (T k) fzero) with (Reqb (T k) 0). match goal with |- context [@flt ROps ?a drop] => change (@flt ROps a drop) with (Rltb a drop) end.
    destruct (Reqb (T k) 0) eqn:E1; cbn [orb]; [apply wp_ok; cbn [fst snd]; apply Reqb_true in E1; split; [lia|]; split; auto|].
    destruct (Rltb _ _) eqn:E2; apply wp_ok; cbn [fst snd].
    + apply Rltb_true in E2. split; [lia|]. split; [right; exact E2|auto].
    + apply Rltb_false in E2. apply Reqb_false in E1. split; [auto|]. split; [f_equal; lia|]. split; [lia|]. intros t Ht. destruct (Z.eq_dec t k) as [->|]; [split; [exact E1|exact E2]|]. apply IH. lia.
  - intros [rk ln] (E & El & Hkm & IH). cbn [fst snd] in *. subst rk. apply wp_ok. cbn [fst snd]. auto.
  - intros [rk ln] (H1 & H2 & H3). cbn [fst] in *. apply wp_ok. cbn [fst snd]. auto.
Qed.
Lemma rr_rank_drop (x : @RealMatrix ROps) m n A thr d drop : library x -> MatIs x m n A -> 1 <= m -> 1 <= n -> rr_of x thr d ->
  exists r d' Rm U d1, rr_Rank d drop = Ok (r, d') /\ rr_lift qr_R d = Ok (Rm, d1) /\ MatIs Rm m n U /\ 1 <= r <= Z.min m n /\
    (r = Z.min m n \/ trailing m n U r = 0%R \/ (trailing m n U r / trailing m n U (r - 1)%Z * trailing m n U 0 < drop)%R) /\
    forall k, 1 <= k < r -> trailing m n U k <> 0%R /\ (drop <= trailing m n U k / trailing m n U (k - 1)%Z * trailing m n U 0)%R.
Proof.
  intros Hl Hx Hm Hn Hd. destruct (rr_rank_eq x m n A thr d drop Hl Hx Hm Hn Hd) as (r & d' & E & Hr & H1 & H2). 
  destruct (rr_state_R x m n A thr d Hl Hx Hm Hn Hd) as (K & _).
  destruct (rr_accessors _ _ _ _ _ _ _ Hm Hn K) as (a1 & a2 & a3 & a4 & d1 & d2 & d3 & d4 & _ & _ & E3 & _ & _ & _ & H3 & _).
  exists r, d', a3, (tabR (O := ROps) m n (rM m n A) (rD m n A)), d3. auto 10.
Qed.
Lemma rr_rank (x : @RealMatrix ROps) m n A thr d drop : library x -> MatIs x m n A -> 1 <= m -> 1 <= n -> rr_of x thr d -> (drop <= 0)%R ->
  exists r d', rr_Rank d drop = Ok (r, d') /\
    ((exists i j, 0 <= i < m /\ 0 <= j < n /\ A i j <> 0%R) -> has_rank m n A r) /\
    (meq m n A (fun _ _ => 0%R) -> r = 1 /\ has_rank m n A 0).
Proof.
  intros Hl Hx Hm Hn Hd Hdr. destruct (rr_rank_eq x m n A thr d drop Hl Hx Hm Hn Hd) as (r & d' & E & Hr & H1 & H2). 
  destruct (rr_state_R x m n A thr d Hl Hx Hm Hn Hd) as (K & Inv & Piv & Hq). exists r, d'. split; [auto|].
  set (M := rM m n A) in *. set (D := rD m n A) in *. cbv zeta in *.
  pose proof (trail_zero m n M D Piv) as TZ. pose proof (D0_zero m n A M D (rq m n A) Hm Hn Inv Piv Hq) as DZ.
  split.
  - intros (i & j & Hi & Hj & Hne). apply (rank_is m n A M D (rq m n A)); auto; try lia.
    + intros k Hk. destruct (Z.eq_dec k 0) as [->|].
      * intros E0. apply Hne. apply (proj1 DZ E0); auto.
      * intros E0. destruct (H2 k ltac:(lia)) as [H3 _]. apply H3. apply TZ; auto; lia.
    + destruct H1 as [->|[H1|H1]]; [auto| |].
      * destruct (Z.eq_dec r (Z.min m n)); [auto|right]. split; [lia|]. apply TZ; auto; lia.
      * exfalso. assert (0 <= trailing m n (tabR (O := ROps) m n M D) r / trailing m n (tabR (O := ROps) m n M D) (r - 1)%Z * trailing m n (tabR (O := ROps) m n M D) 0)%R; [|lra].
        assert (forall k, 0 <= trailing m n (tabR (O := ROps) m n M D) k)%R by (intros; apply sqrt_pos).
        apply Rmult_le_pos; auto. destruct (Req_dec (trailing m n (tabR (O := ROps) m n M D) (r - 1)%Z) 0) as [E0|E0]; [rewrite E0; unfold Rdiv; rewrite Rinv_0; lra|].
        apply Rmult_le_pos; auto. left. apply Rinv_0_lt_compat. specialize (H (r - 1)%Z). lra.
  - intros HA. split.
    + assert (E0 : D 0 = 0%R) by (apply DZ; auto). destruct (Z_lt_le_dec 1 r) as [Hlt|]; [exfalso|lia].
      destruct (H2 1 ltac:(lia)) as [H3 _]. apply H3. apply TZ; auto; [lia|].
      rewrite <- (R_diag m n M D 1) by lia. apply (D_zero m n M D Piv 0); auto; lia.
    + split; [lia|]. exists (fun t => t). split; [intros; lia|]. split; [intros w _ j Hj; lia|].
      intros j Hj. exists (fun _ => 0%R). intros i Hi. rewrite HA by auto. unfold mvec. rewrite Rs_nil by lia. auto.
Qed.

(** The solver: P y, where y solves A P y = b. *)
Lemma perm_vec n q y : permutes n q -> forall j, 0 <= j < n -> mvec n (tabPt (O := ROps) q) y (q j) = y j.
Proof.
  intros (P1 & P2 & P3) j Hj. unfold mvec, tabPt. change (@fone ROps) with 1%R. change (@fzero ROps) with 0%R.
  rewrite (Rs_pick 0 n j); auto; [rewrite Z.eqb_refl; ring|]. intros k Hk Hne. destruct (Z.eqb_spec (q j) (q k)) as [E|]; [|ring]. apply P2 in E; auto. lia.
Qed.
Lemma perm_mvec n A q y i : permutes n q -> mvec n A (mvec n (tabPt (O := ROps) q) y) i = mvec n (fun i j => A i (q j)) y i.
Proof. intros Hq. rewrite <- mvec_mmul. apply mvec_ext; auto. intros. apply perm_cols; auto. Qed.
(** Every z is P applied to its rearrangement. *)
Lemma perm_back n q z i : permutes n q -> 0 <= i < n -> mvec n (tabPt (O := ROps) q) (fun j => z (q j)) i = z i.
Proof. intros Hq Hi. pose proof Hq as (_ & _ & P3). destruct (P3 i Hi) as (j & Hj & <-). rewrite perm_vec by auto. auto. Qed.

Lemma rr_nonsing x m n A thr d : library x -> MatIs x m n A -> 1 <= m -> 1 <= n -> (0 <= thr)%R -> rr_of (O := ROps) x thr d -> rrs_IsNonSingular d = Ok true ->
  (forall i, 0 <= i < Z.min m n -> fle (fabs (rD m n A i)) thr = false) /\ forall i, 0 <= i < Z.min m n -> rD m n A i <> 0%R.
Proof.
  intros Hl Hx Hm Hn Ht Hd Hs. destruct (rr_state_R x m n A thr d Hl Hx Hm Hn Hd) as (K & _). apply (nonsing_D m n (rM m n A) (rD m n A) thr (rr_qr d)); auto. apply K.
Qed.
Lemma rr_solve_vector (x : @RealMatrix ROps) m n A thr d v b : library x -> MatIs x m n A -> 1 <= m -> 1 <= n -> (0 <= thr)%R -> rr_of x thr d ->
  rrs_IsNonSingular d = Ok true -> VecIs v m b ->
  exists r y d', rrs_SolveVector d v = Ok (r, d') /\ VecIs r n y /\
    (m <= n -> forall i, 0 <= i < m -> mvec n A y i = b i) /\
    (n <= m -> forall z, (residual2 m n A y b <= residual2 m n A z b)%R /\
       ((residual2 m n A z b <= residual2 m n A y b)%R -> forall i, 0 <= i < n -> z i = y i)).
Proof.
  intros Hl Hx Hm Hn Ht Hd Hs Hv. destruct (rr_state_R x m n A thr d Hl Hx Hm Hn Hd) as (K & Inv & Piv & Hq). destruct (rr_nonsing x m n A thr d Hl Hx Hm Hn Ht Hd Hs) as [Hz HD].
  unfold rrs_SolveVector. destruct (rr_P_ok _ _ _ _ _ _ d Hn K) as ([P d1] & -> & [HgP HP] & K1). cbn [bind fst snd] in *.
  destruct (qrs_SolveVector_ok _ _ _ _ _ _ v b Hm Hn (proj1 K1) Hv Hz) as (r & Er & y & Hy & HS). rewrite Er. cbn [bind].
  destruct (qrs_SolveVector_arr _ _ _ Er) as (yl & ->).
  destruct (real_operate P n n _ yl y (gen_lib _ HgP) HP Hn Hy) as (w & Ew & Hw).
  assert (EO : m_OperateVector P (VArr yl) = Ok (VArr w)).
  { destruct P as [a|bb|?|? ? ?]; try contradiction; cbn [m_OperateVector m_Operate] in *; unfold a2_OperateVector, b_OperateVector; rewrite Ew; auto. }
  rewrite EO. cbn [bind]. exists (VArr w), (mvec n (tabPt (O := ROps) (rq m n A)) y), d1. split; [auto|]. split; [auto|].
  set (M := rM m n A) in *. set (D := rD m n A) in *. set (q := rq m n A) in *.
  assert (HQ : qsol m n M D b y) by (apply (sv_qsol m n (fun i j => A i (q j))); auto). split.
  - intros Hmn i Hi. rewrite perm_mvec by auto. apply (qsol_exact m n _ _ _ Hm Hn Inv b y Hmn HQ); auto.
  - intros Hnm z.
    assert (EZ : forall z, residual2 m n A z b = residual2 m n (fun i j => A i (q j)) (fun j => z (q j)) b).
    { intros z'. apply Rs_ext. intros i Hi. rewrite (mvec_ext n A A z' (mvec n (tabPt (O := ROps) q) (fun j => z' (q j)))) by (auto; intros; rewrite perm_back; auto).
      rewrite perm_mvec by auto. auto. }
    rewrite !EZ. assert (EY : residual2 m n (fun i j => A i (q j)) (fun j => mvec n (tabPt (O := ROps) q) y (q j)) b = residual2 m n (fun i j => A i (q j)) y b).
    { apply Rs_ext. intros i Hi. rewrite (mvec_ext n (fun i j => A i (q j)) (fun i j => A i (q j)) (fun j => mvec n (tabPt (O := ROps) q) y (q j)) y) by (auto; intros; apply perm_vec; auto). auto. }
    rewrite EY, !res_norm. split; [apply (qsol_least m n _ _ _ Hm Hn Inv b y (fun j => z (q j)) Hnm HQ)|].
    intros H i Hi. pose proof Hq as (_ & _ & P3). destruct (P3 i Hi) as (j & Hj & <-). rewrite perm_vec by auto.
    apply (qsol_least_strict m n _ _ _ Hm Hn Inv HD b y (fun j => z (q j)) Hnm HQ H j Hj).
Qed.
Lemma rr_solve_matrix (x : @RealMatrix ROps) m n A thr d b c B : library x -> MatIs x m n A -> 1 <= m -> 1 <= n -> 1 <= c -> (0 <= thr)%R -> rr_of x thr d ->
  rrs_IsNonSingular d = Ok true -> MatIs b m c B ->
  exists r X d', rrs_SolveMatrix d b = Ok (r, d') /\ MatIs r n c X /\
    (m <= n -> meq m c (mmul n A X) B) /\
    forall q v, 0 <= q < c -> VecIs v m (fun i => B i q) -> exists r' y d', rrs_SolveVector d v = Ok (r', d') /\ VecIs r' n y /\ forall i, 0 <= i < n -> y i = X i q.
Proof.
  intros Hl Hx Hm Hn Hc Ht Hd Hs Hb. destruct (rr_state_R x m n A thr d Hl Hx Hm Hn Hd) as (K & Inv & Piv & Hq). destruct (rr_nonsing x m n A thr d Hl Hx Hm Hn Ht Hd Hs) as [Hz HD].
  unfold rrs_SolveMatrix, rrs_SolveVector. destruct (rr_P_ok _ _ _ _ _ _ d Hn K) as ([P d1] & -> & [HgP HP] & K1). cbn [bind fst snd] in *.
  destruct (qrs_SolveMatrix_ok _ _ _ _ _ _ b c B Hm Hn Hc (proj1 K1) Hb Hz) as (r & Er & X & _ & HX & HS). rewrite Er. cbn [bind].
  destruct (real_product P r n n c _ X (gen_lib _ HgP) HP HX Hn Hc) as (w & Ew & _ & Hw). rewrite Ew. cbn [bind].
  set (M := rM m n A) in *. set (D := rD m n A) in *. set (q := rq m n A) in *.
  exists w, (mmul n (tabPt (O := ROps) q) X), d1. split; [auto|]. split; [auto|].
  assert (HQ : forall j, 0 <= j < c -> qsol m n M D (fun i => B i j) (fun i => X i j)) by (intros; apply (sm_qsol m n (fun i j => A i (q j))); auto). split.
  - intros Hmn i j Hi Hj. change (mvec n A (mvec n (tabPt (O := ROps) q) (fun i => X i j)) i = B i j). rewrite perm_mvec by auto.
    apply (qsol_exact m n _ _ _ Hm Hn Inv (fun i => B i j) (fun i => X i j) Hmn (HQ j Hj) i Hi).
  - intros j v Hj Hv. destruct (qrs_SolveVector_ok _ _ _ _ _ _ v _ Hm Hn (proj1 K1) Hv Hz) as (r' & Er' & y & Hy & HS'). rewrite Er'. cbn [bind].
    destruct (qrs_SolveVector_arr _ _ _ Er') as (yl & ->).
    destruct (real_operate P n n _ yl y (gen_lib _ HgP) HP Hn Hy) as (u & Eu & Hu).
    assert (EO : m_OperateVector P (VArr yl) = Ok (VArr u)).
    { destruct P as [a|bb|?|? ? ?]; try contradiction; cbn [m_OperateVector m_Operate] in *; unfold a2_OperateVector, b_OperateVector; rewrite Eu; auto. }
    rewrite EO. cbn [bind]. exists (VArr u), (mvec n (tabPt (O := ROps) q) y), d1. split; [auto|]. split; [auto|].
    intros i Hi. apply mvec_ext; auto. intros k Hk.
    apply (qsol_unique m n M D Hm HD (fun i => B i j) y (fun i => X i j)); auto; apply (sv_qsol m n (fun i j => A i (q j))); auto.
Qed.
Lemma rr_inverse (x : @RealMatrix ROps) n A thr d : library x -> MatIs x n n A -> 1 <= n -> (0 <= thr)%R -> rr_of x thr d ->
  rrs_IsNonSingular d = Ok true -> exists r X d', rrs_Inverse d = Ok (r, d') /\ MatIs r n n X /\ meq n n (mmul n A X) idm /\ meq n n (mmul n X A) idm.
Proof.
  intros Hl Hx Hn Ht Hd Hs. destruct (rr_state_R x n n A thr d Hl Hx Hn Hn Hd) as (K & Inv & Piv & Hq). destruct (rr_nonsing x n n A thr d Hl Hx Hn Hn Ht Hd Hs) as [Hz HD].
  unfold rrs_Inverse. destruct (rr_P_ok _ _ _ _ _ _ d Hn K) as ([P d1] & EP & [HgP HP] & K1). rewrite EP. cbn [bind fst snd] in *. rewrite (MatIs_rows _ _ _ _ HP).
  destruct (identity_ok n Hn) as (im & -> & _ & Hi). cbn [orpanic bind].
  assert (Hd1 : rr_of x thr d1).
  { destruct Hd as (d0 & E0 & Hc). exists d0. split; auto. clear - Hc EP. induction Hc; [eapply rc_P; eauto; apply rc_none|eapply rc_Q; eauto|eapply rc_QT; eauto|eapply rc_R; eauto|eapply rc_H; eauto|eapply rc_P; eauto|eapply rc_Rank; eauto]. }
  assert (Hs1 : rrs_IsNonSingular d1 = Ok true).
  { unfold rrs_IsNonSingular. destruct (qrs_IsNonSingular_ok _ _ _ _ _ _ Hn Hn (proj1 K1)) as (s & Es & H). rewrite Es. f_equal. apply H. auto. }
  destruct (rr_solve_matrix x n n A thr d1 im n _ Hl Hx Hn Hn Hn Ht Hd1 Hs1 Hi) as (r & X & d2 & Er & HX & HA & _). exists r, X, d2. split; [auto|]. split; [auto|].
  assert (E : meq n n (mmul n A X) idm).
  { eapply meq_trans; [apply HA; lia|]. intros i j Hi' Hj. unfold diagonal, idm. auto. }
  split; auto. apply inverse_left; auto. intros w Hw i Hi'. pose proof Hq as (P1 & P2 & P3). destruct (P3 i Hi') as (j & Hj & <-).
  assert (IND : independent n n (fun i j => A i (rq n n A j))) by (apply (full_rank n n _ (rM n n A) (rD n n A)); auto; [lia|]; intros t Ht'; apply HD; lia).
  apply (IND (fun j => w (rq n n A j))); auto. intros t Ht'. rewrite <- (perm_mvec n A _ _ t Hq). rewrite <- (Hw t Ht'). apply mvec_ext; auto. intros. apply perm_back; auto.
Qed.

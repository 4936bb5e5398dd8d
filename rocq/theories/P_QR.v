(** The QR decompositions: C29, C30, C31.
    [qr_of x thr d]: [d] is what NewQRDecompositionWithThreshold(x, thr) (or
    NewQRDecomposition(x), thr = 0) returned, after any sequence of calls to Q,
    QT, R and H; [rr_of x thr d] the same for the rank-revealing decomposition
    and Q, QT, R, H, P and Rank.  [residual2 m n A y b] is |A y - b|^2. *)
From Coq Require Import ZArith List Lia Bool Reals Lra.
From Verif Require Import Base BaseLemmas Scalar Vector VecSpec VectorFacts Matrix Array2D BlockM Diagonal RealMatrixM MatSpec TabTac QR QRSpec LUSpec RealOps RSum QRReal3 QRProps QRProps2 Float64 ExampleOps ExampleReal ExampleDec.
Import ListNotations.
Open Scope Z_scope.
#[local] Existing Instance ROps.

(** C29 *)
Theorem C29_factorisation : forall (x : @RealMatrix ROps) m n A thr d, library x -> MatIs x m n A -> 1 <= m -> 1 <= n -> qr_of x thr d ->
  exists Qm Tm Rm Q T U d1 d2 d3, qr_Q d = Ok (Qm, d1) /\ qr_QT d = Ok (Tm, d2) /\ qr_R d = Ok (Rm, d3) /\
    MatIs Qm m m Q /\ MatIs Tm m m T /\ MatIs Rm m n U /\
    meq m n (mmul m Q U) A /\ orthogonal m Q /\ meq m m T (trm Q) /\ (forall i j, 0 <= j < i -> i < m -> U i j = 0%R).
Proof. exact qr_factor. Qed.
Print Assumptions C29_factorisation.
(** H holds the reflectors: Q^T is the product of I - h h^T / h_k. *)
Theorem C29_reflectors : forall (x : @RealMatrix ROps) m n A thr d, library x -> MatIs x m n A -> 1 <= m -> 1 <= n -> qr_of x thr d ->
  exists Tm Rm Hm T U H d1 d2 d3, qr_QT d = Ok (Tm, d1) /\ qr_R d = Ok (Rm, d2) /\ qr_H d = Ok (Hm, d3) /\
    MatIs Tm m m T /\ MatIs Rm m n U /\ MatIs Hm m n H /\
    (forall i j, 0 <= i < j -> j < n -> H i j = 0%R) /\
    ((forall i, 0 <= i < Z.min m n -> U i i <> 0%R) ->
       meq m m T (accum (fun k T => mmul m (reflector H k) T) (Z.to_nat (Z.min m n)) idm)).
Proof. exact qr_reflectors. Qed.
Print Assumptions C29_reflectors.
(** In any arithmetic the constructors succeed, QT is bit for bit the transpose
    of Q, R and H have the zeros they should have, and what the accessors
    return does not depend on the calls made before. *)
Theorem C29_total : forall (O : Ops) (x : @RealMatrix O) m n A thr, transposable x -> MatIs x m n A -> 1 <= m -> 1 <= n ->
  (exists d, NewQRDecompositionWithThreshold x thr = Ok d) /\ exists d, NewQRDecomposition x = Ok d.
Proof. exact (@qr_total). Qed.
Print Assumptions C29_total.
Theorem C29_any_arithmetic : forall (O : Ops) (x : @RealMatrix O) m n A thr d d', transposable x -> MatIs x m n A -> 1 <= m -> 1 <= n -> qr_of x thr d -> qr_of x thr d' ->
  exists Q R H Qm QTm Rm Hm d1 d2 d3 d4,
    qr_Q d = Ok (Qm, d1) /\ qr_QT d = Ok (QTm, d2) /\ qr_R d = Ok (Rm, d3) /\ qr_H d = Ok (Hm, d4) /\
    MatIs Qm m m Q /\ MatIs QTm m m (fun i j => Q j i) /\ MatIs Rm m n R /\ MatIs Hm m n H /\
    (forall i j, 0 <= j < i -> i < m -> R i j = fzero) /\ (forall i j, 0 <= i < j -> j < n -> H i j = fzero) /\
    exists Qm' QTm' Rm' Hm' d1' d2' d3' d4',
      qr_Q d' = Ok (Qm', d1') /\ qr_QT d' = Ok (QTm', d2') /\ qr_R d' = Ok (Rm', d3') /\ qr_H d' = Ok (Hm', d4') /\
      MatIs Qm' m m Q /\ MatIs QTm' m m (fun i j => Q j i) /\ MatIs Rm' m n R /\ MatIs Hm' m n H.
Proof. exact (@qr_any). Qed.
Print Assumptions C29_any_arithmetic.

Lemma exqr : exists d, qr_of (rmat [[3; 5]; [4; 10]]%R) 0%R d.
Proof.
  destruct (C29_total ROps (rmat [[3; 5]; [4; 10]]%R) 2 2 _ 0%R (real_transposable _ (rmat_lib _)) (rmat2_is 3 5 4 10) ltac:(lia) ltac:(lia)) as (_ & d & E).
  exists d, d. split; [right; split; [reflexivity|exact E]|constructor].
Qed.
(** R of this matrix has |R_00| = 5, the length of the first column. *)
Example C29_ex : exists d Rm (U : Z -> Z -> R) d1, qr_of (rmat [[3; 5]; [4; 10]]%R) 0%R d /\ qr_R d = Ok (Rm, d1) /\ MatIs Rm 2 2 U /\ (U 0%Z 0%Z * U 0%Z 0%Z = 25)%R.
Proof.
  destruct exqr as (d & Hd). exists d.
  destruct (C29_factorisation _ 2 2 _ 0%R d (rmat_lib _) (rmat2_is 3 5 4 10) ltac:(lia) ltac:(lia) Hd) as (Qm & Tm & Rm & Q & T & U & d1 & d2 & d3 & _ & _ & ER & _ & _ & HR & HA & [HO _] & _ & HU).
  exists Rm, U, d3. split; [exact Hd|]. split; [exact ER|]. split; [exact HR|].
  pose proof (HA 0 0 ltac:(lia) ltac:(lia)) as E0. pose proof (HA 1 0 ltac:(lia) ltac:(lia)) as E1. pose proof (HO 0 0 ltac:(lia) ltac:(lia)) as E2.
  unfold mmul, trm, idm in *. rewrite !Rs_2 in *. rewrite (HU 1 0) in * by lia. cbn [Z.eqb] in E2.
  assert (F0 : (Q 0%Z 0%Z * U 0%Z 0%Z = 3)%R) by (rewrite Rmult_0_r, Rplus_0_r in E0; exact E0).
  assert (F1 : (Q 1%Z 0%Z * U 0%Z 0%Z = 4)%R) by (rewrite Rmult_0_r, Rplus_0_r in E1; exact E1).
  replace (U 0%Z 0%Z * U 0%Z 0%Z)%R with ((Q 0%Z 0%Z * Q 0%Z 0%Z + Q 1%Z 0%Z * Q 1%Z 0%Z) * (U 0%Z 0%Z * U 0%Z 0%Z))%R by (rewrite E2; ring).
  replace ((Q 0%Z 0%Z * Q 0%Z 0%Z + Q 1%Z 0%Z * Q 1%Z 0%Z) * (U 0%Z 0%Z * U 0%Z 0%Z))%R with ((Q 0%Z 0%Z * U 0%Z 0%Z) * (Q 0%Z 0%Z * U 0%Z 0%Z) + (Q 1%Z 0%Z * U 0%Z 0%Z) * (Q 1%Z 0%Z * U 0%Z 0%Z))%R by ring.
  rewrite F0, F1. ring.
Qed.
(** On float64: R and the solution of A x = b; a column of zeros puts NaN in
    H. *)
Example C29_float_ex : qr_obs [[3; 5]; [4; 10]] [8; 14] = Ok (flss [[-5; -11]; [0; -2]], fls [1; 1]) /\
  qr_obs [[0; 1]; [0; 1]] [1; 1] = Panic ESingular /\ qr_obsH [[0; 1]; [0; 1]] = Ok [[NaN64; fl 0]; [NaN64; fl 2]].
Proof. vm_compute. repeat split; reflexivity. Qed.

(** C30 *)
Theorem C30_solve_vector : forall (x : @RealMatrix ROps) m n A thr d v b, library x -> MatIs x m n A -> 1 <= m -> 1 <= n -> (0 <= thr)%R -> qr_of x thr d ->
  qrs_IsNonSingular d = Ok true -> VecIs v m b ->
  exists r y, qrs_SolveVector d v = Ok r /\ VecIs r n y /\
    (m <= n -> forall i, 0 <= i < m -> mvec n A y i = b i) /\
    (n <= m -> forall z, (residual2 m n A y b <= residual2 m n A z b)%R /\
       ((residual2 m n A z b <= residual2 m n A y b)%R -> forall i, 0 <= i < n -> z i = y i)).
Proof. exact qr_solve_vector. Qed.
Print Assumptions C30_solve_vector.
Theorem C30_solve_matrix : forall (x : @RealMatrix ROps) m n A thr d b c B, library x -> MatIs x m n A -> 1 <= m -> 1 <= n -> 1 <= c -> (0 <= thr)%R -> qr_of x thr d ->
  qrs_IsNonSingular d = Ok true -> MatIs b m c B ->
  exists r X, qrs_SolveMatrix d b = Ok r /\ MatIs r n c X /\
    (m <= n -> meq m c (mmul n A X) B) /\
    forall q v, 0 <= q < c -> VecIs v m (fun i => B i q) -> exists r' y, qrs_SolveVector d v = Ok r' /\ VecIs r' n y /\ forall i, 0 <= i < n -> y i = X i q.
Proof. exact qr_solve_matrix. Qed.
Print Assumptions C30_solve_matrix.
Theorem C30_inverse : forall (x : @RealMatrix ROps) n A thr d, library x -> MatIs x n n A -> 1 <= n -> (0 <= thr)%R -> qr_of x thr d ->
  qrs_IsNonSingular d = Ok true -> exists r X, qrs_Inverse d = Ok r /\ MatIs r n n X /\ meq n n (mmul n A X) idm /\ meq n n (mmul n X A) idm.
Proof. exact qr_inverse. Qed.
Print Assumptions C30_inverse.
(** With threshold 0, non-singular means independent columns. *)
Theorem C30_full_rank : forall (x : @RealMatrix ROps) m n A d, library x -> MatIs x m n A -> 1 <= n <= m -> qr_of x 0%R d ->
  exists s, qrs_IsNonSingular d = Ok s /\ (s = true <-> independent m n A).
Proof. exact qr_full_rank. Qed.
Print Assumptions C30_full_rank.
(** In any arithmetic: the test compares the diagonal of R with the threshold;
    a singular matrix or a wrong size panics, nothing else does; a column of
    SolveMatrix depends only on the same column of the right-hand side. *)
Theorem C30_any_arithmetic : forall (O : Ops) (x : @RealMatrix O) m n A thr d, transposable x -> MatIs x m n A -> 1 <= m -> 1 <= n -> qr_of x thr d ->
  exists R Rm d1 s, qr_R d = Ok (Rm, d1) /\ MatIs Rm m n R /\ qrs_IsNonSingular d = Ok s /\
    (s = true <-> forall i, 0 <= i < Z.min m n -> fle (fabs (R i i)) thr = false) /\
    (forall v, v_Dimension v <> m -> panics (qrs_SolveVector d v)) /\
    (forall b r c B, MatIs b r c B -> r <> m -> panics (qrs_SolveMatrix d b)) /\
    (s = false -> (forall v, panics (qrs_SolveVector d v)) /\ (forall b r c B, MatIs b r c B -> panics (qrs_SolveMatrix d b)) /\ panics (qrs_Inverse d)) /\
    (s = true -> (forall v b, VecIs v m b -> exists r y, qrs_SolveVector d v = Ok r /\ VecIs r n y) /\
      (forall b c B, MatIs b m c B -> 1 <= c -> exists r X, qrs_SolveMatrix d b = Ok r /\ MatIs r n c X /\
         forall b' c' B' r' X' q q', MatIs b' m c' B' -> 1 <= c' -> qrs_SolveMatrix d b' = Ok r' -> MatIs r' n c' X' -> 0 <= q < c -> 0 <= q' < c' ->
           (forall i, 0 <= i < m -> B i q = B' i q') -> forall i, 0 <= i < n -> X i q = X' i q') /\
      exists r X, qrs_Inverse d = Ok r /\ MatIs r n m X).
Proof. exact (@qr_singular). Qed.
Print Assumptions C30_any_arithmetic.
Lemma ex_ind : independent 2 2 (rent [[3; 5]; [4; 10]]%R).
Proof.
  intros w H j Hj. pose proof (H 0 ltac:(lia)) as E0. pose proof (H 1 ltac:(lia)) as E1. unfold mvec in *. rewrite !Rs_2 in *. revert E0 E1. rents. intros E0 E1.
  assert (w 0 = 0%R) by lra. assert (w 1 = 0%R) by lra. assert (j = 0 \/ j = 1) as [-> | ->] by lia; auto.
Qed.
Example C30_ex : exists d r (y : Z -> R), qr_of (rmat [[3; 5]; [4; 10]]%R) 0%R d /\ qrs_SolveVector d (rvec [8; 14]%R) = Ok r /\ VecIs r 2 y /\ y 0 = 1%R /\ y 1 = 1%R.
Proof.
  destruct exqr as (d & Hd).
  destruct (C30_full_rank _ 2 2 _ d (rmat_lib _) (rmat2_is 3 5 4 10) ltac:(lia) Hd) as (s & Es & Hs). rewrite (proj2 Hs ex_ind) in Es.
  destruct (C30_solve_vector _ 2 2 _ 0%R d _ _ (rmat_lib _) (rmat2_is 3 5 4 10) ltac:(lia) ltac:(lia) ltac:(lra) Hd Es (rvec_is [8; 14]%R 2 eq_refl)) as (r & y & E & Hy & HA & _).
  exists d, r, y. split; [exact Hd|]. split; [exact E|]. split; [exact Hy|].
  pose proof (HA ltac:(lia) 0 ltac:(lia)) as E0. pose proof (HA ltac:(lia) 1 ltac:(lia)) as E1. unfold mvec in *. rewrite !Rs_2 in *. revert E0 E1. rents. intros E0 E1.
  change (y 0 = 1%R /\ y 1 = 1%R). set (a := y 0) in *. set (b := y 1) in *. clearbody a b. change R in (type of a). change R in (type of b). split; lra.
Qed.

(** C31 *)
Theorem C31_factorisation : forall (x : @RealMatrix ROps) m n A thr d, library x -> MatIs x m n A -> 1 <= m -> 1 <= n -> rr_of x thr d ->
  exists Qm Tm Rm Pm Q T U P p d1 d2 d3 d4, rr_lift qr_Q d = Ok (Qm, d1) /\ rr_lift qr_QT d = Ok (Tm, d2) /\ rr_lift qr_R d = Ok (Rm, d3) /\ rr_P d = Ok (Pm, d4) /\
    MatIs Qm m m Q /\ MatIs Tm m m T /\ MatIs Rm m n U /\ MatIs Pm n n P /\
    meq m n (mmul n A P) (mmul m Q U) /\ permutes n p /\ (forall i j, 0 <= i < n -> 0 <= j < n -> P i j = if i =? p j then 1%R else 0%R) /\
    orthogonal m Q /\ meq m m T (trm Q) /\ (forall i j, 0 <= j < i -> i < m -> U i j = 0%R) /\
    (forall t i j, 0 <= t < Z.min m n -> t <= i < m -> t <= j < n -> (Rabs (U i j) <= Rabs (U t t))%R).
Proof. exact rr_factor. Qed.
Print Assumptions C31_factorisation.
Theorem C31_total : forall (O : Ops) (x : @RealMatrix O) m n A thr, transposable x -> MatIs x m n A -> 1 <= m -> 1 <= n ->
  (exists d, NewRRQRDecompositionWithThreshold x thr = Ok d) /\ exists d, NewRRQRDecomposition x = Ok d.
Proof. exact (@rr_total). Qed.
Print Assumptions C31_total.
Theorem C31_any_arithmetic : forall (O : Ops) (x : @RealMatrix O) m n A thr d d', transposable x -> MatIs x m n A -> 1 <= m -> 1 <= n -> rr_of x thr d -> rr_of x thr d' ->
  exists Q R p Qm QTm Rm Pm d1 d2 d3 d4,
    rr_lift qr_Q d = Ok (Qm, d1) /\ rr_lift qr_QT d = Ok (QTm, d2) /\ rr_lift qr_R d = Ok (Rm, d3) /\ rr_P d = Ok (Pm, d4) /\
    MatIs Qm m m Q /\ MatIs QTm m m (fun i j => Q j i) /\ MatIs Rm m n R /\ MatIs Pm n n (fun i j => if i =? p j then fone else fzero) /\
    permutes n p /\ (forall i j, 0 <= j < i -> i < m -> R i j = fzero) /\
    exists Qm' QTm' Rm' Pm' d1' d2' d3' d4',
      rr_lift qr_Q d' = Ok (Qm', d1') /\ rr_lift qr_QT d' = Ok (QTm', d2') /\ rr_lift qr_R d' = Ok (Rm', d3') /\ rr_P d' = Ok (Pm', d4') /\
      MatIs Qm' m m Q /\ MatIs QTm' m m (fun i j => Q j i) /\ MatIs Rm' m n R /\ MatIs Pm' n n (fun i j => if i =? p j then fone else fzero).
Proof. exact (@rr_any). Qed.
Print Assumptions C31_any_arithmetic.
Theorem C31_rank_range : forall (O : Ops) (x : @RealMatrix O) m n A thr d drop, transposable x -> MatIs x m n A -> 1 <= m -> 1 <= n -> rr_of x thr d ->
  exists r d', rr_Rank d drop = Ok (r, d') /\ 1 <= r <= Z.min m n.
Proof. exact (@rr_rank_range). Qed.
Print Assumptions C31_rank_range.
(** Without a drop threshold Rank is the rank, except that it is 1 on the zero
    matrix; [has_rank] determines its number. *)
Theorem C31_rank : forall (x : @RealMatrix ROps) m n A thr d drop, library x -> MatIs x m n A -> 1 <= m -> 1 <= n -> rr_of x thr d -> (drop <= 0)%R ->
  exists r d', rr_Rank d drop = Ok (r, d') /\
    ((exists i j, 0 <= i < m /\ 0 <= j < n /\ A i j <> 0%R) -> has_rank m n A r) /\
    (meq m n A (fun _ _ => 0%R) -> r = 1 /\ has_rank m n A 0).
Proof. exact rr_rank. Qed.
Print Assumptions C31_rank.
Theorem C31_rank_unique : forall m n A r r', has_rank m n A r -> has_rank m n A r' -> r = r'.
Proof. exact rank_unique. Qed.
Print Assumptions C31_rank_unique.
(** With one: the first row from which the trailing block of R is zero or has
    dropped below. *)
Theorem C31_rank_drop : forall (x : @RealMatrix ROps) m n A thr d drop, library x -> MatIs x m n A -> 1 <= m -> 1 <= n -> rr_of x thr d ->
  exists r d' Rm U d1, rr_Rank d drop = Ok (r, d') /\ rr_lift qr_R d = Ok (Rm, d1) /\ MatIs Rm m n U /\ 1 <= r <= Z.min m n /\
    (r = Z.min m n \/ trailing m n U r = 0%R \/ (trailing m n U r / trailing m n U (r - 1)%Z * trailing m n U 0 < drop)%R) /\
    forall k, 1 <= k < r -> trailing m n U k <> 0%R /\ (drop <= trailing m n U k / trailing m n U (k - 1)%Z * trailing m n U 0)%R.
Proof. exact rr_rank_drop. Qed.
Print Assumptions C31_rank_drop.
Theorem C31_solve_vector : forall (x : @RealMatrix ROps) m n A thr d v b, library x -> MatIs x m n A -> 1 <= m -> 1 <= n -> (0 <= thr)%R -> rr_of x thr d ->
  rrs_IsNonSingular d = Ok true -> VecIs v m b ->
  exists r y d', rrs_SolveVector d v = Ok (r, d') /\ VecIs r n y /\
    (m <= n -> forall i, 0 <= i < m -> mvec n A y i = b i) /\
    (n <= m -> forall z, (residual2 m n A y b <= residual2 m n A z b)%R /\
       ((residual2 m n A z b <= residual2 m n A y b)%R -> forall i, 0 <= i < n -> z i = y i)).
Proof. exact rr_solve_vector. Qed.
Print Assumptions C31_solve_vector.
Theorem C31_solve_matrix : forall (x : @RealMatrix ROps) m n A thr d b c B, library x -> MatIs x m n A -> 1 <= m -> 1 <= n -> 1 <= c -> (0 <= thr)%R -> rr_of x thr d ->
  rrs_IsNonSingular d = Ok true -> MatIs b m c B ->
  exists r X d', rrs_SolveMatrix d b = Ok (r, d') /\ MatIs r n c X /\
    (m <= n -> meq m c (mmul n A X) B) /\
    forall q v, 0 <= q < c -> VecIs v m (fun i => B i q) -> exists r' y d', rrs_SolveVector d v = Ok (r', d') /\ VecIs r' n y /\ forall i, 0 <= i < n -> y i = X i q.
Proof. exact rr_solve_matrix. Qed.
Print Assumptions C31_solve_matrix.
Theorem C31_inverse : forall (x : @RealMatrix ROps) n A thr d, library x -> MatIs x n n A -> 1 <= n -> (0 <= thr)%R -> rr_of x thr d ->
  rrs_IsNonSingular d = Ok true -> exists r X d', rrs_Inverse d = Ok (r, d') /\ MatIs r n n X /\ meq n n (mmul n A X) idm /\ meq n n (mmul n X A) idm.
Proof. exact rr_inverse. Qed.
Print Assumptions C31_inverse.
(** Panics: a wrong size, a singular matrix, and the inverse of a matrix that
    is not square. *)
Theorem C31_panics : forall (O : Ops) (x : @RealMatrix O) m n A thr d, transposable x -> MatIs x m n A -> 1 <= m -> 1 <= n -> rr_of x thr d ->
  exists R Rm d1 s, rr_lift qr_R d = Ok (Rm, d1) /\ MatIs Rm m n R /\ rrs_IsNonSingular d = Ok s /\
    (s = true <-> forall i, 0 <= i < Z.min m n -> fle (fabs (R i i)) thr = false) /\
    (forall v, v_Dimension v <> m -> panics (rrs_SolveVector d v)) /\
    (forall b r c B, MatIs b r c B -> r <> m -> panics (rrs_SolveMatrix d b)) /\
    (m <> n -> panics (rrs_Inverse d)) /\
    (s = false -> (forall v, panics (rrs_SolveVector d v)) /\ (forall b r c B, MatIs b r c B -> panics (rrs_SolveMatrix d b)) /\ panics (rrs_Inverse d)).
Proof. exact (@rr_singular). Qed.
Print Assumptions C31_panics.
(** The second column is the longer one and comes first. *)
Example C31_ex : exists d r d', rr_of (rmat [[3; 5]; [4; 10]]%R) 0%R d /\ rr_Rank d 0%R = Ok (r, d') /\ r = 2.
Proof.
  destruct (C31_total ROps (rmat [[3; 5]; [4; 10]]%R) 2 2 _ 0%R (real_transposable _ (rmat_lib _)) (rmat2_is 3 5 4 10) ltac:(lia) ltac:(lia)) as (_ & d & E).
  assert (Hd : rr_of (rmat [[3; 5]; [4; 10]]%R) 0%R d) by (exists d; split; [right; split; [reflexivity|exact E]|constructor]).
  destruct (C31_rank _ 2 2 _ 0%R d 0%R (rmat_lib _) (rmat2_is 3 5 4 10) ltac:(lia) ltac:(lia) Hd ltac:(lra)) as (r & d' & Er & H & _).
  exists d, r, d'. split; [exact Hd|]. split; [exact Er|]. eapply C31_rank_unique; [apply H; exists 0, 0; split; [lia|]; split; [lia|]; rents; lra|].
  split; [lia|]. exists (fun t => t). split; [auto|]. split; [exact ex_ind|]. intros j Hj. exists (fun t => if t =? j then 1%R else 0%R). intros i Hi. unfold mvec.
  rewrite (Rs_pick 0 2 j); [|lia|intros k _ Hne; apply Z.eqb_neq in Hne; rewrite Hne; ring]. rewrite Z.eqb_refl. ring.
Qed.
Example C31_float_ex : rr_obs [[0; 3]; [0; 4]] = Ok (flss [[-5; 0]; [0; 0]], flss [[0; 1]; [1; 0]], 1) /\ rr_obs [[0; 0]; [0; 0]] = Ok (flss [[0; 0]; [0; 0]], flss [[1; 0]; [0; 1]], 1).
Proof. vm_compute. repeat split; reflexivity. Qed.

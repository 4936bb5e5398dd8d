(** Property C71: determinants, distances and matrix norms on float64.
    [det n B] is the determinant of C25 (Det.v); [Rprod 0 n g] the product of
    g 0 .. g (n-1).  [hprod k w] is the product of w 0 .. w (k-1) with tiny =
    2^-1075 added after every multiplication.
    [prod_close n d w s y]: |y - s| <= gam d |s| + (1 + 2^-53)^d (hprod n w - |s|).
    [prod_room n d w]: (1 + 2^-53)^d hprod k w <= huge for every k <= n.
    [lu_det_close n A L U p y]: y is close to the exact determinant of a matrix B
    whose row p i differs from that of A by at most what C58 allows. *)
From Coq Require Import ZArith List Lia Bool Reals Lra Floats.SpecFloat.
From Verif Require Import Base BaseLemmas Scalar Vector VecSpec Matrix Array2D BlockM Diagonal RealMatrixM MatSpec Float64 ExampleOps RSum RndSpec LU LUSpec RndLUEx Cholesky CholSpec Eigen Det RndDetSpec RndDet RndNorm RndDetEx.
Import ListNotations.
Open Scope Z_scope.

(** Determinant of the LU decomposition. *)
Theorem C71_lu : forall c (m : @RealMatrix (SFOps c)) n (A : Z -> Z -> sf) (thr : sf) (d0 d : @LUD (SFOps c)), library m -> MatIs m n n A -> 1 <= n -> nums2 n n A ->
  NewLUDecompositionWithThreshold m thr = Ok d0 -> lu_calls d0 d -> lus_IsNonSingular d = true ->
  exists Lm Um (L U : Z -> Z -> sf) d1 d2 y, lu_L d = Ok (Some Lm, d1) /\ lu_U d = Ok (Some Um, d2) /\ MatIs Lm n n L /\ MatIs Um n n U /\ lu_Determinant d = Ok y /\
    (nums2 n n L -> nums2 n n U -> sf_valid y = true /\ (isfin y = true -> lu_det_close n A L U (nthZ (lu_Pivot d)) y) /\
       (prod_room n n (fun i => Rabs (fR (U i i))) -> isfin y = true)).
Proof. exact lu_sf_det. Qed.
Print Assumptions C71_lu.
(** Determinant of the Cholesky decomposition: close to the exact determinant of
    a symmetric matrix near the one given (C59). *)
Theorem C71_cholesky : forall c (m : @RealMatrix (SFOps c)) n (A : Z -> Z -> sf) (rel pos : sf) (d0 d : @ChD (SFOps c)), library m -> MatIs m n n A -> 1 <= n -> nums2 n n A ->
  NewCholeskyDecomposition m rel pos = Ok d0 -> ch_calls d0 d ->
  exists Lm (L : Z -> Z -> sf) d1 y, ch_L d = Ok (Lm, d1) /\ MatIs Lm n n L /\ ch_Determinant d = Ok y /\
    (nums2 n n L -> sf_valid y = true /\ (isfin y = true -> chol_det_close n A L y) /\
      ((forall i, 0 <= i < n -> (fR (L i i) * fR (L i i) <= huge)%R) -> prod_room n (2 * n) (fun i => fR (L i i) * fR (L i i) + tiny)%R -> isfin y = true)).
Proof. exact ch_sf_det. Qed.
Print Assumptions C71_cholesky.
(** Determinant of the eigen decomposition: close to the exact product of the
    real parts it returned. *)
Theorem C71_eigen : forall c (d : @EdD (SFOps c)) n (g : Z -> sf), VecIs (VArr (ed_RealEigenvalues d)) n g -> nums n g -> exists y, ed_Determinant d = Ok y /\ sf_valid y = true /\
  (isfin y = true -> prod_close n n (fun i => Rabs (fR (g i))) (Rprod 0 n (fun i => fR (g i))) y) /\ (prod_room n n (fun i => Rabs (fR (g i))) -> isfin y = true).
Proof. exact ed_sf_det. Qed.
Print Assumptions C71_eigen.
(** The distances: Euclidean (by its square), sum, largest difference. *)
Theorem C71_distances : forall c (v w : @RealVector (SFOps c)) n (f g : Z -> sf), VecIs v n f -> VecIs w n g -> nums n f -> nums n g ->
  (exists y, VecDistance v w = Ok y /\ sf_valid y = true /\
    (isfin y = true -> (0 <= fR y /\ Rabs (fR y * fR y - sq_dist n f g) <= gam (n + 4) * sq_dist n f g + IZR n * grow (n + 4) * tiny)%R)) /\
  (exists y, VecL1Distance v w = Ok y /\ sf_valid y = true /\
    (isfin y = true -> (Rabs (fR y - l1_dist n f g) <= gam n * l1_dist n f g)%R) /\ ((grow n * l1_dist n f g <= huge)%R -> isfin y = true)) /\
  (exists y, VecLInfDistance v w = Ok y /\ sf_valid y = true /\
    (isfin y = true -> (forall k, 0 <= k < n -> ((1 - ulp2) * Rabs (fR (f k) - fR (g k)) <= fR y)%R) /\
       (fR y = 0%R \/ exists k, 0 <= k < n /\ (fR y <= (1 + ulp2) * Rabs (fR (f k) - fR (g k)))%R)) /\
    ((forall k, 0 <= k < n -> (Rabs (fR (f k) - fR (g k)) <= huge)%R) -> isfin y = true)).
Proof. exact (fun c v w n f g Hv Hw Nf Ng => conj (fl_distance c v w n f g Hv Hw Nf Ng) (conj (fl_l1dist c v w n f g Hv Hw Nf Ng) (fl_linfdist c v w n f g Hv Hw Nf Ng))). Qed.
Print Assumptions C71_distances.
(** The matrix norms: Frobenius (by its square) and the largest column sum. *)
Theorem C71_norms : forall c (m : @RealMatrix (SFOps c)) r q (f : Z -> Z -> sf), library m -> MatIs m r q f -> 1 <= r -> 1 <= q -> nums2 r q f ->
  (exists y, MatFrobeniusNorm m = Ok y /\ sf_valid y = true /\
    (isfin y = true -> (0 <= fR y /\ Rabs (fR y * fR y - sq_sum r q f) <= gam (r * q + 2) * sq_sum r q f + IZR (r * q) * grow (r * q + 2) * tiny)%R)) /\
  (exists y, MatLInfNorm m = Ok y /\ sf_valid y = true /\
    (isfin y = true -> (forall j, 0 <= j < q -> ((1 - gam r) * col_abs r f j <= fR y)%R) /\ exists j, 0 <= j < q /\ (fR y <= grow r * col_abs r f j)%R) /\
    ((forall j, 0 <= j < q -> (grow r * col_abs r f j <= huge)%R) -> isfin y = true)).
Proof. exact (fun c m r q f Hl H Hr Hq N => conj (fl_frobenius c m r q f Hl H Hr Hq N) (fl_matlinf c m r q f Hl H Hr Hq N)). Qed.
Print Assumptions C71_norms.
(** The cosine can leave [-1, 1] on float64: that of (1,1,1) with itself. *)
Theorem C71_cosine_refuted : exists (v : @RealVector E64) n (f : Z -> sf) y, VecIs v n f /\ nums n f /\ VecCosine v v = Ok y /\ num y /\ (1 < fR y)%R.
Proof. exact cosine_refuted. Qed.
Print Assumptions C71_cosine_refuted.
(** The determinant of [[1;1];[3;4]] is 1; the computed one is 1 - 2^-52, and
    within the bound. *)
Example C71_ex : exists (d : @LUD E64) Lm Um (L U : Z -> Z -> sf) d1 d2 y, NewLUDecompositionWithThreshold (fmat exD) ex_thr = Ok d /\ lus_IsNonSingular d = true /\
  lu_L d = Ok (Some Lm, d1) /\ lu_U d = Ok (Some Um, d2) /\ MatIs Lm 2 2 L /\ MatIs Um 2 2 U /\ nums2 2 2 L /\ nums2 2 2 U /\ lu_Determinant d = Ok y /\
  lu_det_close 2 (fent exD) L U (nthZ (lu_Pivot d)) y /\ fR y = (1 - 2 * ulp2)%R /\ det 2 (fun i j => fR (fent exD i j)) = 1%R.
Proof. exact det_ex. Qed.

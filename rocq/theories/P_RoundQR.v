(** Properties C65 and C66: the float64 QR decomposition and its solver
    against exact arithmetic.  [fR x] is the real number the float64 [x] stands
    for, [num x]: [x] is a finite 64-bit number, [len2] the Euclidean length.
    [qr_rel m p] = (1 + 10 (m + 4) 2^-53)^p - 1 and [qr_abs m p] (underflow) bound what
    [p] reflections of m-vectors do (RndQRSpec.v).  [qr_of x thr d]: [d] decomposes
    [x], after any accessor calls. *)
From Coq Require Import ZArith List Lia Bool Reals Lra Floats.SpecFloat.
From Verif Require Import Base BaseLemmas Scalar Vector VecSpec Matrix Array2D BlockM Diagonal RealMatrixM MatSpec Float64 ExampleOps RSum RndSpec QR QRSpec RndLUEx RndQRSpec RndQR2 RndQREx RndFin2 RndFin2Ex.
Import ListNotations.
Open Scope Z_scope.

(** If R is finite and its diagonal in range, some orthogonal matrix times R is
    A up to rounding; if Q is finite too, it is close to that matrix,
    orthonormal up to rounding, and Q R is A up to rounding. *)
Theorem C65_backward : forall c (x : @RealMatrix (SFOps c)) m n (A : Z -> Z -> sf) (thr : sf) d, transposable x -> MatIs x m n A -> 1 <= m -> 1 <= n -> qr_size m -> nums2 m n A ->
  qr_of x thr d ->
  exists Rm Qm (T Qf : Z -> Z -> sf) d1 d2, qr_R d = Ok (Rm, d1) /\ qr_Q d = Ok (Qm, d2) /\ MatIs Rm m n T /\ MatIs Qm m m Qf /\
    (nums2 m n T -> diag_range (Z.min m n) T -> exists Q, qr_backward m n A T Q /\
       (nums2 m m Qf -> q_close m (Z.min m n) Qf Q /\ q_orthonormal m (Z.min m n) Qf /\ qr_product m n A Qf T)).
Proof. exact qr_sf_backward. Qed.
Print Assumptions C65_backward.
(** If moreover no diagonal entry of R is zero, and the matrix is not very large,
    Q is finite, so all of this holds. *)
Theorem C65_finite : forall c (x : @RealMatrix (SFOps c)) m n (A : Z -> Z -> sf) (thr : sf) d, transposable x -> MatIs x m n A -> 1 <= m -> 1 <= n -> qr_size m -> nums2 m n A ->
  (10 * IZR (Z.min m n) * (IZR (m + 4) * ulp2) <= / 16)%R -> qr_of x thr d ->
  exists Rm Qm (T Qf : Z -> Z -> sf) d1 d2, qr_R d = Ok (Rm, d1) /\ qr_Q d = Ok (Qm, d2) /\ MatIs Rm m n T /\ MatIs Qm m m Qf /\
    (nums2 m n T -> diag_range (Z.min m n) T -> (forall k, 0 <= k < Z.min m n -> fR (T k k) <> 0%R) ->
       nums2 m m Qf /\ exists Q, qr_backward m n A T Q /\ q_close m (Z.min m n) Qf Q /\ q_orthonormal m (Z.min m n) Qf /\ qr_product m n A Qf T).
Proof. exact qr_sf_finite. Qed.
Print Assumptions C65_finite.
(** All hypotheses hold for [[1 1] [1 2] [1 4]]. *)
Example C65_finite_ex : exists d Rm (T : Z -> Z -> sf) d1, @NewQRDecomposition E64 (fmat exQ) = Ok d /\ transposable (fmat exQ) /\ MatIs (fmat exQ) 3 2 (fent exQ) /\ qr_size 3 /\ nums2 3 2 (fent exQ) /\
  (10 * IZR (Z.min 3 2) * (IZR (3 + 4) * ulp2) <= / 16)%R /\ qr_of (fmat exQ) (@fzero E64) d /\ qr_R d = Ok (Rm, d1) /\ MatIs Rm 3 2 T /\ nums2 3 2 T /\ diag_range 2 T /\ forall k, 0 <= k < 2 -> fR (T k k) <> 0%R.
Proof. exact qr_fin_ex. Qed.
(** The size of the two bounds. *)
Theorem C65_size : forall m p, 1 <= m -> 1 <= p -> (10 * IZR p * (IZR (m + 4) * ulp2) <= / 16)%R ->
  (0 <= qr_rel m p <= 11 * IZR p * (IZR (m + 4) * ulp2))%R /\ (0 <= qr_abs m p <= 2 * IZR p * IZR m * powerRZ 2 (-537))%R.
Proof. exact qr_bounds. Qed.
Print Assumptions C65_size.
(** Without the range of the diagonal the claim is false: with a finite R whose
    diagonal is below 2^512, no orthogonal matrix takes R close to A. *)
Theorem C65_scale_refuted : exists (x : @RealMatrix E64) (A : Z -> Z -> sf) d Rm (T : Z -> Z -> sf) d1, transposable x /\ MatIs x 2 2 A /\ qr_size 2 /\ nums2 2 2 A /\ qr_of x (@fzero E64) d /\
  qr_R d = Ok (Rm, d1) /\ MatIs Rm 2 2 T /\ nums2 2 2 T /\ (forall k, 0 <= k < 2 -> (Rabs (fR (T k k)) <= powerRZ 2 512)%R) /\ ~ exists Q, qr_backward 2 2 A T Q.
Proof. exact qr_scale_refuted. Qed.
Print Assumptions C65_scale_refuted.
(** The solver returns the exact least-squares solution of a system close to
    the one asked for (the exact solution if m <= n), column by column. *)
Theorem C66_solve : forall c (x : @RealMatrix (SFOps c)) m n (A : Z -> Z -> sf) (thr : sf) d, transposable x -> MatIs x m n A -> 1 <= m -> 1 <= n -> qr_size m -> nums2 m n A ->
  qr_of x thr d -> qrs_IsNonSingular d = Ok true ->
  exists Rm (T : Z -> Z -> sf) d1, qr_R d = Ok (Rm, d1) /\ MatIs Rm m n T /\
    (nums2 m n T -> diag_range (Z.min m n) T ->
      (forall (v : @RealVector (SFOps c)) (b : Z -> sf), VecIs v m b -> nums m b ->
         exists (r : @RealVector (SFOps c)) (y : Z -> sf), qrs_SolveVector d v = Ok r /\ VecIs r n y /\ (nums n y -> ls_backward m n A b y)) /\
      (forall (bm : @RealMatrix (SFOps c)) k (B : Z -> Z -> sf), 1 <= k -> MatIs bm m k B -> nums2 m k B ->
         exists (r : @RealMatrix (SFOps c)) (X : Z -> Z -> sf), qrs_SolveMatrix d bm = Ok r /\ MatIs r n k X /\
         forall q, 0 <= q < k -> nums n (fun i => X i q) -> ls_backward m n A (fun i => B i q) (fun i => X i q)) /\
      (exists (r : @RealMatrix (SFOps c)) (X : Z -> Z -> sf), qrs_Inverse d = Ok r /\ MatIs r n m X /\
         forall q, 0 <= q < m -> nums n (fun i => X i q) -> ls_backward m n A (fun i => if i =? q then sf_of_Z 1 else sf_zero) (fun i => X i q))).
Proof. exact qr_sf_solve. Qed.
Print Assumptions C66_solve.

(** [[1 1] [1 2] [1 4]]: all hypotheses hold, R is inexact (its first entry is not a
    square root of 3), and the bounds together are below 1/1000. *)
Example C65_ex : exists d Rm Qm (T Qf : Z -> Z -> sf) d1 d2 Q, @NewQRDecomposition E64 (fmat exQ) = Ok d /\ qr_R d = Ok (Rm, d1) /\ qr_Q d = Ok (Qm, d2) /\
  MatIs Rm 3 2 T /\ MatIs Qm 3 3 Qf /\ nums2 3 2 T /\ nums2 3 3 Qf /\ diag_range 2 T /\ qr_backward 3 2 (fent exQ) T Q /\ q_close 3 2 Qf Q /\ q_orthonormal 3 2 Qf /\ qr_product 3 2 (fent exQ) Qf T /\
  (fR (T 0%Z 0%Z) * fR (T 0%Z 0%Z) <> 3)%R /\ (qr_rel 3 2 + qr_abs 3 2 <= / 1000)%R /\
  exists r (y : Z -> sf), qrs_SolveVector d (VArr (fls [1; 2; 2])) = Ok r /\ VecIs r 2 y /\ nums 2 y /\ ls_backward 3 2 (fent exQ) (nthZ (fls [1; 2; 2])) y.
Proof. exact qr_ex. Qed.

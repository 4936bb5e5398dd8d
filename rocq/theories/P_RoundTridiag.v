(** The rounding errors of the tridiagonal transform: C73. *)
From Coq Require Import ZArith List Reals.
From Verif Require Import Base Scalar Vector VecSpec Matrix MatSpec Array2D RealMatrixM Float64 ExampleOps RSum House RndSpec RndLUEx RndQRSpec RndQREx SVDSpecR Tridiag HessSpec RndTdSpec RndTd6 RndTdEx.
Import ListNotations.
Open Scope Z_scope.

(** T is symmetric and tridiagonal. If it is finite and its entries beside the
    diagonal stay in range, an orthogonal Q takes the computed T to the matrix up
    to rounding; the computed Q is finite if none of these entries is zero; if it is
    finite it is the orthogonal Q up to rounding, and the computed Q and T multiply
    to the matrix up to rounding. QT is exactly Q transposed. *)
Theorem C73_tridiagonal : forall c (x : @RealMatrix (SFOps c)) n (A : Z -> Z -> sf) d, library x -> MatIs x n n A -> 1 <= n -> qr_size n -> nums2 n n A -> td_of x d ->
  exists Tm Qm Qt (T Qf : Z -> Z -> sf) d1 d2 d3, td_T d = Ok (Tm, d1) /\ td_Q d = Ok (Qm, d2) /\ td_QT d = Ok (Qt, d3) /\
    MatIs Tm n n T /\ MatIs Qm n n Qf /\ MatIs Qt n n (fun i j => Qf j i) /\ tri_shape n T /\
    (nums2 n n T -> sec_range n T -> ((10 * IZR (n - 1) * (IZR (n + 4) * ulp2) <= / 16)%R -> (forall k, 0 <= k < n - 1 -> fR (T k (k + 1)) <> 0%R) -> nums2 n n Qf) /\ exists Q, td_backward n A T Q /\
       (nums2 n n Qf -> q_close n (n - 1) Qf Q /\ q_orthonormal n (n - 1) Qf /\ td_productQ n A Qf T)).
Proof. exact td_sf_backward. Qed.
Print Assumptions C73_tridiagonal.
(** The bounds are small: about 66 units in the last place per reflection and row. *)
Theorem C73_size : forall n, 1 <= n -> (60 * IZR (n - 1) * (IZR (n + 4) * ulp2) <= / 16)%R ->
  (0 <= td_rel n <= 66 * IZR (n - 1) * (IZR (n + 4) * ulp2))%R /\ (0 <= td_abs n <= 4 * IZR (n - 1) * IZR n * powerRZ 2 (-537))%R.
Proof. exact td_bounds. Qed.
Print Assumptions C73_size.
(** Q need not be finite although the symmetric matrix and T are: in
    [[1 e] [e 1]] with e = 2^-600 the square of e underflows, the reflection is
    skipped, and Q divides by the zero stored for it. *)
Theorem C73_finite_refuted : exists (x : @RealMatrix E64) (A : Z -> Z -> sf) d Tm Qm (T Qf : Z -> Z -> sf) d1 d2, library x /\ MatIs x 2 2 A /\ nums2 2 2 A /\ (forall i j, 0 <= i < 2 -> 0 <= j < 2 -> A i j = A j i) /\ td_of x d /\
  td_T d = Ok (Tm, d1) /\ td_Q d = Ok (Qm, d2) /\ MatIs Tm 2 2 T /\ MatIs Qm 2 2 Qf /\ nums2 2 2 T /\ isfin (Qf 1 1) = false.
Proof. exact td_Q_refuted. Qed.
Print Assumptions C73_finite_refuted.

(** [[2 1 2] [1 3 4] [2 4 5]]: all hypotheses hold, T is inexact, and the bounds
    together are below 1/1000. *)
Example C73_ex : exists d Tm Qm (T Qf : Z -> Z -> sf) d1 d2 Q, @NewTriDiagonalTransformer E64 (fmat exTd) = Ok d /\
  td_T d = Ok (Tm, d1) /\ td_Q d = Ok (Qm, d2) /\ MatIs Tm 3 3 T /\ MatIs Qm 3 3 Qf /\ nums2 3 3 T /\ nums2 3 3 Qf /\ sec_range 3 T /\ tri_shape 3 T /\
  td_backward 3 (fent exTd) T Q /\ q_close 3 2 Qf Q /\ q_orthonormal 3 2 Qf /\ td_productQ 3 (fent exTd) Qf T /\
  (fR (T 0%Z 1%Z) * fR (T 0%Z 1%Z) <> 5)%R /\ (td_rel 3 + td_abs 3 <= / 1000)%R.
Proof. exact td_ex. Qed.

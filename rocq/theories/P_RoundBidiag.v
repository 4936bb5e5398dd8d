(** The rounding errors of the bidiagonal transform: C70. *)
From Coq Require Import ZArith List Reals.
From Verif Require Import Base Scalar Vector VecSpec Matrix MatSpec Array2D RealMatrixM Float64 ExampleOps RSum House RndSpec RndLUEx RndQRSpec RndQREx SVDSpecR Bidiag HessSpec RndBidiagSpec RndBidiag3 RndBidiagEx RndFin2 RndFin2Ex.
Import ListNotations.
Open Scope Z_scope.

(** Orthogonal matrices take the computed B to A up to rounding, the computed U
    and V are these matrices up to rounding, and the three computed matrices
    multiply to A up to rounding. *)
Theorem C70_bidiagonal : forall c (x : @RealMatrix (SFOps c)) m n (A : Z -> Z -> sf) d, library x -> MatIs x m n A -> 1 <= m -> 1 <= n -> qr_size (Z.max m n) -> nums2 m n A ->
  bd_of x d ->
  exists Um Bm Vm (Uf T Vf : Z -> Z -> sf) d1 d2 d3, bd_U d = Ok (Um, d1) /\ bd_B d = Ok (Bm, d2) /\ bd_V d = Ok (Vm, d3) /\
    MatIs Um m m Uf /\ MatIs Bm m n T /\ MatIs Vm n n Vf /\
    (nums2 m n T -> entry_range m n T -> exists U V, bd_backward m n A T U V /\
       (nums2 m m Uf -> q_close m (Z.min m n) Uf U /\ q_orthonormal m (Z.min m n) Uf) /\
       (nums2 n n Vf -> q_close n (Z.min m n) Vf V /\ q_orthonormal n (Z.min m n) Vf) /\
       (nums2 m m Uf -> nums2 n n Vf -> bd_product m n A Uf T Vf)).
Proof. exact bd_sf_backward. Qed.
Print Assumptions C70_bidiagonal.
(** If no entry on the two diagonals of B is zero, and the matrix is not very
    large, U and V are finite, so all of this holds. *)
Theorem C70_finite : forall c (x : @RealMatrix (SFOps c)) m n (A : Z -> Z -> sf) d, library x -> MatIs x m n A -> 1 <= m -> 1 <= n -> qr_size (Z.max m n) -> nums2 m n A ->
  (10 * IZR (Z.min m n) * (IZR (Z.max m n + 4) * ulp2) <= / 16)%R -> bd_of x d ->
  exists Um Bm Vm (Uf T Vf : Z -> Z -> sf) d1 d2 d3, bd_U d = Ok (Um, d1) /\ bd_B d = Ok (Bm, d2) /\ bd_V d = Ok (Vm, d3) /\
    MatIs Um m m Uf /\ MatIs Bm m n T /\ MatIs Vm n n Vf /\
    (nums2 m n T -> entry_range m n T -> bd_full m n T -> nums2 m m Uf /\ nums2 n n Vf /\ exists U V, bd_backward m n A T U V /\
       q_close m (Z.min m n) Uf U /\ q_orthonormal m (Z.min m n) Uf /\ q_close n (Z.min m n) Vf V /\ q_orthonormal n (Z.min m n) Vf /\ bd_product m n A Uf T Vf).
Proof. exact bd_sf_finite. Qed.
Print Assumptions C70_finite.
(** All hypotheses hold for [[1 1] [1 2] [1 4]]. *)
Example C70_finite_ex : exists d Bm (T : Z -> Z -> sf) d2, @NewBiDiagonalTransformer E64 (fmat exQ) = Ok d /\ library (fmat exQ) /\ MatIs (fmat exQ) 3 2 (fent exQ) /\ qr_size 3 /\ nums2 3 2 (fent exQ) /\
  (10 * IZR (Z.min 3 2) * (IZR (Z.max 3 2 + 4) * ulp2) <= / 16)%R /\ bd_of (fmat exQ) d /\ bd_B d = Ok (Bm, d2) /\ MatIs Bm 3 2 T /\ nums2 3 2 T /\ entry_range 3 2 T /\ bd_full 3 2 T.
Proof. exact bd_fin_ex. Qed.
(** The bounds are small: about 11 units in the last place per reflection and row. *)
Theorem C70_size : forall m n, 1 <= m -> 1 <= n -> (10 * IZR (bd_steps m n) * (IZR (Z.max m n + 4) * ulp2) <= / 16)%R ->
  (0 <= bd_rel m n <= 11 * IZR (bd_steps m n) * (IZR (Z.max m n + 4) * ulp2))%R /\
  (0 <= bd_abs m n <= 2 * IZR (bd_steps m n) * (IZR (Z.max m n) * IZR (Z.max m n)) * powerRZ 2 (-537))%R.
Proof. exact bd_bounds. Qed.
Print Assumptions C70_size.
(** U need not be finite although A and B are and B is in range: for the matrix
    [2^-600] the diagonal of B is zero, and U divides by it. *)
Theorem C70_finite_refuted : exists (x : @RealMatrix E64) (A : Z -> Z -> sf) d Um Bm (Uf T : Z -> Z -> sf) d1 d2, library x /\ MatIs x 1 1 A /\ qr_size 1 /\ nums2 1 1 A /\ bd_of x d /\
  bd_U d = Ok (Um, d1) /\ bd_B d = Ok (Bm, d2) /\ MatIs Um 1 1 Uf /\ MatIs Bm 1 1 T /\ nums2 1 1 T /\ entry_range 1 1 T /\ isfin (Uf 0 0) = false.
Proof. exact bd_U_refuted. Qed.
Print Assumptions C70_finite_refuted.

(** [[1 1] [1 2] [1 4]]: all hypotheses hold, B is inexact, and the bounds together
    are below 1/1000. *)
Example C70_ex : exists d Um Bm Vm (Uf T Vf : Z -> Z -> sf) d1 d2 d3 U V, @NewBiDiagonalTransformer E64 (fmat exQ) = Ok d /\
  bd_U d = Ok (Um, d1) /\ bd_B d = Ok (Bm, d2) /\ bd_V d = Ok (Vm, d3) /\ MatIs Um 3 3 Uf /\ MatIs Bm 3 2 T /\ MatIs Vm 2 2 Vf /\
  nums2 3 2 T /\ nums2 3 3 Uf /\ nums2 2 2 Vf /\ entry_range 3 2 T /\ bd_backward 3 2 (fent exQ) T U V /\
  q_close 3 2 Uf U /\ q_orthonormal 3 2 Uf /\ q_close 2 2 Vf V /\ q_orthonormal 2 2 Vf /\ bd_product 3 2 (fent exQ) Uf T Vf /\
  (fR (T 0%Z 0%Z) * fR (T 0%Z 0%Z) <> 3)%R /\ (bd_rel 3 2 + bd_abs 3 2 <= / 1000)%R.
Proof. exact bd_ex. Qed.

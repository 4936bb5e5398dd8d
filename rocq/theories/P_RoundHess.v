(** The rounding errors of the Hessenberg transform: C72. *)
From Coq Require Import ZArith List Reals.
From Verif Require Import Base Scalar Vector VecSpec Matrix MatSpec Array2D RealMatrixM Float64 ExampleOps RSum House RndSpec RndLUEx RndQRSpec RndQREx SVDSpecR Hess HessSpec RndHessSpec RndHess5 RndHessEx.
Import ListNotations.
Open Scope Z_scope.

(** If H is finite and its subdiagonal stays in range, an orthogonal Q takes the
    computed H to A up to rounding; P is finite, is Q up to rounding, and the
    computed P and H multiply to A up to rounding; PT is exactly P transposed. *)
Theorem C72_hessenberg : forall c (x : @RealMatrix (SFOps c)) n (A : Z -> Z -> sf) d, library x -> MatIs x n n A -> 1 <= n -> qr_size n -> nums2 n n A -> hs_of x d ->
  exists Hm Pm Pt (T Pf : Z -> Z -> sf) d1 d2 d3, hs_H d = Ok (Hm, d1) /\ hs_P d = Ok (Pm, d2) /\ hs_PT d = Ok (Pt, d3) /\
    MatIs Hm n n T /\ MatIs Pm n n Pf /\ MatIs Pt n n (fun i j => Pf j i) /\
    (nums2 n n T -> sub_range n T -> ((10 * IZR (hs_steps n) * (IZR (n + 4) * ulp2) <= / 16)%R -> nums2 n n Pf) /\ exists Q, hs_backward n A T Q /\
       (nums2 n n Pf -> q_close n (hs_steps n) Pf Q /\ q_orthonormal n (hs_steps n) Pf /\ hs_product n A Pf T)).
Proof. exact hs_sf_backward. Qed.
Print Assumptions C72_hessenberg.
(** The bounds are small: about 27 units in the last place per reflection and row. *)
Theorem C72_size : forall n, 1 <= n -> (24 * IZR (hs_steps n) * (IZR (n + 4) * ulp2) <= / 16)%R ->
  (0 <= hs_rel n <= 27 * IZR (hs_steps n) * (IZR (n + 4) * ulp2))%R /\ (0 <= hs_abs n <= 4 * IZR (hs_steps n) * (IZR n * IZR n) * powerRZ 2 (-537))%R.
Proof. exact hs_bounds. Qed.
Print Assumptions C72_size.
(** Outside that range P need not be finite although A and H are: a column whose
    only entry below the diagonal is 2^-1074 is skipped because it equals zero up
    to one unit, and P then divides by the zero stored for it. *)
Theorem C72_finite_refuted : exists (x : @RealMatrix E64) (A : Z -> Z -> sf) d Hm Pm (T Pf : Z -> Z -> sf) d1 d2, library x /\ MatIs x 3 3 A /\ qr_size 3 /\ nums2 3 3 A /\ hs_of x d /\
  hs_H d = Ok (Hm, d1) /\ hs_P d = Ok (Pm, d2) /\ MatIs Hm 3 3 T /\ MatIs Pm 3 3 Pf /\ nums2 3 3 T /\ isfin (Pf 1 1) = false.
Proof. exact hs_P_refuted. Qed.
Print Assumptions C72_finite_refuted.

(** [[1 2 3] [4 5 6] [7 8 10]]: all hypotheses hold, H is inexact, and the bounds
    together are below 1/1000. *)
Example C72_ex : exists d Hm Pm (T Pf : Z -> Z -> sf) d1 d2 Q, @NewHessenbergTransformer E64 (fmat exHe) = Ok d /\
  hs_H d = Ok (Hm, d1) /\ hs_P d = Ok (Pm, d2) /\ MatIs Hm 3 3 T /\ MatIs Pm 3 3 Pf /\ nums2 3 3 T /\ nums2 3 3 Pf /\ sub_range 3 T /\
  hs_backward 3 (fent exHe) T Q /\ q_close 3 1 Pf Q /\ q_orthonormal 3 1 Pf /\ hs_product 3 (fent exHe) Pf T /\
  (fR (T 1%Z 0%Z) * fR (T 1%Z 0%Z) <> 65)%R /\ (hs_rel 3 + hs_abs 3 <= / 1000)%R.
Proof. exact hs_ex. Qed.

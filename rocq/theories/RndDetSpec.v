(** The bounds C71 uses: determinants computed as a product of floats,
    exact distances and norms. *)
From Coq Require Import ZArith Reals Floats.SpecFloat.
From Verif Require Import Base Scalar Float64 RSum RndSpec Det.
Open Scope Z_scope.

(** The product of sizes [w 0 .. w (k-1)] when every multiplication can add the
    underflow [tiny]. *)
Fixpoint hprod (k : nat) (w : Z -> R) : R := match k with 0%nat => 1%R | S k => (hprod k w * w (Z.of_nat k) + tiny)%R end.
(** The float [y] is the real product [s] up to [d] roundings: relative error
    at most (1+u)^d - 1, and the underflow. *)
Definition prod_close (n d : Z) (w : Z -> R) (s : R) (y : sf) : Prop :=
  (Rabs (fR y - s) <= gam d * Rabs s + grow d * (hprod (Z.to_nat n) w - Rabs s))%R.
(** No partial product overflows. *)
Definition prod_room (n d : Z) (w : Z -> R) : Prop := forall k, (k <= Z.to_nat n)%nat -> (grow d * hprod k w <= huge)%R.
(** [y] is, up to [n] roundings, the exact determinant of a matrix near [A]: near
    in the sense of [factors_close], row by row through the pivots [p]. *)
Definition lu_det_close (n : Z) (A L U : Z -> Z -> sf) (p : Z -> Z) (y : sf) : Prop := exists B : Z -> Z -> R,
  (forall i j, 0 <= i < n -> 0 <= j < n -> (Rabs (B (p i) j - fR (A (p i) j)) <= gam n * msize n L U i j + (IZR n + Rabs (fR (U j j))) * grow n * tiny)%R) /\
  prod_close n n (fun i => Rabs (fR (U i i))) (det n B) y.
(** Cholesky: near the symmetric matrix with the upper triangle of [A]; two
    roundings a factor. *)
Definition chol_det_close (n : Z) (A L : Z -> Z -> sf) (y : sf) : Prop := exists B : Z -> Z -> R,
  (forall i j, 0 <= i < n -> 0 <= j < n -> B i j = B j i /\ (Rabs (B i j - fR (up A i j)) <= chol_err n L i j)%R) /\
  prod_close n (2 * n) (fun i => fR (L i i) * fR (L i i) + tiny)%R (det n B) y.

(** The exact squared distance, the sum of the absolute differences, the sum of
    the squares of a table, the sum of the absolute values of a column. *)
Definition sq_dist (n : Z) (f g : Z -> sf) : R := Rs 0 n (fun k => (fR (f k) - fR (g k)) * (fR (f k) - fR (g k)))%R.
Definition l1_dist (n : Z) (f g : Z -> sf) : R := Rs 0 n (fun k => Rabs (fR (f k) - fR (g k)))%R.
Definition sq_sum (r q : Z) (f : Z -> Z -> sf) : R := Rs 0 r (fun i => Rs 0 q (fun j => fR (f i j) * fR (f i j)))%R.
Definition col_abs (r : Z) (f : Z -> Z -> sf) (j : Z) : R := Rs 0 r (fun i => Rabs (fR (f i j))).

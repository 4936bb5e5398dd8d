(** Vocabulary of the rounding theorems on the tridiagonal transform (C73). *)
From Coq Require Import ZArith Reals Floats.SpecFloat.
From Verif Require Import Base Scalar Float64 RSum RndSpec SVDSpecR RndQRSpec.
Open Scope Z_scope.

(** What the n - 1 reflections, each applied on both sides at once, can do:
    relative to the size of the matrix, and by underflow. *)
Definition td_grow (n : Z) : R := ((1 + 60 * (IZR (n + 4) * ulp2)) ^ Z.to_nat (n - 1))%R.
Definition td_rel (n : Z) : R := (td_grow n - 1)%R.
Definition td_abs (n : Z) : R := (IZR (n - 1) * td_grow n * (2 * (IZR n * powerRZ 2 (-537))))%R.
(** The symmetric matrix the transform reads: the upper triangle, mirrored. *)
Definition mirror (A : Z -> Z -> sf) (i j : Z) : R := fR (A (Z.min i j) (Z.max i j)).
(** The entries of T next to the diagonal are zero or between 2^-450 and 2^500 in size. *)
Definition sec_range (n : Z) (T : Z -> Z -> sf) : Prop := forall k, 0 <= k < n - 1 ->
  fR (T k (k + 1)) = 0%R \/ (powerRZ 2 (-450) <= Rabs (fR (T k (k + 1)%Z)) <= powerRZ 2 500)%R.
(** An orthogonal [Q] takes the computed [T] to the symmetric matrix up to rounding. *)
Definition td_backward (n : Z) (A T : Z -> Z -> sf) (Q : Z -> Z -> R) : Prop :=
  orthogonal n Q /\
  (frob n n (fun i j => mirror A i j - Rs 0 n (fun s => Rs 0 n (fun t => Q i s * fR (T s t) * Q j t))) <=
   td_rel n * frob n n (mirror A) + td_abs n)%R.
(** The computed factors multiply to the symmetric matrix up to rounding. *)
Definition td_productQ (n : Z) (A Qf T : Z -> Z -> sf) : Prop :=
  let e := (IZR n * (qr_rel n (n - 1) + qr_abs n (n - 1)))%R in
  (frob n n (fun i j => mirror A i j - Rs 0 n (fun s => Rs 0 n (fun t => fR (Qf i s) * fR (T s t) * fR (Qf j t)))) <=
   td_rel n * frob n n (mirror A) + td_abs n + e * (2 + e) * frob n n (fun i j => fR (T i j)))%R.
(** T is symmetric and zero away from the three middle diagonals. *)
Definition tri_shape (n : Z) (T : Z -> Z -> sf) : Prop :=
  (forall i j, 0 <= i < n -> 0 <= j < n -> T i j = T j i) /\
  (forall i j, 0 <= i < n -> 0 <= j < n -> i + 1 < j -> T i j = S754_zero false).

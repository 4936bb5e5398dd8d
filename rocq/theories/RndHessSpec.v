(** Vocabulary of the rounding theorems on the Hessenberg transform (C72). *)
From Coq Require Import ZArith Reals.
From Verif Require Import Base Scalar Float64 RSum RndSpec SVDSpecR RndQRSpec.
Open Scope Z_scope.

(** How many reflections a matrix of order [n] takes, and what applying each of
    them on both sides can do: relative to the size of the matrix, and by underflow. *)
Definition hs_steps (n : Z) : Z := Z.max 0 (n - 2).
Definition hs_grow (n : Z) : R := ((1 + 12 * (IZR (n + 4) * ulp2)) ^ Z.to_nat (2 * hs_steps n))%R.
Definition hs_rel (n : Z) : R := (hs_grow n - 1)%R.
Definition hs_abs (n : Z) : R := (IZR (2 * hs_steps n) * hs_grow n * (IZR n * (IZR n * powerRZ 2 (-537))))%R.
(** The entries of H below the diagonal, the last one excepted, are zero or
    between 2^-450 and 2^511 in size. *)
Definition sub_range (n : Z) (T : Z -> Z -> sf) : Prop := forall k, 1 <= k <= n - 2 ->
  fR (T k (k - 1)) = 0%R \/ (powerRZ 2 (-450) <= Rabs (fR (T k (k - 1)%Z)) <= powerRZ 2 511)%R.
(** An orthogonal [Q] takes the computed [T] to [A] up to rounding: [A] is
    [Q T Q^T] and a small error. *)
Definition hs_backward (n : Z) (A T : Z -> Z -> sf) (Q : Z -> Z -> R) : Prop :=
  orthogonal n Q /\
  (frob n n (fun i j => fR (A i j) - Rs 0 n (fun s => Rs 0 n (fun t => Q i s * fR (T s t) * Q j t))) <=
   hs_rel n * frob n n (fun i j => fR (A i j)) + hs_abs n)%R.
(** The computed factors multiply to [A] up to rounding. *)
Definition hs_product (n : Z) (A Pf T : Z -> Z -> sf) : Prop :=
  let e := (IZR n * (qr_rel n (hs_steps n) + qr_abs n (hs_steps n)))%R in
  (frob n n (fun i j => fR (A i j) - Rs 0 n (fun s => Rs 0 n (fun t => fR (Pf i s) * fR (T s t) * fR (Pf j t)))) <=
   hs_rel n * frob n n (fun i j => fR (A i j)) + hs_abs n + e * (2 + e) * frob n n (fun i j => fR (T i j)))%R.

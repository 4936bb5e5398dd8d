(** Float64 results measured against the exact values: the real number a
    float64 stands for, and the bounds the rounding theorems (C57-C59) use. *)
From Coq Require Import ZArith Reals Bool Floats.SpecFloat.
From Verif Require Import Base Scalar Float64 RSum.
Open Scope Z_scope.

(** The real number a finite float64 stands for (0 for the others). *)
Definition fR (x : sf) : R :=
  match x with
  | S754_finite s m e => (IZR (if s then Zneg m else Zpos m) * powerRZ 2 e)%R
  | _ => 0%R
  end.
(** Neither infinite nor NaN. *)
Definition isfin (x : sf) : bool := match x with S754_zero _ | S754_finite _ _ _ => true | _ => false end.
(** A finite 64-bit number. *)
Definition num (x : sf) : Prop := sf_valid x = true /\ isfin x = true.
Definition nums (n : Z) (g : Z -> sf) : Prop := forall i, 0 <= i < n -> num (g i).
Definition nums2 (r c : Z) (f : Z -> Z -> sf) : Prop := forall i j, 0 <= i < r -> 0 <= j < c -> num (f i j).

(** Half a unit in the last place of 1; half the smallest positive number; the
    largest finite number. *)
Definition ulp2 : R := powerRZ 2 (-53).
Definition tiny : R := powerRZ 2 (-1075).
Definition huge : R := ((2 - powerRZ 2 (-52)) * powerRZ 2 1023)%R.

(** (1+u)^n and (1+u)^n - 1: what [n] roundings in a row can do. *)
Definition grow (n : Z) : R := ((1 + ulp2) ^ Z.to_nat n)%R.
Definition gam (n : Z) : R := (grow n - 1)%R.

(** The float [y] is the sum of the products a k * b k, k < n, up to rounding. *)
Definition dot_exact (n : Z) (a b : Z -> sf) : R := Rs 0 n (fun k => fR (a k) * fR (b k))%R.
Definition dot_size (n : Z) (a b : Z -> sf) : R := Rs 0 n (fun k => Rabs (fR (a k)) * Rabs (fR (b k)))%R.
Definition dot_close (n : Z) (a b : Z -> sf) (y : sf) : Prop :=
  (Rabs (fR y - dot_exact n a b) <= gam n * dot_size n a b + IZR n * grow n * tiny)%R.
(** The same for a plain sum. *)
Definition sum_close (n : Z) (a : Z -> sf) (y : sf) : Prop :=
  (Rabs (fR y - Rs 0 n (fun k => fR (a k))) <= gam n * Rs 0 n (fun k => Rabs (fR (a k))))%R.
(** Far enough below the overflow threshold. *)
Definition dot_room (n : Z) (a b : Z -> sf) : Prop := (grow n * (dot_size n a b + IZR n * tiny) <= huge)%R.
(** What a user may rely on for one computed sum of products: if the result is
    finite it is close to the exact value; it is finite when there is room. *)
Definition dot_result (n : Z) (a b : Z -> sf) (y : sf) : Prop :=
  sf_valid y = true /\ (isfin y = true -> dot_close n a b y) /\ (dot_room n a b -> isfin y = true).
Definition sum_result (n : Z) (a : Z -> sf) (y : sf) : Prop :=
  sf_valid y = true /\ (isfin y = true -> sum_close n a y) /\
  ((grow n * Rs 0 n (fun k => Rabs (fR (a k))) <= huge)%R -> isfin y = true).

(** [y] is a float64 nearest to the real [x]: no other float64 is nearer. *)
Definition nearest (x : R) (y : sf) : Prop :=
  num y /\ forall z, num z -> (Rabs (fR y - x) <= Rabs (fR z - x))%R.

(** ** Factorisations and solutions *)
(** The exact product of two float matrices, and the product of their absolute
    values. *)
Definition mdot (n : Z) (f g : Z -> Z -> sf) (i j : Z) : R := Rs 0 n (fun t => fR (f i t) * fR (g t j))%R.
Definition msize (n : Z) (f g : Z -> Z -> sf) (i j : Z) : R := Rs 0 n (fun t => Rabs (fR (f i t)) * Rabs (fR (g t j)))%R.
(** [L] times [U] is [B] up to rounding: |L U - B| <= gam n * |L| |U|, and the
    underflow. *)
Definition factors_close (n : Z) (B L U : Z -> Z -> sf) : Prop := forall i j, 0 <= i < n -> 0 <= j < n ->
  (Rabs (mdot n L U i j - fR (B i j)) <= gam n * msize n L U i j + (IZR n + Rabs (fR (U j j))) * grow n * tiny)%R.
(** [x] solves [B x = b] up to rounding: |b - B x| <= gam n (3 + gam n) |L| |U| |x|,
    and the underflow. *)
Definition residual (n : Z) (B : Z -> Z -> sf) (x b : Z -> sf) (i : Z) : R := (fR (b i) - Rs 0 n (fun j => fR (B i j) * fR (x j)))%R.
Definition solves_close (n : Z) (B L U : Z -> Z -> sf) (x b : Z -> sf) : Prop := forall i, 0 <= i < n ->
  (Rabs (residual n B x b i) <=
    gam n * (3 + gam n) * Rs 0 n (fun t => Rabs (fR (L i t)) * Rs 0 n (fun j => Rabs (fR (U t j)) * Rabs (fR (x j)))) +
    grow n * tiny * (IZR n + grow n * Rs 0 n (fun t => Rabs (fR (L i t)) * (IZR n + Rabs (fR (U t t)))) +
                     Rs 0 n (fun j => (IZR n + Rabs (fR (U j j))) * Rabs (fR (x j)))))%R.
(** Entries at most [a] leave room for n-1 doublings. *)
Definition lu_room (n : Z) (A : Z -> Z -> sf) : Prop := exists a,
  (forall i j, 0 <= i < n -> 0 <= j < n -> (Rabs (fR (A i j)) <= a)%R) /\ ((2 * (1 + ulp2) ^ 2) ^ Z.to_nat (n - 1) * (a + tiny) <= huge)%R.
(** Cholesky: L times its transpose is the symmetric matrix with the upper
    triangle of [A], up to rounding. *)
Definition up (A : Z -> Z -> sf) (i j : Z) : sf := A (Z.min i j) (Z.max i j).
Definition chol_close (n : Z) (A L : Z -> Z -> sf) : Prop := forall i j, 0 <= i < n -> 0 <= j < n ->
  (Rabs (Rs 0 n (fun t => fR (L i t) * fR (L j t)) - fR (up A i j)) <=
    gam (n + 1) * Rs 0 n (fun t => Rabs (fR (L i t)) * Rabs (fR (L j t))) + (IZR n + Rabs (fR (L (Z.min i j) (Z.min i j)))) * grow (n + 1) * tiny)%R.
Definition chol_solves (n : Z) (A L : Z -> Z -> sf) (x b : Z -> sf) : Prop := forall i, 0 <= i < n ->
  (Rabs (residual n (up A) x b i) <=
    gam (n + 1) * (3 + gam (n + 1)) * Rs 0 n (fun t => Rabs (fR (L i t)) * Rs 0 n (fun j => Rabs (fR (L j t)) * Rabs (fR (x j)))) +
    grow (n + 1) * tiny * (IZR n + Rabs (fR (L i i)) + grow (n + 1) * Rs 0 n (fun t => Rabs (fR (L i t)) * (IZR n + Rabs (fR (L t t)))) +
                     Rs 0 n (fun j => (IZR n + Rabs (fR (L (Z.min i j) (Z.min i j)))) * Rabs (fR (x j)))))%R.
(** The bound of [chol_close]. *)
Definition chol_err (n : Z) (L : Z -> Z -> sf) (i j : Z) : R :=
  (gam (n + 1) * Rs 0 n (fun t => Rabs (fR (L i t)) * Rabs (fR (L j t))) + (IZR n + Rabs (fR (L (Z.min i j) (Z.min i j)))) * grow (n + 1) * tiny)%R.

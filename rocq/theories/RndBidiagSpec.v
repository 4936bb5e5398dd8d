(** Vocabulary of the rounding theorems on the bidiagonal transform (C70). *)
From Coq Require Import ZArith Reals.
From Verif Require Import Base Scalar Float64 RSum RndSpec SVDSpecR RndQRSpec.
Open Scope Z_scope.

(** What the [2p - 1] reflections on the two sides of an m by n matrix can do,
    [p] the smaller side: relative to the size of the matrix, and by underflow. *)
Definition bd_steps (m n : Z) : Z := 2 * Z.min m n - 1.
Definition bd_rel (m n : Z) : R := (refl_grow (Z.max m n) (bd_steps m n) - 1)%R.
Definition bd_abs (m n : Z) : R :=
  (IZR (bd_steps m n) * refl_grow (Z.max m n) (bd_steps m n) * (IZR (Z.max m n) * (IZR (Z.max m n) * powerRZ 2 (-537))))%R.
(** Every entry of B is zero or between 2^-450 and 2^511 in size. *)
Definition entry_range (m n : Z) (T : Z -> Z -> sf) : Prop := forall i j, 0 <= i < m -> 0 <= j < n ->
  fR (T i j) = 0%R \/ (powerRZ 2 (-450) <= Rabs (fR (T i j)) <= powerRZ 2 511)%R.
(** No entry on the two diagonals of B is zero. *)
Definition bd_full (m n : Z) (T : Z -> Z -> sf) : Prop := forall i j, 0 <= i < m -> 0 <= j < n ->
  j = i \/ (n <= m /\ j = i + 1) \/ (m < n /\ i = j + 1) -> fR (T i j) <> 0%R.
(** Orthogonal [U] and [V] take the computed [T] to [A] up to rounding. *)
Definition bd_backward (m n : Z) (A T : Z -> Z -> sf) (U V : Z -> Z -> R) : Prop :=
  orthogonal m U /\ orthogonal n V /\
  (frob m n (fun i j => fR (A i j) - Rs 0 m (fun s => Rs 0 n (fun t => U i s * fR (T s t) * V j t))) <=
   bd_rel m n * frob m n (fun i j => fR (A i j)) + bd_abs m n)%R.
(** The computed factors multiply to [A] up to rounding. *)
Definition bd_product (m n : Z) (A Uf T Vf : Z -> Z -> sf) : Prop := let p := Z.min m n in
  let d k := (1 + IZR k * (qr_rel k p + qr_abs k p))%R in
  (frob m n (fun i j => fR (A i j) - Rs 0 m (fun s => Rs 0 n (fun t => fR (Uf i s) * fR (T s t) * fR (Vf j t)))) <=
   bd_rel m n * frob m n (fun i j => fR (A i j)) + bd_abs m n + (d m * d n - 1) * frob m n (fun i j => fR (T i j)))%R.

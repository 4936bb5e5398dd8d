(** Vocabulary of the rounding theorems on the QR decomposition (C65, C66). *)
From Coq Require Import ZArith Reals.
From Verif Require Import Base Scalar Float64 RSum QRSpec RndSpec.
Open Scope Z_scope.

(** The Euclidean length. *)
Definition len2 (m : Z) (x : Z -> R) : R := sqrt (Rs 0 m (fun i => x i * x i)%R).
(** What one reflection of an m-vector can do, and what [p] of them can do:
    relative to the size of the data, and by underflow. *)
Definition refl_unit (m : Z) : R := (10 * (IZR (m + 4) * ulp2))%R.
Definition refl_grow (m p : Z) : R := ((1 + refl_unit m) ^ Z.to_nat p)%R.
Definition qr_rel (m p : Z) : R := (refl_grow m p - 1)%R.
Definition qr_abs (m p : Z) : R := (IZR p * refl_grow m p * (IZR m * powerRZ 2 (-537)))%R.
(** At most 2^43 rows, or so. *)
Definition qr_size (m : Z) : Prop := (IZR (m + 4) * ulp2 <= / 1024)%R.
(** The diagonal of R stays away from the ends of the range: each entry is zero
    or between 2^-450 and 2^511 in size. *)
Definition diag_range (p : Z) (T : Z -> Z -> sf) : Prop := forall k, 0 <= k < p ->
  fR (T k k) = 0%R \/ (powerRZ 2 (-450) <= Rabs (fR (T k k)) <= powerRZ 2 511)%R.
(** The orthogonal matrix [Q] times the computed [T] is [A], column by column,
    up to rounding. *)
Definition qr_backward (m n : Z) (A T : Z -> Z -> sf) (Q : Z -> Z -> R) : Prop :=
  orthogonal m Q /\
  forall j, 0 <= j < n ->
    (len2 m (fun i => fR (A i j) - Rs 0 m (fun t => Q i t * fR (T t j))) <=
     qr_rel m (Z.min m n) * len2 m (fun i => fR (A i j)) + qr_abs m (Z.min m n))%R.
(** The columns of the computed [Qf] are those of [Q] up to rounding. *)
Definition q_close (m p : Z) (Qf : Z -> Z -> sf) (Q : Z -> Z -> R) : Prop :=
  forall j, 0 <= j < m -> (len2 m (fun i => fR (Qf i j) - Q i j) <= qr_rel m p + qr_abs m p)%R.
(** Its columns are orthonormal up to rounding. *)
Definition q_orthonormal (m p : Z) (Qf : Z -> Z -> sf) : Prop := let e := (qr_rel m p + qr_abs m p)%R in
  forall i j, 0 <= i < m -> 0 <= j < m ->
  (Rabs (Rs 0 m (fun t => fR (Qf t i) * fR (Qf t j)) - idm i j) <= e * (2 + e))%R.
(** The computed factors multiply to [A] up to rounding. *)
Definition qr_product (m n : Z) (A Qf T : Z -> Z -> sf) : Prop := let p := Z.min m n in
  forall j, 0 <= j < n ->
    (len2 m (fun i => fR (A i j) - Rs 0 m (fun t => fR (Qf i t) * fR (T t j))) <=
     qr_rel m p * len2 m (fun i => fR (A i j)) + qr_abs m p + (qr_rel m p + qr_abs m p) * Rs 0 m (fun t => Rabs (fR (T t j))))%R.

(** ** Solving *)
(** [x] is the exact least-squares solution of a system close to [A x = b]; for
    [m <= n], the exact solution. *)
Definition ls_backward (m n : Z) (A : Z -> Z -> sf) (b x : Z -> sf) : Prop := let p := Z.min m n in
  exists (E : Z -> Z -> R) (f : Z -> R),
    (forall j, 0 <= j < n -> (len2 m (fun i => E i j) <= (grow (p + 1) * refl_grow m p - 1) * len2 m (fun i => fR (A i j)) + 2 * qr_abs m p)%R) /\
    (len2 m f <= qr_rel m p * len2 m (fun i => fR (b i)) + 2 * qr_abs m p)%R /\
    let A' i j := (fR (A i j) + E i j)%R in let b' i := (fR (b i) + f i)%R in let x' i := fR (x i) in
    (forall z, (residual2 m n A' x' b' <= residual2 m n A' z b')%R) /\
    (m <= n -> forall i, 0 <= i < m -> mvec n A' x' i = b' i).

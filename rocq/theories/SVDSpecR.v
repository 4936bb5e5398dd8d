(** Vocabulary of the singular value decomposition over the real numbers. *)
From Coq Require Import ZArith Reals.
From Verif Require Import RSum.
Open Scope Z_scope.

(** The columns of the r x q table U are orthonormal. *)
Definition orthonormal_columns (r q : Z) (U : Z -> Z -> R) : Prop :=
  forall a b, 0 <= a < q -> 0 <= b < q -> Rs 0 r (fun i => U i a * U i b)%R = if a =? b then 1%R else 0%R.
(** The Frobenius norm of an r x c table, the Euclidean norm of a vector. *)
Definition frob (r c : Z) (A : Z -> Z -> R) : R := sqrt (Rs 0 r (fun i => Rs 0 c (fun j => A i j * A i j)))%R.
Definition enorm (n : Z) (x : Z -> R) : R := sqrt (Rs 0 n (fun i => x i * x i))%R.
(** U diag(S) V^T with q columns in U and V. *)
Definition recompose (q : Z) (U : Z -> Z -> R) (S : Z -> R) (V : Z -> Z -> R) (i j : Z) : R := Rs 0 q (fun k => U i k * S k * V j k)%R.
(** The bound on the residual for a matrix of Frobenius norm [a]:
    (q - 1) (2^-966 + 2^-51 a). *)
Definition svd_bound (q : Z) (a : R) : R := (IZR (q - 1) * (/ 2 ^ 966 + / 2 ^ 51 * a))%R.
(** X is the Moore-Penrose inverse of the r x c table B. *)
Definition pseudo_inverse (r c : Z) (B X : Z -> Z -> R) : Prop :=
  meq r c (mmul r (mmul c B X) B) B /\ meq c r (mmul c (mmul r X B) X) X /\
  meq r r (trm (mmul c B X)) (mmul c B X) /\ meq c c (trm (mmul r X B)) (mmul r X B).

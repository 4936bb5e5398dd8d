(** Vocabulary of the rectangular Cholesky properties. *)
From Coq Require Import ZArith List Lia Bool Reals.
From Verif Require Import Base Scalar Vector Matrix CholSpec RectChol RealOps RSum.
Open Scope Z_scope.

(** Symmetric and x^T A x >= 0 for every x. *)
Definition psd (n : Z) (A : Z -> Z -> R) : Prop := symmetric n A /\ forall x, (0 <= quad n A x)%R.
(** [d] was built from [m] by either constructor. *)
Definition rc_of {O : Ops} (m : RealMatrix) (small : F) (d : RCD) : Prop :=
  NewRectangularCholeskyDecompositionWithThreshold m small = Ok d \/ (small = fzero /\ NewRectangularCholeskyDecomposition m = Ok d).

(** Vocabulary of the Cholesky properties. *)
From Coq Require Import ZArith QArith List Lia Bool Reals.
From Verif Require Import Base Scalar Vector Matrix Cholesky RealOps RSum.
Open Scope Z_scope.

(** The pair (i,j) fails the symmetry test: |a_ij - a_ji| is greater than
    rel * max(|a_ij|, |a_ji|). *)
Definition asym {O : Ops} (rel : F) (A : Z -> Z -> F) (i j : Z) : bool :=
  flt (rel * fmax (fabs (A i j)) (fabs (A j i)))%f (fabs (A i j - A j i)%f).

(** [d'] is [d] after any sequence of calls to the caching accessors. *)
Inductive ch_calls {O : Ops} : ChD -> ChD -> Prop :=
| cc_none d : ch_calls d d
| cc_L d d1 d2 m : ch_L d = Ok (m, d1) -> ch_calls d1 d2 -> ch_calls d d2
| cc_LT d d1 d2 m : ch_LT d = Ok (m, d1) -> ch_calls d1 d2 -> ch_calls d d2.

(** [d] is a decomposition of [m] (either constructor) followed by accessor
    calls; [pos] is the nonnegative positivity threshold. *)
Definition ch_of (m : @RealMatrix ROps) (rel pos : R) (d : @ChD ROps) : Prop :=
  (0 <= pos)%R /\ exists d0,
    (@NewCholeskyDecomposition ROps m rel pos = Ok d0 \/
     (rel = (1 / 1000000000000000)%R /\ pos = (1 / 10000000000)%R /\ @NewDefaultCholeskyDecomposition ROps m = Ok d0)) /\ ch_calls d0 d.

Definition symmetric (n : Z) (A : Z -> Z -> R) : Prop := forall i j, 0 <= i < n -> 0 <= j < n -> A i j = A j i.
(** x^T A x *)
Definition quad (n : Z) (A : Z -> Z -> R) (x : Z -> R) : R := dot n x (mvec n A x).
(** The table whose lower triangle is the mirror image of the upper one. *)
Definition mirror (A : Z -> Z -> R) (i j : Z) : R := A (Z.min i j) (Z.max i j).

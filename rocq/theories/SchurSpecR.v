(** Vocabulary of the Schur form over the real numbers. *)
From Coq Require Import ZArith Reals.
Open Scope Z_scope.

(** A tolerance for n x n matrices of Frobenius norm [a]; 9007199254740992 is 2^53. *)
Definition sc_tol (n : Z) (a : R) : R := (2020 * (IZR n * (IZR n + 8)) * / 9007199254740992 * (a + 1))%R.
(** Up to [e], T is quasi-triangular: zero below the sub-diagonal, and each
    entry of the sub-diagonal is at most [e] or belongs to a 2x2 diagonal block
    whose eigenvalues are not real and whose neighbours on the sub-diagonal are
    at most [e].  The 2x2 block [[a,b],[c,d]] has real eigenvalues exactly when
    (a-d)^2 + 4bc >= 0. *)
Definition schur_form (n : Z) (e : R) (T : Z -> Z -> R) : Prop :=
  (forall i j, 0 <= j -> j + 1 < i < n -> T i j = 0%R) /\
  forall l, 1 <= l < n -> (Rabs (T l (l - 1)%Z) <= e)%R \/
    ((2 <= l -> (Rabs (T (l - 1)%Z (l - 2)%Z) <= e)%R) /\ (l + 1 < n -> (Rabs (T (l + 1)%Z l) <= e)%R) /\
     ((T (l - 1)%Z (l - 1)%Z - T l l) * (T (l - 1)%Z (l - 1)%Z - T l l) + 4 * (T l (l - 1)%Z * T (l - 1)%Z l) < 0)%R).

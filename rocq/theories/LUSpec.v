(** Vocabulary of the LU properties. *)
From Coq Require Import ZArith QArith List Lia Bool Reals.
From Verif Require Import Base Scalar Vector Matrix LU RealOps.
Open Scope Z_scope.

(** [p] restricted to 0..m-1 is a permutation. *)
Definition permutes (m : Z) (p : Z -> Z) : Prop :=
  (forall i, 0 <= i < m -> 0 <= p i < m) /\
  (forall i j, 0 <= i < m -> 0 <= j < m -> p i = p j -> i = j) /\
  (forall k, 0 <= k < m -> exists i, 0 <= i < m /\ p i = k).

(** [d'] is [d] after any sequence of calls to the caching accessors. *)
Inductive lu_calls {O : Ops} : LUD -> LUD -> Prop :=
| lc_none d : lu_calls d d
| lc_L d d1 d2 m : lu_L d = Ok (m, d1) -> lu_calls d1 d2 -> lu_calls d d2
| lc_U d d1 d2 m : lu_U d = Ok (m, d1) -> lu_calls d1 d2 -> lu_calls d d2
| lc_P d d1 d2 m : lu_P d = Ok (m, d1) -> lu_calls d1 d2 -> lu_calls d d2.

(** [d] is a decomposition of [m] (either constructor) followed by accessor
    calls; [thr] is the positive threshold, 1e-11 for NewLUDecomposition. *)
Definition lu_of (m : @RealMatrix ROps) (thr : R) (d : @LUD ROps) : Prop :=
  (0 < thr)%R /\ exists d0,
    (@NewLUDecompositionWithThreshold ROps m thr = Ok d0 \/
     (thr = (1 / 100000000000)%R /\ @NewLUDecomposition ROps m = Ok d0)) /\ lu_calls d0 d.

(** Vocabulary of the Schur transform. *)
From Coq Require Import ZArith.
From Verif Require Import Base Scalar Vector Matrix MatSpec RealMatrixM Schur.
Open Scope Z_scope.

(** [d'] is [d] after any sequence of calls to the caching accessors. *)
Inductive sc_calls {O : Ops} : ScD -> ScD -> Prop :=
| scc_none d : sc_calls d d
| scc_P d d1 d2 m : sc_getP d = Ok (m, d1) -> sc_calls d1 d2 -> sc_calls d d2
| scc_PT d d1 d2 m : sc_getPT d = Ok (m, d1) -> sc_calls d1 d2 -> sc_calls d d2
| scc_T d d1 d2 m : sc_getT d = Ok (m, d1) -> sc_calls d1 d2 -> sc_calls d d2.
(** [d] is a transform of [x] followed by accessor calls. *)
Definition sc_of {O : Ops} (x : RealMatrix) (d : ScD) : Prop := exists d0, NewSchurTransformer x = Ok d0 /\ sc_calls d0 d.

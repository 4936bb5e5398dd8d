(** Vocabulary of the eigen decomposition. *)
From Coq Require Import ZArith.
From Verif Require Import Base Scalar Vector Matrix MatSpec RealMatrixM Eigen.
Open Scope Z_scope.

(** [d'] is [d] after any sequence of calls to the caching accessors. *)
Inductive ed_calls {O : Ops} : EdD -> EdD -> Prop :=
| edc_none d : ed_calls d d
| edc_V d d1 d2 m : ed_V d = Ok (m, d1) -> ed_calls d1 d2 -> ed_calls d d2
| edc_D d d1 d2 m : ed_D d = Ok (m, d1) -> ed_calls d1 d2 -> ed_calls d d2
| edc_VT d d1 d2 m : ed_VT d = Ok (m, d1) -> ed_calls d1 d2 -> ed_calls d d2
| edc_SquareRoot d d1 d2 m : ed_SquareRoot d = Ok (m, d1) -> ed_calls d1 d2 -> ed_calls d d2.
(** [d] is a decomposition of [x] followed by accessor calls. *)
Definition ed_of {O : Ops} (x : RealMatrix) (d : EdD) : Prop := exists d0, NewEigenDecomposition x = Ok d0 /\ ed_calls d0 d.
Definition ed_of_tri {O : Ops} (mn sec : vec) (d : EdD) : Prop := exists d0, NewEigenDecompositionFromTridiagonal mn sec = Ok d0 /\ ed_calls d0 d.

(** Vocabulary of the Hessenberg, tridiagonal and bidiagonal transforms. *)
From Coq Require Import ZArith.
From Verif Require Import Base Scalar Vector Matrix MatSpec RealMatrixM Hess Tridiag Bidiag.
Open Scope Z_scope.

(** [d'] is [d] after any sequence of calls to the caching accessors. *)
Inductive hs_calls {O : Ops} : HsD -> HsD -> Prop :=
| hsc_none d : hs_calls d d
| hsc_P d d1 d2 m : hs_P d = Ok (m, d1) -> hs_calls d1 d2 -> hs_calls d d2
| hsc_PT d d1 d2 m : hs_PT d = Ok (m, d1) -> hs_calls d1 d2 -> hs_calls d d2
| hsc_H d d1 d2 m : hs_H d = Ok (m, d1) -> hs_calls d1 d2 -> hs_calls d d2.
Inductive td_calls {O : Ops} : TdD -> TdD -> Prop :=
| tdc_none d : td_calls d d
| tdc_Q d d1 d2 m : td_Q d = Ok (m, d1) -> td_calls d1 d2 -> td_calls d d2
| tdc_QT d d1 d2 m : td_QT d = Ok (m, d1) -> td_calls d1 d2 -> td_calls d d2
| tdc_T d d1 d2 m : td_T d = Ok (m, d1) -> td_calls d1 d2 -> td_calls d d2.
Inductive bd_calls {O : Ops} : BdD -> BdD -> Prop :=
| bdc_none d : bd_calls d d
| bdc_U d d1 d2 m : bd_U d = Ok (m, d1) -> bd_calls d1 d2 -> bd_calls d d2
| bdc_B d d1 d2 m : bd_B d = Ok (m, d1) -> bd_calls d1 d2 -> bd_calls d d2
| bdc_V d d1 d2 m : bd_V d = Ok (m, d1) -> bd_calls d1 d2 -> bd_calls d d2.
(** [d] is a transform of [x] followed by accessor calls. *)
Definition hs_of {O : Ops} (x : RealMatrix) (d : HsD) : Prop := exists d0, NewHessenbergTransformer x = Ok d0 /\ hs_calls d0 d.
Definition td_of {O : Ops} (x : RealMatrix) (d : TdD) : Prop := exists d0, NewTriDiagonalTransformer x = Ok d0 /\ td_calls d0 d.
Definition bd_of {O : Ops} (x : RealMatrix) (d : BdD) : Prop := exists d0, NewBiDiagonalTransformer x = Ok d0 /\ bd_calls d0 d.

(** The arithmetic of the RealMatrix interface on matrices held in memory: a call
    runs the method of the kind of its receiver. *)
From Coq Require Import ZArith List Lia Bool.
From Verif Require Import Base Scalar Vector Matrix Heap HeapDec HeapSolve HeapArith HeapBlkArith.
Open Scope Z_scope.

Section HeapExpr.
Context {O : Ops}.
(** Methods of the interface, real_matrix.go:52-69; array_2d_row_real_matrix.go:
    93-264, block_real_matrix.go:196-424, diagonal_matrix.go:63-175, 465-501.  The kind
    of a result is that of the code that made it. *)
Definition hm_Add (x y : HMat) : M HMat :=
  match x with
  | HA a => let! o := h2_Add a y in ret (HA o)
  | HD d => let! o := hd_Add d y in ret (HD o)
  | HB b => let! o := hb_Add b y in ret (HB o)
  end.
Definition hm_Subtract (x y : HMat) : M HMat :=
  match x with
  | HA a => let! o := h2_Subtract a y in ret (HA o)
  | HD d => let! o := hd_Subtract d y in ret (HD o)
  | HB b => let! o := hb_Subtract b y in ret (HB o)
  end.
Definition hm_Multiply (x y : HMat) : M HMat :=
  match x with
  | HA a => let! o := h2_Multiply a y in ret (HA o)
  | HD d => hd_Multiply d y
  | HB b => let! o := hb_Multiply b y in ret (HB o)
  end.
Definition hm_ScalarAdd (x : HMat) (k : F) : M HMat :=
  match x with
  | HA a => let! o := h2_ScalarAdd a k in ret (HA o)
  | HD d => let! o := hd_ScalarAdd d k in ret (HD o)
  | HB b => let! o := hb_ScalarAdd b k in ret (HB o)
  end.
Definition hm_ScalarMultiply (x : HMat) (k : F) : M HMat :=
  match x with
  | HA a => let! o := h2_ScalarMultiply a k in ret (HA o)
  | HD d => let! o := hd_ScalarMultiply d k in ret (HD o)
  | HB b => let! o := hb_ScalarMultiply b k in ret (HB o)
  end.
End HeapExpr.

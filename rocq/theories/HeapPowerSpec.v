(** The powers of a table by repeated squaring. *)
From Coq Require Import ZArith List.
From Verif Require Import Base Scalar Matrix Heap HeapSpec HeapDec HeapRefSpec HeapExpr HeapExprSpec.
Import ListNotations.
Open Scope Z_scope.

(** Where the ones of a number are in base two, the greatest first. *)
Fixpoint ones (q : positive) : list nat :=
  match q with
  | xH => [0%nat]
  | xO q => map S (ones q)
  | xI q => map S (ones q) ++ [0%nat]
  end.
Section HeapPowerSpec.
Context {O : Ops}.
(** f, f*f, (f*f)*(f*f), ...: products of matrices of kind [k]. *)
Fixpoint squares (k : kind) (n : Z) (f : Z -> Z -> F) (i : nat) : Z -> Z -> F :=
  match i with 0%nat => f | S i => product k k n (squares k n f i) (squares k n f i) end.
(** The p-th power for p >= 2: f times the squarings for the ones of p-1. *)
Definition raised (k : kind) (n : Z) (f : Z -> Z -> F) (p : Z) : Z -> Z -> F :=
  fold_left (fun a i => product k k n a (squares k n f i)) (ones (Z.to_pos (p - 1))) f.
(** The kind of a new matrix with n rows and columns. *)
Definition newkind (n : Z) : kind := if n * n <=? 4096 then Dense else Blocks.
End HeapPowerSpec.

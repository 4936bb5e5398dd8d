(** Scalars: float64 as an arbitrary record of operations, with no laws. *)
From Coq Require Import ZArith QArith List Lia Bool.
From Verif Require Import Base.
Open Scope Z_scope.

(** The float64 operations used by /repo.  Theorems quantified over every
    [Ops] hold for IEEE binary64 as executed. *)
Class Ops := mkOps {
  F : Type;
  fzero : F;                   (* 0.0, also the zero value of float64 *)
  fone : F;                    (* 1.0 *)
  fadd : F -> F -> F;
  fsub : F -> F -> F;
  fmul : F -> F -> F;
  fdiv : F -> F -> F;
  fneg : F -> F;               (* -x *)
  fabs : F -> F;               (* math.Abs *)
  fsqrt : F -> F;              (* math.Sqrt *)
  fhypot : F -> F -> F;        (* math.Hypot *)
  fmax : F -> F -> F;          (* math.Max *)
  fmin : F -> F -> F;          (* math.Min *)
  flt : F -> F -> bool;        (* x < y *)
  fle : F -> F -> bool;        (* x <= y *)
  feq : F -> F -> bool;        (* x == y *)
  fnan : F;                    (* math.NaN() *)
  fisnan : F -> bool;          (* math.IsNaN *)
  fispinf : F -> bool;         (* math.IsInf(x, 1) *)
  fisninf : F -> bool;         (* math.IsInf(x, -1) *)
  fulp1 : F -> F -> bool;      (* equalsWithULP(x, y, 1) of utils.go:82-112 *)
  flit : Q -> F                (* a numeric literal *)
}.

Global Instance default_F {O : Ops} : Default F := fzero.

Declare Scope f_scope.
Delimit Scope f_scope with f.
Infix "+" := fadd : f_scope.
Infix "-" := fsub : f_scope.
Infix "*" := fmul : f_scope.
Infix "/" := fdiv : f_scope.
Notation "- x" := (fneg x) : f_scope.
Notation "x <? y" := (flt x y) : f_scope.
Notation "x <=? y" := (fle x y) : f_scope.
Notation "x =? y" := (feq x y) : f_scope.
(** Go's [x > y] is [y < x] (both false on NaN), [x != y] is [!(x == y)]. *)
Definition fgt {O : Ops} (x y : F) : bool := flt y x.
Definition fge {O : Ops} (x y : F) : bool := fle y x.
Definition fne {O : Ops} (x y : F) : bool := negb (feq x y).

Notation vec := (list F).
Notation mat := (list (list F)).

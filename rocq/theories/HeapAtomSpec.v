(** Vocabulary of refused writes. *)
From Coq Require Import ZArith List.
From Verif Require Import Base Scalar Heap.
Open Scope Z_scope.

Section AtomSpec.
Context {O : Ops}.
(** A call that does not return normally has changed nothing. *)
Definition all_or_nothing {A} (m : M A) (h : heap) : Prop :=
  forall r h', m h = (r, h') -> (exists y, r = Ok y) \/ h' = h.
(** Whatever the outcome, nothing has changed, or what [array[k]] was is now in
    [s[k]] and nothing else has changed. *)
Definition one_entry (m : M unit) (h : heap) (s array : slice) (k : Z) : Prop :=
  forall r h', m h = (r, h') -> h' = h \/ exists x, rdF array k h = (Ok x, h) /\ wrF s k x h = (Ok tt, h').
End AtomSpec.

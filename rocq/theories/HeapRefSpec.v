(** A computation on the heap and a computation on values. *)
From Coq Require Import ZArith List.
From Verif Require Import Base Scalar Matrix MatSpec Heap HeapSpec HeapDec.
Open Scope Z_scope.

Section RefSpec.
Context {O : Ops}.
(** From memory [h] the two end in the same way: both return normally, with
    results related by [Q] in the memory at the end, or both return the same
    error, or both panic with the same value. *)
Definition sim {A B} (m : M A) (v : res B) (h : heap) (Q : heap -> A -> B -> Prop) : Prop :=
  match m h, v with
  | (Ok a, h'), Ok b => Q h' a b
  | (Err e, _), Err e' => e = e'
  | (Panic e, _), Panic e' => e = e'
  | _, _ => False
  end.
(** In memory [h], [x] is an [r] by [c] matrix with entries [f]. *)
Definition HMatIs (h : heap) (x : HMat) (r c : Z) (f : Z -> Z -> F) : Prop :=
  match x with
  | HA a => HTab h a r c f
  | HD s => r = c /\ 1 <= r /\ exists g, HVecIs h s r g /\ forall i j, 0 <= i < r -> 0 <= j < r -> f i j = if i =? j then g i else fzero
  | HB b => HBlkIs h b r c f
  end.
(** The calls [m] in memory [h] and [m'] in memory [h'] end in the same way, with
    results related by [R]. *)
Definition alike {A B} (m : M A) (h : heap) (m' : M B) (h' : heap) (R : heap -> A -> heap -> B -> Prop) : Prop :=
  match m h, m' h' with
  | (Ok a, k), (Ok b, k') => R k a k' b
  | (Err e, _), (Err e', _) => e = e'
  | (Panic e, _), (Panic e', _) => e = e'
  | _, _ => False
  end.
End RefSpec.

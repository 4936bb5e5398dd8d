(** Vocabulary of in-place operations of vectors on the heap. *)
From Coq Require Import ZArith Bool.
From Verif Require Import Base Scalar Matrix Heap HeapSpec.
Open Scope Z_scope.

Section UpdSpec.
Context {O : Ops}.
(** From [h] to [h'] nothing changed but the [n] places of [s] from index [i] on. *)
Definition only_places (h h' : heap) (s : slice) (i n : Z) : Prop :=
  hs h' = hs h /\ forall a k, ~ (a = sl_arr s /\ sl_off s + i <= k < sl_off s + i + n) -> slot h' a k = slot h a k.
(** The first [n] places of [s] hold values [x] with [J h' k x], nothing else
    changed. *)
Definition inplace (h h' : heap) (s : slice) (n : Z) (J : heap -> Z -> F -> Prop) : Prop :=
  hs h' = hs h /\ (forall a k, ~ (a = sl_arr s /\ sl_off s <= k < sl_off s + n) -> slot h' a k = slot h a k) /\
  forall k, 0 <= k < n -> exists x, slot h' (sl_arr s) (sl_off s + k) = Ok x /\ J h' k x.
(** The [k]th value of [v] once the first [k] places of [s] have been written. *)
Definition seen (h h' : heap) (s : slice) (v : HVec) (k : Z) : res F :=
  match v with
  | HArr t => if (sl_arr t =? sl_arr s) && ((sl_off s <=? sl_off t + k) && (sl_off t + k <? sl_off s + k)) then vval h' v k else vval h v k
  | HOther _ => vval h v k
  end.
End UpdSpec.

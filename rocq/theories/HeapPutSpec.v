(** Vocabulary of writes of many entries of a matrix on the heap. *)
From Coq Require Import ZArith List.
From Verif Require Import Base Scalar Matrix Heap HeapSpec.
Open Scope Z_scope.

Section PutSpec.
Context {O : Ops}.
(** Two slices without a place in common. *)
Definition apart (s t : slice) : Prop :=
  sl_arr s <> sl_arr t \/ sl_off s + sl_len s <= sl_off t \/ sl_off t + sl_len t <= sl_off s.
(** [s] is [o[i]]. *)
Definition row_of (h : heap) (o : slice) (i : Z) (s : slice) : Prop := rdS o i h = (Ok s, h).
(** The rows of [o] (the rows or blocks of a matrix) are apart from each other;
    [t], or all rows of [t], are apart from them. *)
Definition own_rows (h : heap) (o : slice) : Prop :=
  forall i i' s s', i <> i' -> row_of h o i s -> row_of h o i' s' -> apart s s'.
Definition clear (h : heap) (o t : slice) : Prop := forall i s, row_of h o i s -> apart s t.
Definition clear_rows (h : heap) (o t : slice) : Prop := forall k s, row_of h t k s -> clear h o s.
(** From [h] to [h'] nothing but the entries of [o] changed. *)
Definition only_in (h h' : heap) (o : slice) : Prop :=
  hs h' = hs h /\ forall t, inheap h t -> clear h o t -> inheap h' t /\ cont h' t = cont h t.
(** The rows of [o] are apart from each other and from every slice that was
    there in [h0]. *)
Definition own_new (h0 h : heap) (o : slice) : Prop := own_rows h o /\ forall t, inheap h0 t -> 1 <= sl_len t -> clear h o t.
End PutSpec.

(** The vocabulary of the theorems about cells. *)
From Coq Require Import ZArith List Lia Bool.
From Verif Require Import Base Scalar Vector Matrix Heap HeapSpec HeapDec HeapCo HeapCoCode HeapCoSpec HeapCell.
Import ListNotations.
Open Scope Z_scope.

Section Spec.
Context {O : Ops}.
(** The goroutines [gs] of HeapCoCode.v, and one goroutine for every call of an
    accessor; the accessors come last. *)
Definition begin (h : heap) (cs : list (option HMat)) (gs : list (list task)) (qs : list accessor) : cworld (list answer) :=
  mkCW h cs (map plain gs ++ map access qs).
(** The cell that the accessor returns. *)
Definition cell_of (q : accessor) : nat :=
  match q with LuL c _ | LuU c _ | LuP c _ | ChLT c _ | ChL c _ _ => c end.
(** The field is filled, or it is a field of an LU decomposition found singular, where
    it stays nil. *)
Definition no_matrix (q : accessor) : bool :=
  match q with LuL _ s | LuU _ s | LuP _ s => hlu_singular s | ChLT _ _ | ChL _ _ _ => false end.
Definition settled (cs : list (option HMat)) (q : accessor) : Prop := (exists x, cell cs (cell_of q) = Some x) \/ no_matrix q = true.
Definition finished {A} (w : cworld A) (i : nat) (r : res A) : Prop := nth_error (cthreads w) i = Some (Fin r).
(** Two goroutines are about to touch the same array, one of them to change it. *)
Definition clash {A} (w : cworld A) : Prop :=
  exists i j p q kp kq k a, i <> j /\ nth_error (cthreads w) i = Some (Sub p kp) /\ nth_error (cthreads w) j = Some (Sub q kq) /\
    0 <= a /\ changes p k a /\ uses q k a.
(** Two goroutines are about to touch the same cell, one of them to fill it. *)
Definition touches {A} (p : cprog A) (c : nat) : Prop :=
  match p with Look c' _ => c' = c | Keep c' _ _ => c' = c | _ => False end.
Definition cell_clash {A} (w : cworld A) : Prop :=
  exists i j c x k q, i <> j /\ nth_error (cthreads w) i = Some (Keep c x k) /\ nth_error (cthreads w) j = Some q /\ touches q c.
(** What NewRealMatrixFromSlices and the like give when nothing else happens. *)
Definition one_alone (q : call) : M (list answer) := go_alone [Make q None None] [].
(** The call has ended with [r] in memory [h]; it panics when the constructor gives
    an error, and otherwise its result looks like that of the constructor alone in
    memory [h0]. *)
Definition like_alone (h0 h : heap) (q : call) (r : res (list answer)) : Prop :=
  match r with
  | Ok l => exists l0, fst (one_alone q h0) = Ok l0 /\ map (seen h) l = map (seen (snd (one_alone q h0))) l0
  | Err _ => False
  | Panic e => fst (one_alone q h0) = Err e \/ fst (one_alone q h0) = Panic e
  end.
(** The unit lower triangle of [f], its upper triangle, and the identity with its
    rows taken in the order [p]. *)
Definition unit_lower (f : Z -> Z -> F) (i j : Z) : F := if j <? i then f i j else if i =? j then fone else fzero.
Definition upper (f : Z -> Z -> F) (i j : Z) : F := if i <=? j then f i j else fzero.
Definition rows_of (p : Z -> Z) (i j : Z) : F := if j =? p i then fone else fzero.
End Spec.

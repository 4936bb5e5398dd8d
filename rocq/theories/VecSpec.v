(** What a user can observe of a vector: its dimension and its entries. *)
From Coq Require Import ZArith List Lia Bool.
From Verif Require Import Base Scalar Vector.
Import ListNotations.
Open Scope Z_scope.

Section VecSpec.
Context {O : Ops}.

(** [v] is the vector of dimension [n] with entries [f 0 .. f (n-1)]; any
    other index panics. *)
Definition VecIs (v : RealVector) (n : Z) (f : Z -> F) : Prop :=
  v_Dimension v = n /\
  (forall i, 0 <= i < n -> v_At v i = Ok (f i)) /\
  (forall i, ~ (0 <= i < n) -> exists e, v_At v i = Panic e).

Definition panics {A} (m : res A) : Prop := exists e, m = Panic e.
(** Rejected: an error is returned or the call panics. *)
Definition rejects {A} (m : res A) : Prop := exists e, m = Panic e \/ m = Err e.

(** Left-to-right accumulation: ((z + g 0) + g 1) + ... *)
Fixpoint accum {S} (step : Z -> S -> S) (n : nat) (s : S) : S :=
  match n with
  | 0%nat => s
  | Datatypes.S n' => step (Z.of_nat n') (accum step n' s)
  end.
Definition fsum (n : Z) (g : Z -> F) : F :=
  accum (fun k s => (s + g k)%f) (Z.to_nat n) fzero.
Fixpoint range_nat (lo : Z) (n : nat) : list Z :=
  match n with 0%nat => [] | Datatypes.S n' => lo :: range_nat (lo + 1) n' end.
(** lo, lo+1, ..., hi-1 *)
Definition range (lo hi : Z) : list Z := range_nat lo (Z.to_nat (hi - lo)).

(** Visiting the entries of [f] at the listed positions in turn, reading
    only, or replacing each visited entry by the value returned. *)
Fixpoint vvisits {St} (v : VecVisitor St) (is : list Z) (f : Z -> F) (st : St) : St :=
  match is with [] => st | i :: is => vvisits v is f (snd (vv_visit v i (f i) st)) end.
Fixpoint vupdates {St} (v : VecVisitor St) (is : list Z) (f : Z -> F) (st : St) : (Z -> F) * St :=
  match is with
  | [] => (f, st)
  | i :: is => let '(y, st) := vv_visit v i (f i) st in vupdates v is (fun j => if j =? i then y else f j) st
  end.
End VecSpec.

(** Vocabulary of the properties about repeated accessor calls. *)
From Coq Require Import ZArith List.
From Verif Require Import Base.

(** What a caching accessor returns to its caller, without the new caches. *)
Definition result {A D} (r : res (A * D)) : res A :=
  match r with Ok (a, _) => Ok a | Err e => Err e | Panic e => Panic e end.

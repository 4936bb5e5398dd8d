(** The order in which the products of a BlockRealMatrix are added. *)
From Coq Require Import ZArith List Lia Bool.
From Verif Require Import Base Scalar Vector Matrix VecSpec MatSpec.
Import ListNotations.
Open Scope Z_scope.

Section HeapBlkArithSpec.
Context {O : Ops}.
(** One partial sum for every 52 terms; the partial sums are added in order. *)
Definition sum_blocks (sum : Z -> (Z -> F) -> F) (n : Z) (a : Z -> F) : F :=
  fsum ((n + 51) / 52) (fun K => sum (Z.min 52 (n - K * 52)) (fun k => a (K * 52 + k))).
(** Four terms at a time, then what is left one at a time. *)
Definition sum_fours (w : Z) (a : Z -> F) : F :=
  accum (fun k s => (s + a (w / 4 * 4 + k)%Z)%f) (Z.to_nat (w mod 4))
    (fsum (w / 4) (fun g => (a (4 * g)%Z + a (4 * g + 1)%Z + a (4 * g + 2)%Z + a (4 * g + 3)%Z)%f)).
End HeapBlkArithSpec.

(** Vocabulary of the eigen decomposition of matrices that are not symmetric. *)
From Coq Require Import ZArith QArith.
From Verif Require Import Base Scalar Diagonal Schur Eigen.
Open Scope Z_scope.

Section Split.
Context {O : Ops}.
(** How the n x n matrix T is cut into diagonal blocks, and the values read off
    the blocks.  [pr i]: rows i and i+1 form a 2x2 block.  A row outside such
    blocks has the eigenvalue T(i,i) and below T(i,i) an entry within 1e-12 of
    zero; the block [[a,b],[c,d]] has the values d+p+zi and d+p-zi with
    p = (a-d)/2 and z = sqrt|p^2+bc|, its c is not within 1e-12 of zero. *)
Definition split_of (n : Z) (T : Z -> Z -> F) (pr : Z -> bool) (Re Im : Z -> F) : Prop :=
  (forall i, pr i = true -> 0 <= i /\ i + 1 < n /\ pr (i + 1) = false) /\
  (forall i, 0 <= i < n -> pr i = false -> pr (i - 1) = false ->
     Re i = T i i /\ Im i = fzero /\ (i + 1 < n -> equalsWithError (T (i + 1) i) fzero eps_ed = true)) /\
  (forall i, pr i = true ->
     let p := (flit (1 # 2) * (T i i - T (i + 1)%Z (i + 1)%Z))%f in
     let z := fsqrt (fabs (p * p + T (i + 1)%Z i * T i (i + 1)%Z)%f) in
     equalsWithError (T (i + 1) i) fzero eps_ed = false /\
     Re i = (T (i + 1)%Z (i + 1)%Z + p)%f /\ Im i = z /\ Re (i + 1) = (T (i + 1)%Z (i + 1)%Z + p)%f /\ Im (i + 1) = fneg z).
End Split.

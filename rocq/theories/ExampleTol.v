(** A real symmetric matrix, for the concrete cases beside the theorems on the
    eigen decomposition. *)
From Coq Require Import ZArith List Lia Bool Reals Lra.
From Verif Require Import Base BaseLemmas Scalar Vector VecSpec Matrix MatSpec MatFacts RealMatrixM RTol EigenProps.
Import ListNotations.
Open Scope Z_scope.

Definition tmat (tol : R) (d : list (list R)) : @RealMatrix (RTolOps tol) := @MArr (RTolOps tol) (mkA2D (Some (d : list (list (@F (RTolOps tol)))))).
Definition s22 (i j : Z) : R := if i =? j then 2%R else 1%R.
Lemma tmat_is tol : MatIs (O := RTolOps tol) (tmat tol [[2; 1]; [1; 2]]%R) 2 2 s22.
Proof.
  apply (MatIs_arr (O := RTolOps tol)); try lia. split; [split; [reflexivity|]|].
  - intros i Hi. assert (i = 0 \/ i = 1) as [-> | ->] by lia; reflexivity.
  - intros i j Hi Hj. assert (i = 0 \/ i = 1) as [-> | ->] by lia; assert (j = 0 \/ j = 1) as [-> | ->] by lia; reflexivity.
Qed.
Lemma s22_near : nearly_symmetric 2 s22.
Proof.
  intros i j Hi Hj. unfold s22. rewrite (Z.eqb_sym j i). destruct (i =? j); rewrite Rminus_eq_0, Rabs_R0; apply Rmult_le_pos; try lra; (eapply Rle_trans; [apply Rabs_pos|apply Rmax_l]).
Qed.
Lemma s22_mirror : mirror_of 2 s22 s22.
Proof. intros i j Hi Hj. split; auto. unfold s22. rewrite (Z.eqb_sym j i). auto. Qed.


(** Concrete real matrices and vectors for the cases beside the
    exact-arithmetic theorems. *)
From Coq Require Import ZArith List Lia Bool Reals Lra.
From Verif Require Import Base BaseLemmas Scalar Vector VecSpec VectorFacts Matrix MatSpec MatFacts HistSpec RealOps RSum.
Import ListNotations.
Open Scope Z_scope.
#[local] Existing Instance ROps.

Definition rmat (d : list (list R)) : @RealMatrix ROps := MArr (mkA2D (Some d)).
Definition rent (d : list (list R)) (i j : Z) : R := @nthZ (@F ROps) _ (nthZ (d : list (list (@F ROps))) i) j.
Definition rvec (d : list R) : @RealVector ROps := VArr d.
Lemma rmat_is (d : list (list R)) r c : 1 <= r -> 1 <= c -> len d = r -> (forall i, 0 <= i < r -> len (nthZ (d : list (list (@F ROps))) i) = c) ->
  MatIs (rmat d) r c (rent d).
Proof. intros Hr Hc Hl Hrows. unfold rmat. apply (MatIs_arr (O := ROps)); auto. split; [split; auto|]. intros; reflexivity. Qed.
Lemma rvec_is (d : list R) n : len d = n -> VecIs (rvec d) n (@nthZ (@F ROps) _ d).
Proof. intros <-. exact (VecIs_self (rvec d)). Qed.
Lemma rmat2_is a b c d : MatIs (rmat [[a; b]; [c; d]]) 2 2 (rent [[a; b]; [c; d]]).
Proof. apply rmat_is; try lia; try reflexivity. intros i Hi. assert (i = 0 \/ i = 1) as [-> | ->] by lia; reflexivity. Qed.
(** Sums of two or three explicit terms. *)
Lemma Rs_2 g : Rs 0 2 g = (g 0%Z + g 1%Z)%R.
Proof. change 2 with (0 + 1 + 1). rewrite !Rs_last by lia. rewrite Rs_nil by lia. cbn [Z.add]. lra. Qed.
Lemma Rs_3 g : Rs 0 3 g = (g 0%Z + g 1%Z + g 2%Z)%R.
Proof. change 3 with (2 + 1) at 1. rewrite Rs_last, Rs_2 by lia. reflexivity. Qed.
Lemma rmat_lib d : library (rmat d).
Proof. exact I. Qed.
Section Entries.
  Variables a b c d : R.
  Lemma rent00 : rent [[a; b]; [c; d]] 0 0 = a. Proof. reflexivity. Qed.
  Lemma rent01 : rent [[a; b]; [c; d]] 0 1 = b. Proof. reflexivity. Qed.
  Lemma rent10 : rent [[a; b]; [c; d]] 1 0 = c. Proof. reflexivity. Qed.
  Lemma rent11 : rent [[a; b]; [c; d]] 1 1 = d. Proof. reflexivity. Qed.
  Lemma rnth0 : @nthZ (@F ROps) _ [a; b] 0 = a. Proof. reflexivity. Qed.
  Lemma rnth1 : @nthZ (@F ROps) _ [a; b] 1 = b. Proof. reflexivity. Qed.
End Entries.
Ltac rents := cbn beta; rewrite ?rent00, ?rent01, ?rent10, ?rent11, ?rnth0, ?rnth1; change (@F ROps) with R.

(** The concrete case beside C57. *)
From Coq Require Import ZArith List Lia Bool Reals Lra Floats.SpecFloat.
From Verif Require Import Base BaseLemmas Scalar Vector VecSpec VectorFacts Matrix MatSpec Array2DFacts Float64 ExampleOps RSum RealMat ExampleReal RndSpec FloatR RndSum RndMat.
Import ListNotations.
Open Scope Z_scope.

Lemma vec_lst {O : Ops} (l : list F) n : len l = n -> VecIs (VArr l) n (nthZ l).
Proof. intros E. apply VTab_VecIs. split; auto. Qed.
Definition all_num (l : list sf) : bool := forallb (fun x => sf_valid x && isfin x) l.
Lemma nums_lst c (l : list (@F (SFOps c))) n : len l = n -> all_num l = true -> nums n (nthZ l).
Proof.
  intros E H i Hi. unfold all_num in H. rewrite forallb_forall in H. specialize (H (nthZ l i)).
  assert (K : In (nthZ l i) l). { unfold nthZ. apply nth_In. unfold len in *. lia. }
  specialize (H K). apply andb_prop in H. exact H.
Qed.
Lemma fR_fl n : fR (S754_finite false n 0) = IZR (Zpos n). Proof. cbn [fR powerRZ]. lra. Qed.
Lemma dot_ex : exists y, VecDotProduct (VArr (fls [2 ^ 53; 1])) (VArr (fls [1; 1])) = Ok y /\ fR y = 9007199254740992%R /\
  dot_result 2 (nthZ (fls [2 ^ 53; 1])) (nthZ (fls [1; 1])) y /\ dot_exact 2 (nthZ (fls [2 ^ 53; 1])) (nthZ (fls [1; 1])) = 9007199254740993%R.
Proof.
  set (u := fls [2 ^ 53; 1]). set (w := fls [1; 1]).
  destruct (fl_dot c_amd64 (VArr u) (VArr w) 2 (nthZ u) (nthZ w)) as (y & E & D).
  - apply vec_lst; reflexivity.
  - apply vec_lst; reflexivity.
  - apply (nums_lst c_amd64); vm_compute; reflexivity.
  - apply (nums_lst c_amd64); vm_compute; reflexivity.
  - exists y. split; [exact E|]. 
    assert (Ey : y = S754_finite false 4503599627370496 1). { vm_compute in E. injection E as <-. reflexivity. }
    assert (E0 : nthZ u 0 = S754_finite false 4503599627370496 1) by (vm_compute; reflexivity).
    assert (E1 : nthZ u 1 = S754_finite false 4503599627370496 (-52)) by (vm_compute; reflexivity).
    assert (E2 : nthZ w 0 = S754_finite false 4503599627370496 (-52)) by (vm_compute; reflexivity).
    assert (E3 : nthZ w 1 = S754_finite false 4503599627370496 (-52)) by (vm_compute; reflexivity).
    assert (P : (4503599627370496 * powerRZ 2 (-52) = 1)%R).
    { change (powerRZ 2 (-52)) with (/ (2 ^ 52))%R. rewrite pow_IZR. change (2 ^ Z.of_nat 52) with 4503599627370496. apply Rinv_r. apply not_0_IZR. lia. }
    split; [rewrite Ey; cbn [fR powerRZ]; rewrite pow_1, <- mult_IZR; reflexivity|].
    split; [exact D|]. unfold dot_exact. change 2 with (0 + 1 + 1). rewrite !Rs_last, Rs_nil by lia.
    change (0 + 1) with 1. rewrite E0, E1, E2, E3. cbn [fR]. rewrite !P. cbn [powerRZ]. change (Pos.to_nat 1) with 1%nat. rewrite pow_1.
    rewrite Rmult_1_r, Rmult_1_r, Rplus_0_l, <- mult_IZR, <- plus_IZR. reflexivity.
Qed.

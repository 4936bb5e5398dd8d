(** The concrete case beside C58 and C59. *)
From Coq Require Import ZArith List Lia Bool Reals Lra Floats.SpecFloat.
From Verif Require Import Base BaseLemmas Scalar Vector VecSpec VectorFacts Matrix MatSpec MatFacts Array2D BlockM Diagonal RealMatrixM Array2DFacts Float64 ExampleOps RSum RndSpec FloatR RndSum RndMat RndEx RndTri LU LUSpec RndLU.
Import ListNotations.
Open Scope Z_scope.

(** A dense float64 matrix from integers. *)
Definition fmat (d : list (list Z)) : @RealMatrix E64 := MArr (mkA2D (Some (flss d))).
Definition fent (d : list (list Z)) (i j : Z) : sf := @nthZ (@F E64) _ (nthZ (flss d) i) j.
Lemma fmat_is d r c : 1 <= r -> 1 <= c -> len (flss d) = r -> (forall i, 0 <= i < r -> len (nthZ (flss d) i) = c) -> MatIs (fmat d) r c (fent d).
Proof. intros Hr Hc Hl Hrows. unfold fmat. apply (MatIs_arr (O := E64)); auto. split; [split; auto|]. intros; reflexivity. Qed.
Lemma fmat2_is a b c d : MatIs (fmat [[a; b]; [c; d]]) 2 2 (fent [[a; b]; [c; d]]).
Proof. apply fmat_is; try lia; try reflexivity. intros i Hi. assert (i = 0 \/ i = 1) as [-> | ->] by lia; reflexivity. Qed.
Definition ex_thr : sf := sf_div (sf_of_Z 1) (sf_of_Z 1024).
Lemma ex_thr_num : num ex_thr /\ (0 < fR ex_thr)%R.
Proof.
  split; [split; vm_compute; reflexivity|]. replace ex_thr with (S754_finite false 4503599627370496 (-62)) by (vm_compute; reflexivity).
  cbn [fR]. apply Rmult_lt_0_compat; [apply (IZR_lt 0); lia|apply powerRZ_lt; lra].
Qed.
Lemma fR_fin n m e : sf_of_Z n = S754_finite false m e -> fR (sf_of_Z n) = (IZR (Zpos m) * powerRZ 2 e)%R. Proof. intros ->. reflexivity. Qed.
Definition exA := [[3; 1]; [7; 1]].
Lemma exA_num : nums2 2 2 (fent exA).
Proof. intros i j Hi Hj. assert (i = 0 \/ i = 1) as [-> | ->] by lia; assert (j = 0 \/ j = 1) as [-> | ->] by lia; split; vm_compute; reflexivity. Qed.
Lemma small_fin m e : (0 < m)%Z -> fR (S754_finite false (Z.to_pos m) (- Zpos e)) = (IZR m / 2 ^ Pos.to_nat e)%R.
Proof. intros. cbn [fR Z.opp powerRZ]. rewrite Z2Pos.id by lia. reflexivity. Qed.
Lemma exA_room : lu_room 2 (fent exA).
Proof.
  exists 8%R. split.
  - assert (E1 : fR (sf_of_Z 1) = 1%R) by apply fR_one.
    assert (E3 : fR (sf_of_Z 3) = 3%R).
    { replace (sf_of_Z 3) with (S754_finite false 6755399441055744 (-51)) by (vm_compute; reflexivity). cbn [fR].
      change (powerRZ 2 (-51)) with (/ (2 ^ 51))%R. rewrite pow_IZR. change (2 ^ Z.of_nat 51) with 2251799813685248. change 6755399441055744 with (3 * 2251799813685248). rewrite mult_IZR, Rmult_assoc, Rinv_r; [lra|]. apply not_0_IZR. lia. }
    assert (E7 : fR (sf_of_Z 7) = 7%R).
    { replace (sf_of_Z 7) with (S754_finite false 7881299347898368 (-50)) by (vm_compute; reflexivity). cbn [fR].
      change (powerRZ 2 (-50)) with (/ (2 ^ 50))%R. rewrite pow_IZR. change (2 ^ Z.of_nat 50) with 1125899906842624. change 7881299347898368 with (7 * 1125899906842624). rewrite mult_IZR, Rmult_assoc, Rinv_r; [lra|]. apply not_0_IZR. lia. }
    intros i j Hi Hj. assert (i = 0 \/ i = 1) as [-> | ->] by lia; assert (j = 0 \/ j = 1) as [-> | ->] by lia;
      [change (fent exA 0 0) with (sf_of_Z 3)|change (fent exA 0 1) with (sf_of_Z 1)|change (fent exA 1 0) with (sf_of_Z 7)|change (fent exA 1 1) with (sf_of_Z 1)];
      rewrite ?E1, ?E3, ?E7, Rabs_pos_eq; lra.
  - change (Z.to_nat (2 - 1)) with 1%nat. rewrite pow_1. pose proof ulp2_pos. pose proof ulp2_small. pose proof tiny_pos.
    assert (tiny <= 1)%R. { unfold tiny. change (powerRZ 2 (-1075)) with (/ (2 ^ 1075))%R. rewrite <- Rinv_1. apply Rinv_le_contravar; [lra|]. apply pow_R1_Rle. lra. }
    assert (64 <= huge)%R.
    { unfold huge. assert (powerRZ 2 (-52) <= 1)%R. { change (powerRZ 2 (-52)) with (/ (2 ^ 52))%R. rewrite <- Rinv_1. apply Rinv_le_contravar; [lra|]. apply pow_R1_Rle. lra. }
      assert (64 <= powerRZ 2 1023)%R. { change (64 <= 2 ^ (6 + 1017))%R. rewrite pow_add. assert (1 <= 2 ^ 1017)%R by (apply pow_R1_Rle; lra). lra. } nra. }
    nra.
Qed.
(** 3/7 is not a float64. *)
Lemma not_three_sevenths y : num y -> fR y <> (3 / 7)%R.
Proof.
  intros [V _] E. destruct y as [s|s| |s m e]; cbn [fR] in E; try lra.
  assert (P : forall z k, (IZR z * 2 ^ k = 3 / 7)%R -> False).
  { intros z k H. assert (H' : (IZR (7 * z * 2 ^ Z.of_nat k) = IZR 3)%R) by (rewrite !mult_IZR, <- pow_IZR; lra). apply eq_IZR in H'.
    assert (7 * (z * 2 ^ Z.of_nat k) = 3) by lia. lia. }
  assert (N : forall z k, (IZR z * / 2 ^ k = 3 / 7)%R -> False).
  { intros z k H. assert (K : (0 < 2 ^ k)%R) by (apply pow_lt; lra).
    assert (H' : (IZR (7 * z) = IZR (3 * 2 ^ Z.of_nat k))%R).
    { rewrite !mult_IZR, <- pow_IZR. apply (Rmult_eq_compat_r (2 ^ k)) in H. rewrite Rmult_assoc, Rinv_l in H by lra. lra. }
    apply eq_IZR in H'. assert (D : (7 | 3 * 2 ^ Z.of_nat k)) by (exists z; lia). apply Znumtheory.Gauss in D; [|apply Znumtheory.Zgcd_1_rel_prime; reflexivity].
    apply Znumtheory.prime_mult with (p := 2) in D || idtac.
    revert D. clear. induction k as [|k IH]; [intros [q H]; cbn in H; lia|]. rewrite Nat2Z.inj_succ, Z.pow_succ_r by lia. intros D. apply IH.
    apply Znumtheory.Gauss in D; auto. apply Znumtheory.Zgcd_1_rel_prime. reflexivity. }
  destruct e as [|e|e]; cbn [powerRZ] in E; [apply (P (if s then Z.neg m else Z.pos m) 0%nat); cbn [pow]; exact E|exact (P _ _ E)|exact (N _ _ E)].
Qed.
Lemma VecIs_nums c (l : list (@F (SFOps c))) n (x : Z -> sf) : VecIs (VArr l) n x -> all_num l = true -> nums n x.
Proof.
  intros (H1 & H2 & _) Ha i Hi. specialize (H2 i Hi). pose proof (vec_lst (O := SFOps c) l n H1) as (_ & H3 & _). specialize (H3 i Hi). rewrite H2 in H3. injection H3 as ->.
  apply (nums_lst c l n); auto.
Qed.
Definition ex_run : bool :=
  match @NewLUDecompositionWithThreshold E64 (fmat exA) ex_thr with
  | Ok d => lus_IsNonSingular d && (match lu_Pivot d with [a; b] => (a =? 1) && (b =? 0) | _ => false end &&
      match lus_SolveVector d (VArr (fls [1; 1])) with Ok (VArr l) => all_num l | _ => false end)
  | _ => false
  end.
Lemma ex_check : ex_run = true. Proof. vm_compute. reflexivity. Qed.
Lemma lu_ex : exists d Lm Um (L U : Z -> Z -> sf) d1 d2, @NewLUDecompositionWithThreshold E64 (fmat exA) ex_thr = Ok d /\ lus_IsNonSingular d = true /\
  lu_L d = Ok (Some Lm, d1) /\ lu_U d = Ok (Some Um, d2) /\ MatIs Lm 2 2 L /\ MatIs Um 2 2 U /\ nums2 2 2 L /\ nums2 2 2 U /\
  lu_Pivot d = [1; 0] /\ factors_close 2 (fun i j => fent exA (nthZ [1; 0] i) j) L U /\ fR (L 1 0) <> (3 / 7)%R /\
  exists r (x : Z -> sf), lus_SolveVector d (VArr (fls [1; 1])) = Ok r /\ VecIs r 2 x /\ nums 2 x /\
    solves_close 2 (fun i j => fent exA (nthZ [1; 0] i) j) L U x (fun i => nthZ (fls [1; 1]) (nthZ [1; 0] i)).
Proof.
  pose proof ex_check as C. unfold ex_run in C.
  destruct (@NewLUDecompositionWithThreshold E64 (fmat exA) ex_thr) as [d|e|e] eqn:E; [|discriminate C|discriminate C].
  apply andb_prop in C. destruct C as [Hs C]. apply andb_prop in C. destruct C as [Cp Er].
  assert (Ep : lu_Pivot d = [1; 0]).
  { revert Cp. generalize (lu_Pivot d). clear. intros [|a [|b [|]]] Cp; try discriminate Cp. apply andb_prop in Cp. destruct Cp as [C1 C2]. apply Z.eqb_eq in C1, C2. subst. reflexivity. }
  destruct (lu_sf_back c_amd64 (fmat exA) 2 (fent exA) ex_thr d I (fmat2_is 3 1 7 1) ltac:(lia) exA_num (ex_intro _ d (Logic.conj E (lc_none d))) Hs)
    as (Lm & Um & L & U & d1 & d2 & EL & EU & HL & HU & _ & Hf & K).
  destruct (Hf (proj1 ex_thr_num) (proj2 ex_thr_num) exA_room) as [NL NU]. specialize (K NL NU). cbv zeta in K. change (@lu_Pivot (SFOps c_amd64) d) with (@lu_Pivot E64 d) in K. rewrite Ep in K. destruct K as (K1 & _ & K2 & _).
  exists d, Lm, Um, L, U, d1, d2. repeat (split; [solve [auto]|]).
  split; [apply not_three_sevenths, NL; lia|].
  destruct (K2 (VArr (fls [1; 1])) (nthZ (fls [1; 1]))) as (r & x & E1 & Hx & Sx); [apply vec_lst; reflexivity|apply (nums_lst c_amd64); vm_compute; reflexivity|].
  exists r, x. split; [exact E1|]. split; [exact Hx|].
  assert (E1' : @lus_SolveVector E64 d (VArr (fls [1; 1])) = Ok r) by exact E1. rewrite E1' in Er. destruct r as [l|]; [|discriminate Er].
  assert (Nx : nums 2 x). { apply (VecIs_nums c_amd64 l 2 x Hx Er). }
  split; [exact Nx|]. apply Sx. exact Nx.
Qed.

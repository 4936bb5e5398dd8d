(** The concrete cases beside C71. *)
From Coq Require Import ZArith List Lia Bool Reals Lra Floats.SpecFloat.
From Verif Require Import Base BaseLemmas Scalar Vector VecSpec VectorFacts Matrix MatSpec MatFacts Array2D BlockM Diagonal RealMatrixM Array2DFacts Float64 ExampleOps RSum RndSpec FloatR RndSum RndMat RndEx RndTri LU LUSpec RndLU RndLUEx Det RndDetSpec RndDet RndNorm.
Import ListNotations.
Open Scope Z_scope.

(** The determinant of [[1;1];[3;4]] is 1; the one computed is 1 - 2^-52. *)
Definition exD := [[1; 1]; [3; 4]].
Definition exD_run : bool :=
  match @NewLUDecompositionWithThreshold E64 (fmat exD) ex_thr with
  | Ok d => lus_IsNonSingular d && match lu_L d, lu_U d, @lu_Determinant E64 d with
      | Ok (Some (MArr (mkA2D (Some l))), _), Ok (Some (MArr (mkA2D (Some u))), _), Ok y => forallb all_num l && forallb all_num u && (match y with S754_finite false m e => (Z.pos m =? 9007199254740990) && (e =? -53) | _ => false end)
      | _, _, _ => false end
  | _ => false
  end.
Lemma exD_check : exD_run = true. Proof. vm_compute. reflexivity. Qed.
Lemma exD_num : nums2 2 2 (fent exD).
Proof. intros i j Hi Hj. assert (i = 0 \/ i = 1) as [-> | ->] by lia; assert (j = 0 \/ j = 1) as [-> | ->] by lia; split; vm_compute; reflexivity. Qed.
Lemma MatIs_nums (l : list (list (@F E64))) r q (f : Z -> Z -> sf) : MatIs (O := E64) (MArr (mkA2D (Some l))) r q f -> 1 <= r -> 1 <= q -> forallb all_num l = true -> nums2 r q f.
Proof.
  intros H Hr Hq Ha i j Hi Hj. apply MatIs_arr_inv in H. destruct H as (d & E & _ & _ & (Hl & Hrr) & Hv). injection E as <-.
  rewrite forallb_forall in Ha. specialize (Ha (nthZ l i)). rewrite <- Hv by auto. apply (nums_lst c_amd64 (nthZ l i) q); [apply Hrr; auto| |auto].
  apply Ha. unfold nthZ. apply nth_In. unfold len in Hl. lia.
Qed.
Lemma det2 A : det 2 A = (A 0%Z 0%Z * A 1%Z 1%Z - A 1%Z 0%Z * A 0%Z 1%Z)%R.
Proof.
  unfold det. change (Z.to_nat 2) with 2%nat. cbn [detn]. change (Z.of_nat 2) with (0 + 1 + 1). change (Z.of_nat 1) with (0 + 1). rewrite !Rs_last, !Rs_nil by lia. unfold minor, altsign. cbn. ring.
Qed.
Lemma fR_small n m : sf_of_Z n = S754_finite false m (-52) -> Z.pos m = n * 2 ^ 52 -> fR (sf_of_Z n) = IZR n.
Proof.
  intros -> E. cbn [fR]. rewrite E, mult_IZR. change (powerRZ 2 (-52)) with (/ (2 ^ 52))%R. rewrite pow_IZR. change (Z.of_nat 52) with 52. rewrite Rmult_assoc, Rinv_r; [lra|]. apply not_0_IZR. lia.
Qed.
Lemma det_ex : exists (d : @LUD E64) Lm Um (L U : Z -> Z -> sf) d1 d2 y, NewLUDecompositionWithThreshold (fmat exD) ex_thr = Ok d /\ lus_IsNonSingular d = true /\
  lu_L d = Ok (Some Lm, d1) /\ lu_U d = Ok (Some Um, d2) /\ MatIs Lm 2 2 L /\ MatIs Um 2 2 U /\ nums2 2 2 L /\ nums2 2 2 U /\ lu_Determinant d = Ok y /\
  lu_det_close 2 (fent exD) L U (nthZ (lu_Pivot d)) y /\ fR y = (1 - 2 * ulp2)%R /\ det 2 (fun i j => fR (fent exD i j)) = 1%R.
Proof.
  pose proof exD_check as C. unfold exD_run in C.
  destruct (@NewLUDecompositionWithThreshold E64 (fmat exD) ex_thr) as [d|e|e] eqn:E; [|discriminate C|discriminate C].
  apply andb_prop in C. destruct C as [Hs C].
  destruct (lu_sf_det c_amd64 (fmat exD) 2 (fent exD) ex_thr d d I (fmat2_is 1 1 3 4) ltac:(lia) exD_num E (lc_none d) Hs) as (Lm & Um & L & U & d1 & d2 & y & EL & EU & HL & HU & EY & K).
  assert (EL' : @lu_L E64 d = Ok (Some Lm, d1)) by exact EL. assert (EU' : @lu_U E64 d = Ok (Some Um, d2)) by exact EU. assert (EY' : @lu_Determinant E64 d = Ok y) by exact EY.
  rewrite EL', EU', EY' in C. destruct Lm as [[[l|]]| | |]; try discriminate C. destruct Um as [[[u|]]| | |]; try discriminate C.
  apply andb_prop in C. destruct C as [C Cy]. apply andb_prop in C. destruct C as [Cl Cu].
  assert (NL : nums2 2 2 L) by (apply (MatIs_nums l 2 2 L HL); auto; lia). assert (NU : nums2 2 2 U) by (apply (MatIs_nums u 2 2 U HU); auto; lia).
  destruct (K NL NU) as (_ & K1 & _).
  exists d, (MArr (mkA2D (Some l))), (MArr (mkA2D (Some u))), L, U, d1, d2, y. repeat (split; [solve [auto]|]).
  change (@F E64) with sf in y. destruct y as [| | |[] m e]; try discriminate Cy. apply andb_prop in Cy. destruct Cy as [C1 C2]. apply Z.eqb_eq in C1, C2. subst e.
  split; [apply K1; reflexivity|]. split.
  - cbn [fR]. rewrite C1. unfold ulp2. change (powerRZ 2 (-53)) with (/ (2 ^ 53))%R. rewrite pow_IZR. change (2 ^ Z.of_nat 53) with 9007199254740992. change 9007199254740990 with (9007199254740992 - 2).
    rewrite minus_IZR. field.
  - rewrite det2. change (fent exD 0 0) with (sf_of_Z 1). change (fent exD 0 1) with (sf_of_Z 1). change (fent exD 1 0) with (sf_of_Z 3). change (fent exD 1 1) with (sf_of_Z 4).
    assert (E1 : fR (sf_of_Z 1) = 1%R) by apply fR_one.
    assert (E3 : fR (sf_of_Z 3) = 3%R).
    { replace (sf_of_Z 3) with (S754_finite false 6755399441055744 (-51)) by (vm_compute; reflexivity). cbn [fR].
      change (powerRZ 2 (-51)) with (/ (2 ^ 51))%R. rewrite pow_IZR. change (2 ^ Z.of_nat 51) with 2251799813685248. change 6755399441055744 with (3 * 2251799813685248). rewrite mult_IZR, Rmult_assoc, Rinv_r; [lra|]. apply not_0_IZR. lia. }
    assert (E4 : fR (sf_of_Z 4) = 4%R).
    { replace (sf_of_Z 4) with (S754_finite false 4503599627370496 (-50)) by (vm_compute; reflexivity). cbn [fR].
      change (powerRZ 2 (-50)) with (/ (2 ^ 50))%R. rewrite pow_IZR. change (2 ^ Z.of_nat 50) with 1125899906842624. change 4503599627370496 with (4 * 1125899906842624). rewrite mult_IZR, Rmult_assoc, Rinv_r; [lra|]. apply not_0_IZR. lia. }
    rewrite E1, E3, E4. lra.
Qed.

(** The cosine of (1,1,1) with itself, on float64: above 1. *)
Definition exc : list (@F E64) := fls [1; 1; 1].
Definition exc_run : bool := match @VecCosine E64 (VArr exc) (VArr exc) with Ok (S754_finite false m e) => (Z.pos m =? 4503599627370497) && (e =? -52) | _ => false end.
Lemma exc_check : exc_run = true. Proof. vm_compute. reflexivity. Qed.
Lemma cosine_refuted : exists (v : @RealVector E64) n (f : Z -> sf) y, VecIs v n f /\ nums n f /\ VecCosine v v = Ok y /\ num y /\ (1 < fR y)%R.
Proof.
  pose proof exc_check as C. unfold exc_run in C. destruct (@VecCosine E64 (VArr exc) (VArr exc)) as [y|e|e] eqn:E; try discriminate C.
  exists (VArr exc), 3, (nthZ exc), y. split; [apply vec_lst; reflexivity|]. split; [apply (nums_lst c_amd64); vm_compute; reflexivity|]. split; [exact E|].
  change (@F E64) with sf in y. destruct y as [| | |[] m e]; try discriminate C. apply andb_prop in C. destruct C as [C1 C2]. apply Z.eqb_eq in C1, C2. subst e.
  assert (m = 4503599627370497%positive) by lia. subst m. split; [split; reflexivity|]. cbn [fR]. change (powerRZ 2 (-52)) with (/ (2 ^ 52))%R. rewrite pow_IZR. change (2 ^ Z.of_nat 52) with 4503599627370496.
  apply (Rmult_lt_reg_r (IZR 4503599627370496)); [apply (IZR_lt 0); lia|]. rewrite Rmult_assoc, Rinv_l, Rmult_1_l, Rmult_1_r by (apply not_0_IZR; lia). apply IZR_lt. lia.
Qed.

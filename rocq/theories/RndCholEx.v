(** The concrete case beside C60. *)
From Coq Require Import ZArith List Lia Bool Reals Lra Floats.SpecFloat.
From Verif Require Import Base BaseLemmas Scalar Vector VecSpec VectorFacts Matrix MatSpec MatFacts Array2D BlockM Diagonal RealMatrixM Array2DFacts Float64 ExampleOps RSum RndSpec FloatR RndSum RndMat RndEx RndTri RndLUEx Cholesky CholSpec RndChol.
Import ListNotations.
Open Scope Z_scope.

Definition exC := [[4; 2]; [2; 3]].
Lemma exC_num : nums2 2 2 (fent exC).
Proof. intros i j Hi Hj. assert (i = 0 \/ i = 1) as [-> | ->] by lia; assert (j = 0 \/ j = 1) as [-> | ->] by lia; split; vm_compute; reflexivity. Qed.
Definition exC_run : option (list sf * list sf) :=
  match @NewCholeskyDecomposition E64 (fmat exC) sf_zero sf_zero with
  | Ok d => match ch_L d, chs_SolveVector d (VArr (fls [1; 1])) with
            | Ok (Lm, _), Ok (VArr l) =>
                match m_At Lm 0 0, m_At Lm 0 1, m_At Lm 1 0, m_At Lm 1 1 with Ok a, Ok b, Ok c, Ok e => Some ([a; b; c; e], l) | _, _, _, _ => None end
            | _, _ => None
            end
  | _ => None
  end.
Definition exC_L : list sf := [S754_finite false 4503599627370496 (-51); S754_zero false; S754_finite false 4503599627370496 (-52); S754_finite false 6369051672525773 (-52)].
Definition exC_x : list sf := [S754_finite false 4503599627370496 (-55); S754_finite false 9007199254740991 (-55)].
Lemma exC_val : exC_run = Some (exC_L, exC_x). Proof. vm_compute. reflexivity. Qed.
Lemma chol_ex : exists d Lm (L : Z -> Z -> sf) d1, @NewCholeskyDecomposition E64 (fmat exC) sf_zero sf_zero = Ok d /\ ch_L d = Ok (Lm, d1) /\ MatIs Lm 2 2 L /\ nums2 2 2 L /\
  chol_close 2 (fent exC) L /\ (fR (L 1%Z 1%Z) * fR (L 1%Z 1%Z) <> 2)%R /\
  exists r (x : Z -> sf), chs_SolveVector d (VArr (fls [1; 1])) = Ok r /\ VecIs r 2 x /\ nums 2 x /\ chol_solves 2 (fent exC) L x (nthZ (fls [1; 1])) /\ fR (x 1) <> (1 / 4)%R.
Proof.
  pose proof exC_val as C. unfold exC_run in C.
  destruct (@NewCholeskyDecomposition E64 (fmat exC) sf_zero sf_zero) as [d|e|e] eqn:E; [|discriminate C|discriminate C].
  destruct (ch_sf_back c_amd64 (fmat exC) 2 (fent exC) sf_zero sf_zero d d I (fmat2_is 4 2 2 3) ltac:(lia) exC_num E (cc_none d)) as (Lm & L & d1 & EL & HL & K).
  assert (EL' : @ch_L E64 d = Ok (Lm, d1)) by exact EL. rewrite EL' in C.
  destruct (chs_SolveVector d (VArr (fls [1; 1]))) as [[l|]| |] eqn:Ev; try discriminate C.
  pose proof HL as (_ & _ & _ & HAt & _).
  assert (A00 : @m_At E64 Lm 0 0 = Ok (L 0 0)) by (apply HAt; lia). assert (A01 : @m_At E64 Lm 0 1 = Ok (L 0 1)) by (apply HAt; lia).
  assert (A10 : @m_At E64 Lm 1 0 = Ok (L 1 0)) by (apply HAt; lia). assert (A11 : @m_At E64 Lm 1 1 = Ok (L 1 1)) by (apply HAt; lia).
  rewrite A00, A01, A10, A11 in C. injection C as C00 C01 C10 C11 Cl.
  assert (NL : nums2 2 2 L).
  { intros i j Hi Hj. assert (i = 0 \/ i = 1) as [-> | ->] by lia; assert (j = 0 \/ j = 1) as [-> | ->] by lia; rewrite ?C00, ?C01, ?C10, ?C11; split; vm_compute; reflexivity. }
  destruct (K NL) as (K1 & K2 & _). exists d, Lm, L, d1. split; [auto|]. split; [auto|]. split; [auto|]. split; [auto|]. split; [auto|]. split.
  - rewrite C11. cbn [fR]. change (powerRZ 2 (-52)) with (/ (2 ^ 52))%R. rewrite pow_IZR. change (2 ^ Z.of_nat 52) with 4503599627370496. intros H.
    assert (H' : (IZR (6369051672525773 * 6369051672525773) = IZR (2 * 4503599627370496 * 4503599627370496))%R); [|apply eq_IZR in H'; discriminate H'].
    rewrite !mult_IZR. assert (P : (4503599627370496 <> 0)%R) by (apply not_0_IZR; lia).
    apply (Rmult_eq_compat_r (4503599627370496 * 4503599627370496)) in H. field_simplify in H. lra.
  - destruct (K2 (VArr (fls [1; 1])) (nthZ (fls [1; 1]))) as (r & x & E1 & Hx & Sx); [apply vec_lst; reflexivity|apply (nums_lst c_amd64); vm_compute; reflexivity|].
    assert (E1' : @chs_SolveVector E64 d (VArr (fls [1; 1])) = Ok r) by exact E1. rewrite Ev in E1'. injection E1' as <-.
    assert (Nx : nums 2 x). { apply (VecIs_nums c_amd64 l 2 x Hx). rewrite Cl. vm_compute. reflexivity. }
    exists (VArr l), x. split; [auto|]. split; [exact Hx|]. split; [exact Nx|]. split; [apply Sx; exact Nx|].
    assert (X1 : x 1 = S754_finite false 9007199254740991 (-55)).
    { assert (H1 : len l = 2) by (rewrite Cl; reflexivity). pose proof (vec_lst (O := E64) l 2 H1) as (_ & H3 & _). specialize (H3 1 ltac:(lia)).
      destruct Hx as (_ & H2 & _). specialize (H2 1 ltac:(lia)). assert (H2' : @v_At E64 (VArr l) 1 = Ok (x 1)) by exact H2. rewrite H2' in H3. injection H3 as ->. rewrite Cl. reflexivity. }
    rewrite X1. cbn [fR]. change (powerRZ 2 (-55)) with (/ (2 ^ 55))%R. rewrite pow_IZR. change (2 ^ Z.of_nat 55) with 36028797018963968. intros H.
    assert (H' : (IZR (4 * 9007199254740991) = IZR 36028797018963968)%R); [|apply eq_IZR in H'; discriminate H'].
    rewrite mult_IZR. assert (P : (36028797018963968 <> 0)%R) by (apply not_0_IZR; lia).
    apply (Rmult_eq_compat_r 36028797018963968) in H. rewrite Rmult_assoc, Rinv_l in H by exact P. lra.
Qed.

(** A finite symmetric matrix that is far from definite and is accepted. *)
Definition two33 : sf := S754_finite false 4503599627370496 (-85).
Definition big : sf := S754_finite false 4503599627370496 971.
Definition exB : list (list (@F E64)) := [[two33; sf_zero; big]; [sf_zero; sf_of_Z 1; sf_zero]; [big; sf_zero; sf_of_Z 1]].
Definition exBm : @RealMatrix E64 := MArr (mkA2D (Some exB)).
Definition exBe (i j : Z) : sf := @nthZ (@F E64) _ (nthZ exB i) j.
Definition exB_run : bool := match @NewDefaultCholeskyDecomposition E64 exBm with Ok d => match ch_L d with Ok (Lm, _) => match m_At Lm 2 2 with Ok x => sf_isnan x | _ => false end | _ => false end | _ => false end.
Lemma exB_val : exB_run = true. Proof. vm_compute. reflexivity. Qed.
Lemma exB_is : MatIs exBm 3 3 exBe.
Proof. unfold exBm. apply (MatIs_arr (O := E64)); try lia. split; [split|]; [reflexivity| |intros; reflexivity]. intros i Hi. assert (i = 0 \/ i = 1 \/ i = 2) as [-> | [-> | ->]] by lia; reflexivity. Qed.
Lemma exB_num : nums2 3 3 exBe.
Proof. intros i j Hi Hj. assert (i = 0 \/ i = 1 \/ i = 2) as [-> | [-> | ->]] by lia; assert (j = 0 \/ j = 1 \/ j = 2) as [-> | [-> | ->]] by lia; split; vm_compute; reflexivity. Qed.
Lemma exB_sym i j : 0 <= i < 3 -> 0 <= j < 3 -> exBe i j = exBe j i.
Proof. intros Hi Hj. assert (i = 0 \/ i = 1 \/ i = 2) as [-> | [-> | ->]] by lia; assert (j = 0 \/ j = 1 \/ j = 2) as [-> | [-> | ->]] by lia; reflexivity. Qed.
Lemma exB_quad : (quad 3 (fun i j => fR (exBe i j)) (fun i => IZR (1 - i)) <= - powerRZ 2 1023)%R.
Proof.
  unfold quad, dot, mvec.
  assert (S3 : forall f, Rs 0 3 f = (f 0%Z + f 1%Z + f 2%Z)%R). { intros f. change 3 with (0 + 1 + 1 + 1). rewrite !Rs_last, Rs_nil by lia. change (0 + 1 + 1) with 2. change (0 + 1) with 1. ring. }
  rewrite !S3. change (exBe 0 0) with two33. change (exBe 0 1) with sf_zero. change (exBe 0 2) with big. change (exBe 1 0) with sf_zero. change (exBe 1 1) with (sf_of_Z 1).
  change (exBe 1 2) with sf_zero. change (exBe 2 0) with big. change (exBe 2 1) with sf_zero. change (exBe 2 2) with (sf_of_Z 1).
  change (1 - 0) with 1. change (1 - 1) with 0. change (1 - 2) with (-1).
  assert (E0 : fR sf_zero = 0%R) by reflexivity. assert (E1 : fR (sf_of_Z 1) = 1%R) by (apply fR_one).
  assert (E2 : (fR two33 <= 1)%R). { unfold two33. cbn [fR]. change (powerRZ 2 (-85)) with (/ (2 ^ 85))%R. rewrite pow_IZR. change (2 ^ Z.of_nat 85) with (38685626227668133590597632).
    apply (Rmult_le_reg_r 38685626227668133590597632); [apply (IZR_lt 0); lia|]. rewrite Rmult_assoc, Rinv_l, Rmult_1_l, Rmult_1_r; [apply IZR_le; lia|apply not_0_IZR; lia]. }
  assert (E3 : fR big = powerRZ 2 1023). { unfold big. cbn [fR]. change 1023 with (52 + 971). rewrite powerRZ_add by lra. f_equal. change (powerRZ 2 52) with (2 ^ 52)%R. rewrite pow_IZR. reflexivity. }
  assert (E4 : (2 <= powerRZ 2 1023)%R). { change 1023 with (1 + 1022). rewrite powerRZ_add by lra. change (powerRZ 2 1) with (2 * 1)%R. change (powerRZ 2 1022) with (2 ^ 1022)%R. pose proof (pow_R1_Rle 2 1022 ltac:(lra)). lra. }
  rewrite E0, E1, E3. lra.
Qed.
Lemma chol_refuted : exists d Lm d1 (L : Z -> Z -> sf) (x : Z -> R), library exBm /\ MatIs exBm 3 3 exBe /\ nums2 3 3 exBe /\ (forall i j, 0 <= i < 3 -> 0 <= j < 3 -> exBe i j = exBe j i) /\ @NewDefaultCholeskyDecomposition E64 exBm = Ok d /\ ch_L d = Ok (Lm, d1) /\ MatIs Lm 3 3 L /\ sf_isnan (L 2 2) = true /\ (quad 3 (fun i j => fR (exBe i j)) x <= - powerRZ 2 1023)%R.
Proof.
  pose proof exB_val as C. unfold exB_run in C. destruct (@NewDefaultCholeskyDecomposition E64 exBm) as [d|e|e] eqn:E; [|discriminate C|discriminate C].
  destruct (ch_sf_back c_amd64 exBm 3 exBe _ _ d d I exB_is ltac:(lia) exB_num E (cc_none d)) as (Lm & L & d1 & EL & HL & _).
  assert (EL' : @ch_L E64 d = Ok (Lm, d1)) by exact EL. rewrite EL' in C. pose proof HL as (_ & _ & _ & HAt & _).
  assert (A22 : @m_At E64 Lm 2 2 = Ok (L 2 2)) by (apply HAt; lia). rewrite A22 in C.
  exists d, Lm, d1, L, (fun i => IZR (1 - i)). split; [exact I|]. split; [apply exB_is|]. split; [apply exB_num|]. split; [apply exB_sym|]. split; [reflexivity|]. split; [exact EL|]. split; [exact HL|]. split; [exact C|]. apply exB_quad.
Qed.

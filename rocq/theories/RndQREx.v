(** The concrete cases beside C65 and C66. *)
From Coq Require Import ZArith List Reals Lia Lra Psatz Bool Floats.SpecFloat.
From Flocq Require Import Core.
From Verif Require Import Base BaseLemmas Scalar Vector VecSpec VectorFacts Matrix MatSpec Array2D BlockM Diagonal RealMatrixM MatFacts Array2DFacts MatrixOps Float64 RealOps ExampleOps RSum House RealVec QR QRSpec QRFacts QRProps ExampleReal RndSpec FloatR RndSum RndEx RndTri RndLUEx RndHouse RndRefl RndApply RndQRSpec RndQR RndQR2.
Import ListNotations.
Open Scope Z_scope.

(** ** The size of the bounds *)
Lemma pow_small x n : (0 <= x)%R -> (INR n * x <= 1)%R -> ((1 + x) ^ n * (1 - INR n * x) <= 1)%R.
Proof.
  intros Hx. induction n as [|n IH]; intros H; [cbn; lra|]. rewrite S_INR in *. pose proof (pos_INR n) as P. assert (H' : (INR n * x <= 1)%R) by nra. specialize (IH H'). cbn [pow].
  assert (0 <= (1 + x) ^ n)%R by (apply pow_le; lra).
  assert ((1 + x) * (1 - (INR n + 1) * x) <= 1 - INR n * x)%R by nra. nra.
Qed.
Lemma qr_bounds : forall m p, 1 <= m -> 1 <= p -> (10 * IZR p * (IZR (m + 4) * ulp2) <= / 16)%R ->
  (0 <= qr_rel m p <= 11 * IZR p * (IZR (m + 4) * ulp2))%R /\ (0 <= qr_abs m p <= 2 * IZR p * IZR m * powerRZ 2 (-537))%R.
Proof.
  intros m p Hm Hp H. pose proof (kap_u m Hm) as Ku. pose proof ulp2_pos as Pu. unfold qr_rel, qr_abs, refl_grow. set (x := refl_unit m).
  assert (Ex : x = (10 * kap m)%R) by reflexivity. assert (Px : (0 <= x)%R) by (rewrite Ex; lra).
  assert (En : (INR (Z.to_nat p) * x = 10 * IZR p * (IZR (m + 4) * ulp2))%R) by (rewrite INR_IZR_INZ, Z2Nat.id, Ex by lia; unfold kap; ring).
  pose proof (pow_small x (Z.to_nat p) Px ltac:(lra)) as K. rewrite En in K. set (y := (10 * IZR p * (IZR (m + 4) * ulp2))%R) in *.
  assert (G1 : (1 <= (1 + x) ^ Z.to_nat p)%R) by (apply pow_R1_Rle; lra). set (g := ((1 + x) ^ Z.to_nat p)%R) in *.
  assert (Py : (0 <= y)%R) by (rewrite <- En; apply Rmult_le_pos; [apply pos_INR|auto]). assert (g <= 1 + 11 / 10 * y)%R by nra. assert (g <= 2)%R by lra.
  assert (1 <= IZR p)%R by (apply (IZR_le 1); auto). assert (1 <= IZR m)%R by (apply (IZR_le 1); auto). pose proof (powerRZ_lt 2 (-537) ltac:(lra)) as P2.
  assert (0 <= IZR p * (IZR m * powerRZ 2 (-537)))%R by (repeat apply Rmult_le_pos; lra).
  split; [unfold y in *; lra|]. split; [repeat apply Rmult_le_pos; lra|]. nra.
Qed.
Lemma ulp2_le : (ulp2 <= / 1000000)%R.
Proof. rewrite ulp2_b. eapply Rle_trans; [apply (bpow_le radix2 (-53) (-20)); lia|]. change (b2 (-20)) with (/ 1048576)%R. lra. Qed.
Lemma small_537 : (powerRZ 2 (-537) <= / 1000000)%R.
Proof. rewrite pz. eapply Rle_trans; [apply (bpow_le radix2 (-537) (-20)); lia|]. change (b2 (-20)) with (/ 1048576)%R. lra. Qed.

(** ** Reading entries *)
Definition at_p (P : sf -> bool) (x : @RealMatrix E64) (i j : Z) : bool := match m_At x i j with Ok a => P a | _ => false end.
Lemma at_p_ok P x r c f i j : MatIs x r c f -> 0 <= i < r -> 0 <= j < c -> at_p P x i j = P (f i j).
Proof. intros H Hi Hj. unfold at_p. rewrite (MatIs_At _ _ _ _ i j H Hi Hj). reflexivity. Qed.
Definition numb (x : sf) : bool := sf_valid x && isfin x.
Definition ats (P : sf -> bool) (x : @RealMatrix E64) (r c : nat) : bool := forallb (fun i => forallb (fun j => at_p P x (Z.of_nat i) (Z.of_nat j)) (seq 0 c)) (seq 0 r).
Lemma ats_nums x r c f : ats numb x r c = true -> MatIs x (Z.of_nat r) (Z.of_nat c) f -> nums2 (Z.of_nat r) (Z.of_nat c) f.
Proof.
  intros H HM i j Hi Hj. unfold ats in H. rewrite forallb_forall in H. specialize (H (Z.to_nat i) ltac:(apply in_seq; lia)). rewrite forallb_forall in H. specialize (H (Z.to_nat j) ltac:(apply in_seq; lia)).
  rewrite !Z2Nat.id in H by lia. rewrite (at_p_ok _ _ _ _ _ i j HM Hi Hj) in H. apply andb_prop in H. exact H.
Qed.
Definition sf_eqb (x y : sf) : bool := match x, y with
  | S754_zero s, S754_zero t => Bool.eqb s t
  | S754_finite s m e, S754_finite t n f => Bool.eqb s t && ((Zpos m =? Zpos n) && (e =? f))
  | _, _ => false end.
Lemma sf_eqb_ok x y : sf_eqb x y = true -> x = y.
Proof.
  destruct x as [s|s| |s m e], y as [t|t| |t n f]; cbn; try discriminate.
  - intros H. apply eqb_prop in H. subst. auto.
  - intros H. apply andb_prop in H. destruct H as [H1 H]. apply andb_prop in H. destruct H as [H2 H3]. apply eqb_prop in H1. apply Pos.eqb_eq in H2. apply Z.eqb_eq in H3. subst. auto.
Qed.
(** Well inside the range of the theorems. *)
Definition midb (x : sf) : bool := match x with S754_finite _ m e => (-450 <=? e) && ((e <=? 400) && (Zpos m <? 2 ^ 60)) | _ => false end.
Lemma midb_ok x : midb x = true -> (powerRZ 2 (-450) <= Rabs (fR x) <= powerRZ 2 511)%R.
Proof.
  destruct x as [s|s| |s m e]; try discriminate. cbn [midb fR]. intros H. apply andb_prop in H. destruct H as [H1 H]. apply andb_prop in H. destruct H as [H2 H3]. apply Z.leb_le in H1, H2. apply Z.ltb_lt in H3.
  rewrite !pz. assert (P : (0 < b2 e)%R) by apply bpow_gt_0. rewrite Rabs_mult, (Rabs_pos_eq (b2 e)) by lra.
  replace (Rabs (IZR (if s then Z.neg m else Z.pos m))) with (IZR (Zpos m)) by (destruct s; [rewrite <- Pos2Z.opp_pos, opp_IZR, Rabs_Ropp|]; rewrite Rabs_pos_eq by (apply IZR_le; lia); auto).
  assert (1 <= IZR (Zpos m))%R by (apply (IZR_le 1); lia). assert (IZR (Zpos m) <= b2 60)%R. { change (b2 60) with (IZR (2 ^ 60)). apply IZR_le. lia. }
  pose proof (bpow_le radix2 (-450) e H1). pose proof (bpow_le radix2 e 400 H2).
  split; [nra|]. apply Rle_trans with (b2 60 * b2 400)%R; [apply Rmult_le_compat; lra|]. rewrite <- bpow_plus. apply bpow_le. lia.
Qed.

(** ** [[1 1] [1 2] [1 4]] *)
Definition exQ := [[1; 1]; [1; 2]; [1; 4]].
Definition qr_t00 : sf := S754_finite true 7800463371553962 (-52).
Definition qr_run : bool :=
  match @NewQRDecomposition E64 (fmat exQ) with
  | Ok d => match @qr_R E64 d, @qr_Q E64 d, @qrs_IsNonSingular E64 d, @qrs_SolveVector E64 d (VArr (fls [1; 2; 2])) with
    | Ok (r, _), Ok (q, _), Ok true, Ok (VArr l) => ats numb r 3 2 && (ats numb q 3 3 && (at_p midb r 0 0 && (at_p midb r 1 1 && (at_p (sf_eqb qr_t00) r 0 0 && all_num l))))
    | _, _, _, _ => false end
  | _ => false
  end.
Lemma qr_check : qr_run = true. Proof. vm_compute. reflexivity. Qed.
Lemma exQ_is : MatIs (fmat exQ) 3 2 (fent exQ).
Proof. apply fmat_is; try lia; try reflexivity. intros i Hi. assert (i = 0 \/ i = 1 \/ i = 2) as [-> | [-> | ->]] by lia; reflexivity. Qed.
Lemma exQ_num : nums2 3 2 (fent exQ).
Proof. intros i j Hi Hj. assert (i = 0 \/ i = 1 \/ i = 2) as [-> | [-> | ->]] by lia; assert (j = 0 \/ j = 1) as [-> | ->] by lia; split; vm_compute; reflexivity. Qed.
Lemma size3 : qr_size 3. Proof. unfold qr_size. pose proof ulp2_le. change (IZR (3 + 4)) with 7%R. lra. Qed.
Lemma t00_sq : (fR qr_t00 * fR qr_t00 <> 3)%R.
Proof.
  unfold qr_t00. cbn [fR]. change (powerRZ 2 (-52)) with (/ 2 ^ 52)%R. intros H. assert (P : (2 ^ 52 <> 0)%R) by (apply pow_nonzero; lra).
  assert (E : (IZR (-7800463371553962) * IZR (-7800463371553962) = 3 * (2 ^ 52 * 2 ^ 52))%R).
  { rewrite <- H. field. }
  rewrite pow_IZR, <- !mult_IZR in E. apply eq_IZR in E. vm_compute in E. discriminate E.
Qed.
Lemma qr_ex : exists d Rm Qm (T Qf : Z -> Z -> sf) d1 d2 Q, @NewQRDecomposition E64 (fmat exQ) = Ok d /\ qr_R d = Ok (Rm, d1) /\ qr_Q d = Ok (Qm, d2) /\
  MatIs Rm 3 2 T /\ MatIs Qm 3 3 Qf /\ nums2 3 2 T /\ nums2 3 3 Qf /\ diag_range 2 T /\ qr_backward 3 2 (fent exQ) T Q /\ q_close 3 2 Qf Q /\ q_orthonormal 3 2 Qf /\ qr_product 3 2 (fent exQ) Qf T /\
  (fR (T 0%Z 0%Z) * fR (T 0%Z 0%Z) <> 3)%R /\ (qr_rel 3 2 + qr_abs 3 2 <= / 1000)%R /\
  exists r (y : Z -> sf), qrs_SolveVector d (VArr (fls [1; 2; 2])) = Ok r /\ VecIs r 2 y /\ nums 2 y /\ ls_backward 3 2 (fent exQ) (nthZ (fls [1; 2; 2])) y.
Proof.
  pose proof qr_check as C. unfold qr_run in C. destruct (@NewQRDecomposition E64 (fmat exQ)) as [d|e|e] eqn:E; [|discriminate C|discriminate C].
  assert (Hd : qr_of (fmat exQ) (@fzero E64) d) by (exists d; split; [right; auto|constructor]).
  assert (Ht : transposable (fmat exQ)) by (left; exact I).
  destruct (qr_sf_backward c_amd64 (fmat exQ) 3 2 (fent exQ) (@fzero E64) d Ht exQ_is ltac:(lia) ltac:(lia) size3 exQ_num Hd) as (Rm & Qm & T & Qf & d1 & d2 & ER & EQ & HR & HQ & K).
  change (@qr_R (SFOps c_amd64) d) with (@qr_R E64 d) in ER. change (@qr_Q (SFOps c_amd64) d) with (@qr_Q E64 d) in EQ. rewrite ER, EQ in C.
  destruct (@qrs_IsNonSingular E64 d) as [[]|e|e] eqn:Es; try discriminate C.
  destruct (qr_sf_solve c_amd64 (fmat exQ) 3 2 (fent exQ) (@fzero E64) d Ht exQ_is ltac:(lia) ltac:(lia) size3 exQ_num Hd Es) as (Rm' & T' & d1' & ER' & HR' & K').
  change (@qr_R (SFOps c_amd64) d) with (@qr_R E64 d) in ER'. rewrite ER in ER'. injection ER' as <- <-.
  destruct (@qrs_SolveVector E64 d (VArr (fls [1; 2; 2]))) as [[l|l]|e|e] eqn:Ev; try discriminate C.
  apply andb_prop in C. destruct C as [C1 C]. apply andb_prop in C. destruct C as [C2 C]. apply andb_prop in C. destruct C as [C3 C]. apply andb_prop in C. destruct C as [C4 C]. apply andb_prop in C. destruct C as [C5 C6].
  assert (NT : nums2 3 2 T) by exact (ats_nums _ 3 2 _ C1 HR). assert (NQ : nums2 3 3 Qf) by exact (ats_nums _ 3 3 _ C2 HQ).
  rewrite (at_p_ok midb _ _ _ _ 0 0 HR ltac:(lia) ltac:(lia)) in C3. rewrite (at_p_ok _ _ _ _ _ 0 0 HR ltac:(lia) ltac:(lia)) in C5. rewrite (at_p_ok _ _ _ _ _ 1 1 HR ltac:(lia) ltac:(lia)) in C4.
  assert (RT : diag_range 2 T). { intros k Hk. right. assert (k = 0 \/ k = 1) as [-> | ->] by lia; apply midb_ok; auto. }
  apply sf_eqb_ok in C5. destruct (K NT RT) as (Q & KB & KC). destruct (KC NQ) as (KC1 & KC2 & KC3).
  exists d, Rm, Qm, T, Qf, d1, d2, Q. do 12 (split; [solve [auto]|]). split; [rewrite <- C5; apply t00_sq|]. split.
  { pose proof (qr_bounds 3 2 ltac:(lia) ltac:(lia)) as B. change (IZR (3 + 4)) with 7%R in B. pose proof ulp2_le. pose proof small_537. specialize (B ltac:(lra)). lra. }
  assert (RT' : diag_range 2 T').
  { intros k Hk. rewrite (MatIs_same _ _ _ _ _ HR' HR) by lia. apply RT. auto. }
  assert (NT' : nums2 3 2 T') by (intros i j Hi Hj; rewrite (MatIs_same _ _ _ _ _ HR' HR) by lia; apply NT; auto).
  destruct (K' NT' RT') as (K1 & _). destruct (K1 (VArr (fls [1; 2; 2])) (nthZ (fls [1; 2; 2]))) as (r & y & Er & Hy & HL).
  - apply vec_lst. reflexivity.
  - apply (nums_lst c_amd64); vm_compute; reflexivity.
  - change (@qrs_SolveVector (SFOps c_amd64)) with (@qrs_SolveVector E64) in Er. rewrite Ev in Er. injection Er as <-.
    exists (VArr l), y. split; [auto|]. split; [auto|]. assert (Ny : nums 2 y) by (apply (VecIs_nums c_amd64 l); auto). split; [auto|]. apply HL. auto.
Qed.

(** ** [[c 1] [0 0]] with c = 15 * 2^508: R is finite, but wrong *)
Definition bigc : Z := 15 * 2 ^ 508.
Definition exB := [[bigc; 1]; [0; 0]].
Definition big_t : sf := S754_finite true 8444249301319680 459.
Definition big_run : bool :=
  match @NewQRDecomposition E64 (fmat exB) with
  | Ok d => match @qr_R E64 d with
    | Ok (r, _) => ats numb r 2 2 && (at_p (sf_eqb big_t) r 0 0 && (at_p (sf_eqb (sf_of_Z 1)) r 0 1 && (at_p (sf_eqb sf_zero) r 1 0 && at_p (sf_eqb sf_zero) r 1 1)))
    | _ => false end
  | _ => false
  end.
Lemma big_check : big_run = true. Proof. vm_compute. reflexivity. Qed.
Lemma exB_num : nums2 2 2 (fent exB).
Proof. intros i j Hi Hj. assert (i = 0 \/ i = 1) as [-> | ->] by lia; assert (j = 0 \/ j = 1) as [-> | ->] by lia; split; vm_compute; reflexivity. Qed.
Lemma vlen_polar n x y : dot n x y = ((vlen n (fun k => x k + y k) * vlen n (fun k => x k + y k) - vlen n x * vlen n x - vlen n y * vlen n y) / 2)%R.
Proof.
  rewrite !vlen_sq. unfold dot. rewrite (Rs_ext 0 n (fun k => (x k + y k) * (x k + y k))%R (fun k => x k * x k + (2 * (x k * y k) + y k * y k))%R) by (intros; ring).
  rewrite !Rs_plus, Rs_scal_l. field.
Qed.
Lemma dot_orth n Q x y : orthogonal n Q -> dot n (mvec n Q x) (mvec n Q y) = dot n x y.
Proof.
  intros H. rewrite !vlen_polar. rewrite (vlen_ext n (fun k => mvec n Q x k + mvec n Q y k)%R (mvec n Q (fun k => x k + y k)%R)).
  - rewrite !vlen_orth by auto. reflexivity.
  - intros i Hi. unfold mvec, dot. rewrite <- Rs_plus. apply Rs_ext. intros. ring.
Qed.
Lemma qr_scale_refuted : exists (x : @RealMatrix E64) (A : Z -> Z -> sf) d Rm (T : Z -> Z -> sf) d1, transposable x /\ MatIs x 2 2 A /\ qr_size 2 /\ nums2 2 2 A /\ qr_of x (@fzero E64) d /\
  qr_R d = Ok (Rm, d1) /\ MatIs Rm 2 2 T /\ nums2 2 2 T /\ (forall k, 0 <= k < 2 -> (Rabs (fR (T k k)) <= powerRZ 2 512)%R) /\ ~ exists Q, qr_backward 2 2 A T Q.
Proof.
  pose proof big_check as C. unfold big_run in C. destruct (@NewQRDecomposition E64 (fmat exB)) as [d|e|e] eqn:E; [|discriminate C|discriminate C].
  assert (Hd : qr_of (fmat exB) (@fzero E64) d) by (exists d; split; [right; auto|constructor]).
  assert (Ht : transposable (fmat exB)) by (left; exact I). assert (Hs : qr_size 2) by (unfold qr_size; pose proof ulp2_le; change (IZR (2 + 4)) with 6%R; lra).
  destruct (qr_sf_backward c_amd64 (fmat exB) 2 2 (fent exB) (@fzero E64) d Ht (fmat2_is _ _ _ _) ltac:(lia) ltac:(lia) Hs exB_num Hd) as (Rm & Qm & T & Qf & d1 & d2 & ER & _ & HR & _ & _).
  change (@qr_R (SFOps c_amd64) d) with (@qr_R E64 d) in ER. rewrite ER in C.
  apply andb_prop in C. destruct C as [C1 C]. apply andb_prop in C. destruct C as [C2 C]. apply andb_prop in C. destruct C as [C3 C]. apply andb_prop in C. destruct C as [C4 C5].
  rewrite (at_p_ok _ _ _ _ _ 0 0 HR ltac:(lia) ltac:(lia)) in C2. rewrite (at_p_ok _ _ _ _ _ 0 1 HR ltac:(lia) ltac:(lia)) in C3. rewrite (at_p_ok _ _ _ _ _ 1 0 HR ltac:(lia) ltac:(lia)) in C4. rewrite (at_p_ok _ _ _ _ _ 1 1 HR ltac:(lia) ltac:(lia)) in C5.
  apply sf_eqb_ok in C2, C3, C4, C5. symmetry in C2, C3, C4, C5.
  set (c := (15 * b2 508)%R). assert (Pc : (1000 <= c)%R). { unfold c. pose proof (bpow_le radix2 10 508 ltac:(lia)). change (b2 10) with 1024%R in *. lra. }
  assert (Ec : fR big_t = (- c)%R).
  { unfold big_t, c. cbn [fR]. rewrite pz. replace (b2 508) with (b2 49 * b2 459)%R by (rewrite <- bpow_plus; reflexivity). change (b2 49) with (IZR (2 ^ 49)). change (Z.neg 8444249301319680) with (- (15 * 2 ^ 49)). rewrite opp_IZR, mult_IZR. ring. }
  exists (fmat exB), (fent exB), d, Rm, T, d1. split; [auto|]. split; [apply fmat2_is|]. split; [auto|]. split; [apply exB_num|]. split; [auto|]. split; [auto|]. split; [auto|]. split; [exact (ats_nums _ 2 2 _ C1 HR)|]. split.
  - intros k Hk. assert (k = 0 \/ k = 1) as [-> | ->] by lia; [rewrite C2, Ec, Rabs_Ropp, Rabs_pos_eq by lra|rewrite C5; change (fR sf_zero) with 0%R; rewrite Rabs_R0; left; apply powerRZ_lt; lra].
    rewrite pz. unfold c. replace (b2 512) with (b2 4 * b2 508)%R by (rewrite <- bpow_plus; reflexivity). change (b2 4) with 16%R. pose proof (bpow_gt_0 radix2 508). lra.
  - intros (Q & HQ & HB).
    assert (A00 : fR (fent exB 0 0) = c).
    { replace (fent exB 0 0) with (SFopp big_t) by (vm_compute; reflexivity). rewrite opp_ok, Ec. ring. }
    assert (A01 : fR (fent exB 0 1) = 1%R) by apply fR_one. assert (A10 : fR (fent exB 1 0) = 0%R) by reflexivity. assert (A11 : fR (fent exB 1 1) = 0%R) by reflexivity.
    pose proof (HB 0 ltac:(lia)) as B0. pose proof (HB 1 ltac:(lia)) as B1. change (len2 2) with (vlen 2) in *. change (Z.min 2 2) with 2 in *.
    pose proof (qr_bounds 2 2 ltac:(lia) ltac:(lia)) as B. change (IZR (2 + 4)) with 6%R in B. pose proof ulp2_le as Pu. pose proof small_537 as P5. specialize (B ltac:(lra)). destruct B as [[R0 R1] [S0 S1]].
    assert (R2 : (qr_rel 2 2 <= / 10)%R) by lra. assert (S2 : (qr_abs 2 2 <= / 10)%R) by lra. clear R1 S1.
    set (a0 := fun i => fR (fent exB i 0)) in *. set (a1 := fun i => fR (fent exB i 1)) in *. set (t0 := fun t => fR (T t 0)). set (t1 := fun t => fR (T t 1)).
    change (vlen 2 (fun i => a0 i - mvec 2 Q t0 i)%R <= qr_rel 2 2 * vlen 2 a0 + qr_abs 2 2)%R in B0. change (vlen 2 (fun i => a1 i - mvec 2 Q t1 i)%R <= qr_rel 2 2 * vlen 2 a1 + qr_abs 2 2)%R in B1.
    assert (L0 : vlen 2 a0 = c). { unfold vlen, dot, a0. rewrite Rs_2, A00, A10. rewrite Rmult_0_r, Rplus_0_r. apply sqrt_square. lra. }
    assert (L1 : vlen 2 a1 = 1%R). { unfold vlen, dot, a1. rewrite Rs_2, A01, A11. rewrite Rmult_0_r, Rplus_0_r, Rmult_1_r. apply sqrt_1. }
    assert (M0 : vlen 2 t0 = c). { unfold vlen, dot, t0. rewrite Rs_2, C2, C4, Ec. change (fR sf_zero) with 0%R. rewrite Rmult_0_r, Rplus_0_r, Rmult_opp_opp. apply sqrt_square. lra. }
    rewrite L0 in B0. rewrite L1 in B1.
    assert (D1 : dot 2 a0 a1 = c) by (unfold dot, a0, a1; rewrite Rs_2, A00, A01, A10, A11; ring).
    assert (D2 : dot 2 (mvec 2 Q t0) (mvec 2 Q t1) = (- c)%R). { rewrite dot_orth by auto. unfold dot, t0, t1. rewrite Rs_2, C2, C3, C4, C5, Ec, fR_one. change (fR sf_zero) with 0%R. ring. }
    assert (D3 : (dot 2 a0 a1 - dot 2 (mvec 2 Q t0) (mvec 2 Q t1) = dot 2 (fun i => a0 i - mvec 2 Q t0 i) a1 + dot 2 (mvec 2 Q t0) (fun i => a1 i - mvec 2 Q t1 i))%R).
    { unfold dot. unfold Rminus at 1. rewrite <- Rs_opp, <- !Rs_plus. apply Rs_ext. intros. ring. }
    pose proof (vlen_dot 2 (fun i => a0 i - mvec 2 Q t0 i)%R a1) as V1. pose proof (vlen_dot 2 (mvec 2 Q t0) (fun i => a1 i - mvec 2 Q t1 i)%R) as V2. rewrite vlen_orth, M0 in V2 by auto. rewrite L1, Rmult_1_r in V1.
    apply abs_in in V1. apply abs_in in V2. rewrite D1, D2 in D3. set (u0 := vlen 2 (fun i => a0 i - mvec 2 Q t0 i)%R) in *. set (u1 := vlen 2 (fun i => a1 i - mvec 2 Q t1 i)%R) in *.
    assert (qr_rel 2 2 * c <= / 10 * c)%R by (apply Rmult_le_compat_r; lra). assert (c * u1 <= c * (2 / 10))%R by (apply Rmult_le_compat_l; lra). lra.
Qed.

(** The statements about the singular value decomposition over the reals. *)
From Coq Require Import Reals ZArith QArith List Lia Lra Bool.
From Verif Require Import Base BaseLemmas Wpe Scalar Vector VecSpec VectorFacts Matrix MatSpec MatFacts Array2D BlockM Diagonal DiagSpec DiagFacts RealMatrixM Array2DFacts MatrixOps RealMat TabTac FSum RealOps RSum Tri House QR QRSpec QRFacts QRReal QRReal2 CholFacts HessReal Frob Schur EigenFacts SchurReal SVD SVDSpec SVDSpecR SVDFacts SVDFacts2 SVDFacts3 SVDFacts4 SVDReal SVDReal2 SVDReal3 SVDReal4 SVDReal5 SVDOrder SVDReal6 SVDPinv SVDTerm SVDProps BidiagFacts.
Import ListNotations.
Open Scope Z_scope.
#[local] Existing Instance ROps.

Lemma tinyR_val : tinyR = (/ 2 ^ 966)%R.
Proof. unfold tinyR, tiny_svd. cbn [flit ROps]. unfold Q2R. cbn [Qnum Qden]. rewrite pow_IZR. replace (Zpos (2 ^ 966)) with (2 ^ Z.of_nat 966) by (vm_compute; reflexivity). lra. Qed.
Lemma epsR_val : (2 * epsR = / 2 ^ 51)%R.
Proof. unfold epsR, eps_svd. cbn [flit ROps]. unfold Q2R. cbn [Qnum Qden]. rewrite pow_IZR. replace (Zpos (2 ^ 52)) with (2 * 2 ^ Z.of_nat 51) by (vm_compute; reflexivity). rewrite mult_IZR. field. apply IZR_neq. vm_compute. discriminate. Qed.

Lemma orthcols_oc r q U : orthcols r q U -> orthonormal_columns r q U.
Proof. intros H a b Ha Hb. rewrite (H a b Ha Hb). reflexivity. Qed.
(** All that is known of a decomposition of x. *)
Lemma sv_real (x : @RealMatrix ROps) r c A d : library x -> MatIs x r c A -> 1 <= r -> 1 <= c -> svd_of x d ->
  exists U S V, sv_ok r c S U V (svd_threshold (Z.max r c) (S 0)) d /\ orthonormal_columns r (Z.min r c) U /\ orthonormal_columns c (Z.min r c) V /\
    (r <= c -> orthogonal r U) /\ (c <= r -> orthogonal c V) /\
    (frob r c (fun i j => A i j - recompose (Z.min r c) U S V i j) <= svd_bound (Z.min r c) (frob r c A))%R /\
    (forall i, 0 <= i < Z.min r c -> (0 <= S i)%R) /\ (forall i j, 0 <= i <= j -> j < Z.min r c -> (S j <= S i)%R).
Proof.
  intros Hl Hx Hr Hc H. destruct (svd_of_ok x r c A d Hl Hx Hr Hc H) as (y & R & Ep & K). destruct (sv_shape r c A y Hr Hc R Ep) as (H1 & H2 & H3 & H4 & H5 & H6 & H7).
  exists (sv_tabU r c y), (t_S y), (sv_tabV r c y). split; [exact K|]. split; [apply orthcols_oc; auto|]. split; [apply orthcols_oc; auto|]. split; [auto|]. split; [auto|]. split; [|auto].
  unfold svd_bound. rewrite <- tinyR_val, <- epsR_val. exact H5.
Qed.
Lemma sv_C45 (x : @RealMatrix ROps) r c A d : library x -> MatIs x r c A -> 1 <= r -> 1 <= c -> svd_of x d ->
  exists U S V, svd_tables r c d U S V /\ orthonormal_columns r (Z.min r c) U /\ orthonormal_columns c (Z.min r c) V /\
    (r <= c -> orthogonal r U) /\ (c <= r -> orthogonal c V) /\
    (forall i, 0 <= i < Z.min r c -> (0 <= S i)%R) /\ (forall i j, 0 <= i <= j -> j < Z.min r c -> (S j <= S i)%R).
Proof.
  intros Hl Hx Hr Hc H. destruct (sv_real x r c A d Hl Hx Hr Hc H) as (U & S & V & K & H1 & H2 & H3 & H4 & _ & H5 & H6). exists U, S, V. split; [eapply sv_ok_tables; eauto|]. auto 8.
Qed.
Lemma sv_factor (x : @RealMatrix ROps) r c A d : library x -> MatIs x r c A -> 1 <= r -> 1 <= c -> svd_of x d ->
  exists U S V, svd_tables r c d U S V /\ orthonormal_columns r (Z.min r c) U /\ orthonormal_columns c (Z.min r c) V /\
    (frob r c (fun i j => A i j - recompose (Z.min r c) U S V i j) <= svd_bound (Z.min r c) (frob r c A))%R.
Proof.
  intros Hl Hx Hr Hc H. destruct (sv_real x r c A d Hl Hx Hr Hc H) as (U & S & V & K & H1 & H2 & _ & _ & H3 & _). exists U, S, V. split; [eapply sv_ok_tables; eauto|]. auto.
Qed.
(** Norm and condition numbers. *)
Lemma sv_norm (x : @RealMatrix ROps) r c A d : library x -> MatIs x r c A -> 1 <= r -> 1 <= c -> svd_of x d ->
  exists s1, sv_Norm d = Ok s1 /\ (forall v, (enorm r (mvec c A v) <= (s1 + svd_bound (Z.min r c) (frob r c A)) * enorm c v)%R) /\
    (exists v, enorm c v = 1%R /\ (s1 - svd_bound (Z.min r c) (frob r c A) <= enorm r (mvec c A v))%R).
Proof.
  intros Hl Hx Hr Hc H. destruct (sv_real x r c A d Hl Hx Hr Hc H) as (U & S & V & K & H1 & H2 & _ & _ & H3 & H4 & H5). exists (S 0). split; [apply (sv_Norm_ok r c _ _ _ _ Hr Hc d K)|].
  destruct (svd_opnorm r c (Z.min r c) U S V ltac:(lia) H1 H2) as (G1 & G2 & G3). { intros k Hk. split; [auto|]. apply H5; lia. }
  split; [apply (opnorm_near r c A _ _ _ H3 G1)|]. exists (fun i => V i 0). split; [exact G2|]. apply (opnorm_near2 r c A _ _ _ _ H3 G2 G3).
Qed.
Lemma mvec_swap n A x i : mvec n A x i = Rs 0 n (fun k => x k * A i k)%R.
Proof. apply Rs_ext. intros. ring. Qed.
(** The smallest singular value of a matrix with no more columns than rows. *)
Lemma sv_low (x : @RealMatrix ROps) r c A d : library x -> MatIs x r c A -> 1 <= c -> c <= r -> svd_of x d ->
  exists s1 sn, sv_Norm d = Ok s1 /\ sv_ConditionNumber d = Ok (s1 / sn)%R /\ sv_InverseConditionNumber d = Ok (sn / s1)%R /\
    (forall v, ((sn - svd_bound c (frob r c A)) * enorm c v <= enorm r (mvec c A v))%R) /\
    (exists v, enorm c v = 1%R /\ (enorm r (mvec c A v) <= sn + svd_bound c (frob r c A))%R).
Proof.
  intros Hl Hx Hc Hcr H. destruct (sv_real x r c A d Hl Hx ltac:(lia) Hc H) as (U & S & V & K & H1 & H2 & _ & HV & H3 & H4 & H5). replace (Z.min r c) with c in * by lia. specialize (HV Hcr).
  destruct (sv_Norm_ok r c _ _ _ _ ltac:(lia) Hc d K) as (N1 & N2 & N3). replace (Z.min r c) with c in * by lia. exists (S 0), (S (c - 1)). split; [auto|]. split; [auto|]. split; [auto|].
  assert (P : forall v, enorm r (mvec c (recompose c U S V) v) = enorm c (fun k => S k * mvec c (trm V) v k)%R).
  { intros v. rewrite <- (isometry r c U _ H1). apply enorm_ext. intros i Hi. apply recompose_mvec. }
  assert (Q : forall v, enorm c (mvec c (trm V) v) = enorm c v).
  { intros v. apply (isometry c c (trm V) v). intros a b Ha Hb. destruct HV as [_ HV]. specialize (HV a b Ha Hb). unfold mmul, trm, idm in *. exact HV. }
  set (B := recompose c U S V) in *. set (dl := svd_bound c (frob r c A)) in *.
  split.
  - intros v. assert (L : (S (c - 1)%Z * enorm c v <= enorm r (mvec c B v))%R).
    { rewrite P, <- Q. destruct (Rle_lt_or_eq_dec _ _ (H4 (c - 1) ltac:(lia))) as [Hp|Hp]; [|rewrite <- Hp, Rmult_0_l; apply enorm_nonneg].
      assert (Hi : (enorm c (mvec c (trm V) v) <= / S (c - 1)%Z * enorm c (fun k => S k * mvec c (trm V) v k))%R).
      { apply enorm_scale; [left; apply Rinv_0_lt_compat; auto|]. intros i Hi. rewrite Rabs_mult. pose proof (H5 i (c - 1) ltac:(lia) ltac:(lia)). rewrite (Rabs_right (S i)) by lra.
        rewrite <- Rmult_assoc. rewrite <- (Rmult_1_l (Rabs (mvec c (trm V) v i))) at 1. apply Rmult_le_compat_r; [apply Rabs_pos|]. apply (Rmult_le_reg_l (S (c - 1)%Z)); auto. rewrite <- Rmult_assoc, Rinv_r by lra. lra. }
      apply (Rmult_le_compat_l (S (c - 1)%Z)) in Hi; [|lra]. rewrite <- Rmult_assoc, Rinv_r, Rmult_1_l in Hi by lra. exact Hi. }
    assert (enorm r (mvec c B v) <= enorm r (mvec c A v) + dl * enorm c v)%R.
    { rewrite (enorm_ext r (mvec c B v) (fun i => mvec c A v i + - mvec c (fun i j => A i j - B i j) v i)%R) by (intros; rewrite (mvec_sub c A B v i); ring).
      eapply Rle_trans; [apply enorm_tri|]. rewrite enorm_opp. pose proof (frob_op r c (fun i j => A i j - B i j)%R v). pose proof (enorm_nonneg c v). nra. }
    lra.
  - exists (fun i => V i (c - 1)). assert (E1 : enorm c (fun i => V i (c - 1)) = 1%R). { unfold enorm. rewrite H2 by lia. rewrite Z.eqb_refl. apply sqrt_1. } split; [exact E1|].
    assert (E2 : enorm r (mvec c B (fun i => V i (c - 1))) = S (c - 1)).
    { rewrite P. rewrite (enorm_ext c _ (fun k => S (c - 1)%Z * (if k =? c - 1 then 1 else 0))%R).
      - unfold enorm. rewrite (Rs_pick 0 c (c - 1)); [|lia|intros k Hk Hne; destruct (Z.eqb_spec k (c - 1)); [lia|ring]]. rewrite Z.eqb_refl, Rmult_1_r. apply sqrt_square. apply H4. lia.
      - intros k Hk. unfold mvec, trm. rewrite H2 by lia. destruct (Z.eqb_spec k (c - 1)) as [->|]; ring. }
    rewrite (enorm_ext r _ (fun i => mvec c B (fun i => V i (c - 1)%Z) i + mvec c (fun i j => A i j - B i j) (fun i => V i (c - 1)%Z) i)%R) by (intros; apply mvec_sub).
    eapply Rle_trans; [apply enorm_tri|]. rewrite E2. pose proof (frob_op r c (fun i j => A i j - B i j)%R (fun i => V i (c - 1)%Z)) as F0. rewrite E1 in F0. lra.
Qed.

(** The solver. *)
Lemma msum_Rr (a b : @RealMatrix ROps) n g : 1 <= n -> msum a b n g = Rs 0 n g.
Proof. intros H. unfold msum. destruct a, b; try apply fsum_Rs; try apply bsum4_Rs; try apply bsumf_Rs; auto. Qed.
Lemma thr_pos m s1 : (0 < svd_threshold (O := ROps) m s1)%R.
Proof.
  unfold svd_threshold. cbn [fmax ROps]. eapply Rlt_le_trans; [|apply Rmax_r]. cbn [fsqrt ROps flit]. apply sqrt_lt_R0. unfold Q2R. cbn [Qnum Qden]. apply Rmult_lt_0_compat; [lra|]. apply Rinv_0_lt_compat. apply IZR_lt. lia.
Qed.
Lemma frob_ext r c A B : (forall i j, 0 <= i < r -> 0 <= j < c -> A i j = B i j) -> frob r c A = frob r c B.
Proof. intros H. unfold frob. f_equal. apply Rs_ext. intros i Hi. apply Rs_ext. intros j Hj. rewrite H by auto. auto. Qed.
Lemma sv_pinv (x : @RealMatrix ROps) r c A d : library x -> MatIs x r c A -> 1 <= r -> 1 <= c -> svd_of x d ->
  exists s1 pm d' X B, sv_Norm d = Ok s1 /\ sv_Solver d = Ok (pm, d') /\ general pm /\ MatIs pm c r X /\ pseudo_inverse r c B X /\
    (frob r c (fun i j => A i j - B i j) <= svd_bound (Z.min r c) (frob r c A) + IZR (Z.min r c) * svd_threshold (Z.max r c) s1)%R /\
    (sv_Rank d = Ok (Z.min r c) -> (frob r c (fun i j => A i j - B i j) <= svd_bound (Z.min r c) (frob r c A))%R).
Proof.
  intros Hl Hx Hr Hc H. destruct (sv_real x r c A d Hl Hx Hr Hc H) as (U & S & V & K & H1 & H2 & _ & _ & H3 & H4 & H5). set (n := Z.min r c) in *. set (tol := svd_threshold (Z.max r c) (S 0)) in *.
  pose proof (thr_pos (Z.max r c) (S 0)) as Hp. fold tol in Hp. destruct (sv_Solver_ok r c _ _ _ _ Hr Hc d K) as ([pm d'] & E & G & (m1 & m2 & M) & _). cbn [fst snd] in *.
  set (T := fun k => if Rltb tol (S k) then (/ S k)%R else 0%R). set (S' := fun k => if Rltb tol (S k) then S k else 0%R).
  exists (S 0), pm, d', (recompose n V T U), (recompose n U S' V). split; [apply (sv_Norm_ok r c _ _ _ _ Hr Hc d K)|]. split; [exact E|]. split; [exact G|].
  split. { eapply MatIs_ext; [exact M|]. intros i j Hi Hj. cbn beta. fold n. rewrite msum_Rr by lia. apply Rs_ext. intros k Hk. unfold sv_inv1, T, fgt. rops. fold tol. destruct (Rltb tol (S k)); [unfold Rdiv|]; ring. }
  split. { apply svd_pinv; auto. intros k Hk. unfold S', T. destruct (Rltb tol (S k)) eqn:L; [apply Rltb_true in L|]; split; try ring; field; lra. }
  assert (D : forall i j, (recompose n U S V i j - recompose n U S' V i j)%R = recompose n U (fun k => S k - S' k)%R V i j).
  { intros i j. unfold recompose. rewrite <- Rs_minus. apply Rs_ext. intros. ring. }
  assert (FT : (frob r c (fun i j => A i j - recompose n U S' V i j) <= svd_bound n (frob r c A) + enorm n (fun k => S k - S' k))%R).
  { rewrite (frob_ext r c _ (fun i j => (A i j - recompose n U S V i j) + recompose n U (fun k => S k - S' k) V i j)%R) by (intros; rewrite <- D; ring).
    eapply Rle_trans; [apply frob_tri|]. rewrite (frob_recompose r c n U _ V H1 H2). apply Rplus_le_compat; [exact H3|apply Rle_refl]. }
  split.
  - eapply Rle_trans; [exact FT|]. apply Rplus_le_compat_l. apply enorm_sum; [left; exact Hp|lia|]. intros k Hk. unfold S'. destruct (Rltb tol (S k)) eqn:L.
    + rewrite Rminus_diag_eq by auto. rewrite Rabs_R0. left. exact Hp.
    + apply Rltb_false in L. rewrite Rminus_0_r. rewrite Rabs_right by (apply Rle_ge, H4; auto). exact L.
  - intros Rk. rewrite (sv_Rank_ok r c _ _ _ _ Hr Hc d K) in Rk. assert (Rk' : sv_count (fun i => Rltb tol (S i)) n = n) by (injection Rk; intros Rk'; exact Rk'). pose proof (proj1 (count_all (fun i => Rltb tol (S i)) n ltac:(lia)) Rk') as Rk2. cbn beta in Rk2.
    eapply Rle_trans; [exact FT|]. rewrite (enorm_ext n _ (fun _ => 0%R)).
    + unfold enorm. rewrite (Rs_zero 0 n) by (intros; ring). rewrite sqrt_0. lra.
    + intros k Hk. unfold S'. rewrite (Rk2 k Hk). ring.
Qed.

Lemma sv_solve (x : @RealMatrix ROps) r c A d pm d' : library x -> MatIs x r c A -> 1 <= r -> 1 <= c -> svd_of x d -> sv_Solver d = Ok (pm, d') ->
  exists X B s1, MatIs (svs_Inverse pm) c r X /\ pseudo_inverse r c B X /\ sv_Norm d = Ok s1 /\
    (forall b g, VecIs (VArr b) r g -> exists w, svs_SolveVector pm (VArr b) = Ok (VArr w) /\ VecIs (VArr w) c (mvec r X g)) /\
    (forall m k g, MatIs m r k g -> 1 <= k -> exists y, svs_SolveMatrix pm m = Ok y /\ MatIs y c k (mmul r X g)) /\
    (forall g y, let w := mvec r X g in
      (enorm r (fun i => mvec c B w i - g i) <= enorm r (fun i => mvec c B y i - g i))%R /\
      (enorm r (fun i => mvec c B w i - g i) = enorm r (fun i => mvec c B y i - g i) -> enorm c w <= enorm c y)%R) /\
    (frob r c (fun i j => A i j - B i j) <= svd_bound (Z.min r c) (frob r c A) + IZR (Z.min r c) * svd_threshold (Z.max r c) s1)%R /\
    (sv_Rank d = Ok (Z.min r c) -> (frob r c (fun i j => A i j - B i j) <= svd_bound (Z.min r c) (frob r c A))%R).
Proof.
  intros Hl Hx Hr Hc H E. destruct (sv_pinv x r c A d Hl Hx Hr Hc H) as (s1 & pm' & d'' & X & B & H1 & E' & G & M & P & F1 & F2). rewrite E in E'. inversion E'. subst pm' d''. clear E'.
  exists X, B, s1. split; [exact M|]. split; [exact P|]. split; [exact H1|]. split; [|split; [|split; [|split; [exact F1|exact F2]]]].
  - intros b g Hb. unfold svs_SolveVector. destruct (m_Operate_ok pm c r X b g G M Hb) as (w & Ew & Hw). exists w.
    split; [destruct pm; try contradiction; cbn [m_Operate m_OperateVector] in *; unfold a2_OperateVector, b_OperateVector; rewrite Ew; reflexivity|].
    eapply VecIs_ext; [exact Hw|]. intros i Hi. destruct pm; try contradiction; cbn beta iota; [apply fsum_Rs|apply bsum4_Rs; lia].
  - intros m k g Hm Hk. unfold svs_SolveMatrix. destruct (m_Multiply_ok pm m c r k X g G M Hm Hk) as (y & -> & _ & Hy). exists y. split; auto. eapply MatIs_ext; [exact Hy|]. intros i j Hi Hj. cbn beta. apply msum_Rr. lia.
  - intros g y w. split.
    + unfold enorm. apply sqrt_le_1_alt. exact (ls_min r c B X P g y).
    + intros Eq. unfold enorm. apply sqrt_le_1_alt. apply (ls_norm r c B X P g y). unfold dist2. 
      apply (f_equal (fun t => t * t)%R) in Eq. rewrite !enorm_sq in Eq. symmetry. exact Eq.
Qed.
(** The solution in terms of A. *)
Lemma sv_lsq r c A B X e : pseudo_inverse r c B X -> (frob r c (fun i j => A i j - B i j) <= e)%R -> forall g y, let w := mvec r X g in
  (enorm r (fun i => mvec c A w i - g i) <= enorm r (fun i => mvec c A y i - g i) + e * (enorm c w + enorm c y))%R.
Proof.
  intros P He g y w. assert (M : (enorm r (fun i => mvec c B w i - g i) <= enorm r (fun i => mvec c B y i - g i))%R) by (unfold enorm; apply sqrt_le_1_alt; exact (ls_min r c B X P g y)).
  assert (N : forall v, (enorm r (mvec c (fun i j => A i j - B i j) v) <= e * enorm c v)%R). { intros v. eapply Rle_trans; [apply frob_op|]. apply Rmult_le_compat_r; [apply enorm_nonneg|auto]. }
  assert (L1 : (enorm r (fun i => mvec c A w i - g i) <= enorm r (fun i => mvec c B w i - g i) + e * enorm c w)%R).
  { rewrite (enorm_ext r (fun i => mvec c A w i - g i)%R (fun i => (mvec c B w i - g i) + mvec c (fun i j => A i j - B i j) w i)%R) by (intros; rewrite (mvec_sub c A B w i); ring). eapply Rle_trans; [apply enorm_tri|]. specialize (N w). lra. }
  assert (L2 : (enorm r (fun i => mvec c B y i - g i) <= enorm r (fun i => mvec c A y i - g i) + e * enorm c y)%R).
  { rewrite (enorm_ext r (fun i => mvec c B y i - g i)%R (fun i => (mvec c A y i - g i) + - mvec c (fun i j => A i j - B i j) y i)%R) by (intros; rewrite (mvec_sub c A B y i); ring). eapply Rle_trans; [apply enorm_tri|]. rewrite enorm_opp. specialize (N y). lra. }
  lra.
Qed.

(** Covariance of a matrix with no more columns than rows. *)
Lemma sv_cov_inv (x : @RealMatrix ROps) r c A d min : library x -> MatIs x r c A -> 1 <= c -> c <= r -> svd_of x d -> (0 < min)%R ->
  (forall s, In s (sv_SingularValues d) -> (min <= s)%R) ->
  exists m d' C B, sv_Covariance d min = Ok (m, d') /\ MatIs m c c C /\ meq c c (mmul c C (mmul r (trm B) B)) idm /\ meq c c (mmul c (mmul r (trm B) B) C) idm /\
    (frob r c (fun i j => A i j - B i j) <= svd_bound c (frob r c A))%R.
Proof.
  intros Hl Hx Hc Hcr H Hmin Hall. destruct (sv_real x r c A d Hl Hx ltac:(lia) Hc H) as (U & S & V & K & H1 & H2 & _ & HV & H3 & H4 & H5).
  destruct (sv_Covariance_ok r c _ _ _ _ ltac:(lia) Hc d min K) as (k & (K1 & K2 & K3) & _ & K4). replace (Z.min r c) with c in * by lia. specialize (HV Hcr).
  assert (HS : forall i, 0 <= i < c -> (min <= S i)%R).
  { intros i Hi. destruct K as ([L1 L2] & _). replace (Z.min r c) with c in * by lia. rewrite <- L2 by auto. apply Hall. unfold sv_SingularValues, nthZ. apply nth_In. unfold len in L1. lia. }
  assert (k = c). { destruct (Z.eq_dec k c); auto. specialize (K3 ltac:(lia)). apply Rleb_false in K3. specialize (HS k ltac:(lia)). lra. } subst k.
  destruct (K4 Hc) as ([m d'] & E & _ & M & _). cbn [fst snd] in *. exists m, d', (recompose c V (fun t => / S t * / S t)%R V), (recompose c U S V). split; [exact E|].
  split. { eapply MatIs_ext; [exact M|]. intros i j Hi Hj. cbn beta. rewrite fsum_Rs. apply Rs_ext. intros t Ht. rops. unfold Rdiv. ring. }
  assert (EB : forall i j, mmul r (trm (recompose c U S V)) (recompose c U S V) i j = recompose c V (fun t => S t * S t)%R V i j).
  { intros i j. rewrite <- (recompose_mul c r V S U S V i j H1). unfold mmul. apply Rs_ext. intros t Ht. rewrite recompose_tr. auto. }
  assert (EI : forall i j, 0 <= i < c -> 0 <= j < c -> recompose c V (fun _ => 1%R) V i j = idm i j).
  { intros i j Hi Hj. destruct HV as [_ HV]. rewrite <- (HV i j Hi Hj). unfold recompose, mmul, trm. apply Rs_ext. intros. ring. }
  split; [|split; [|exact H3]]; intros i j Hi Hj.
  - rewrite (mmul_ext2 c _ (recompose c V (fun t => / S t * / S t)%R V) _ (recompose c V (fun t => S t * S t)%R V)) by (intros; auto). rewrite recompose_mul by auto. rewrite <- EI by auto. apply recompose_ext. intros t Ht. specialize (HS t Ht). field. lra.
  - rewrite (mmul_ext2 c _ (recompose c V (fun t => S t * S t)%R V) _ (recompose c V (fun t => / S t * / S t)%R V)) by (intros; auto). rewrite recompose_mul by auto. rewrite <- EI by auto. apply recompose_ext. intros t Ht. specialize (HS t Ht). field. lra.
Qed.

(** Each singular value is the stretch of a unit vector. *)
Lemma sv_each (x : @RealMatrix ROps) r c A d : library x -> MatIs x r c A -> 1 <= r -> 1 <= c -> svd_of x d ->
  forall s, In s (sv_SingularValues d) -> exists v, enorm c v = 1%R /\ (Rabs (enorm r (mvec c A v) - s) <= svd_bound (Z.min r c) (frob r c A))%R.
Proof.
  intros Hl Hx Hr Hc H s Hs. destruct (sv_real x r c A d Hl Hx Hr Hc H) as (U & S & V & K & H1 & H2 & _ & _ & H3 & H4 & H5). set (n := Z.min r c) in *.
  assert (exists k, 0 <= k < n /\ s = S k) as (k & Hk & ->).
  { destruct K as ([L1 L2] & _). apply (In_nth _ _ (@fzero ROps)) in Hs. destruct Hs as (k & Hk & <-). exists (Z.of_nat k). unfold sv_SingularValues in *. split; [unfold len in L1; lia|]. rewrite <- L2 by (unfold len in L1; lia). unfold nthZ. rewrite Nat2Z.id. auto. }
  exists (fun i => V i k). assert (E1 : enorm c (fun i => V i k) = 1%R). { unfold enorm. rewrite H2 by auto. rewrite Z.eqb_refl. apply sqrt_1. } split; [exact E1|].
  set (B := recompose n U S V) in *. assert (E2 : enorm r (mvec c B (fun i => V i k)) = S k).
  { rewrite (enorm_ext r _ (mvec n U (fun l => S l * mvec c (trm V) (fun i => V i k) l)%R)) by (intros; apply recompose_mvec). rewrite (isometry r n U _ H1).
    rewrite (enorm_ext n _ (fun l => S k * (if l =? k then 1 else 0))%R).
    - unfold enorm. rewrite (Rs_pick 0 n k); [|lia|intros l Hl' Hne; destruct (Z.eqb_spec l k); [lia|ring]]. rewrite Z.eqb_refl, Rmult_1_r. apply sqrt_square. auto.
    - intros l Hl'. unfold mvec, trm. rewrite H2 by auto. destruct (Z.eqb_spec l k) as [->|]; ring. }
  pose proof (opnorm_near2 r c A B _ _ _ H3 E1 E2) as L1.
  assert (L2 : (enorm r (mvec c A (fun i => V i k)) <= S k + svd_bound n (frob r c A))%R).
  { rewrite (enorm_ext r _ (fun i => mvec c B (fun i => V i k) i + mvec c (fun i j => A i j - B i j) (fun i => V i k) i)%R) by (intros; apply mvec_sub).
    eapply Rle_trans; [apply enorm_tri|]. rewrite E2. pose proof (frob_op r c (fun i j => A i j - B i j)%R (fun i => V i k)) as F0. rewrite E1 in F0. change (frob r c (fun i j => A i j - B i j)%R <= svd_bound n (frob r c A))%R in H3. apply Rplus_le_compat_l. lra. }
  apply Rabs_le. split; lra.
Qed.
(** A concrete case: twice the identity above a zero row, in exact arithmetic. *)
Lemma sv_each_iso (x : @RealMatrix ROps) r c A d a : library x -> MatIs x r c A -> 1 <= r -> 1 <= c -> svd_of x d -> (forall v, enorm r (mvec c A v) = a * enorm c v)%R ->
  forall s, In s (sv_SingularValues d) -> (a - svd_bound (Z.min r c) (frob r c A) <= s <= a + svd_bound (Z.min r c) (frob r c A))%R.
Proof.
  intros Hl Hx Hr Hc H Hv s Hs. destruct (sv_each x r c A d Hl Hx Hr Hc H s Hs) as (v & E1 & E2). rewrite Hv, E1, Rmult_1_r in E2. apply Rabs_def2b in E2 || (revert E2; unfold Rabs; destruct (Rcase_abs _); intros). all: lra.
Qed.
Lemma sv_lsq_api (x : @RealMatrix ROps) r c A d : library x -> MatIs x r c A -> 1 <= r -> 1 <= c -> svd_of x d ->
  exists pm d' s1, sv_Solver d = Ok (pm, d') /\ sv_Norm d = Ok s1 /\ forall b g, VecIs (VArr b) r g -> exists l w, svs_SolveVector pm (VArr b) = Ok (VArr l) /\ VecIs (VArr l) c w /\
    forall e, (e = svd_bound (Z.min r c) (frob r c A) + IZR (Z.min r c) * svd_threshold (Z.max r c) s1 \/ (sv_Rank d = Ok (Z.min r c) /\ e = svd_bound (Z.min r c) (frob r c A)))%R ->
    forall y, (enorm r (fun i => mvec c A w i - g i) <= enorm r (fun i => mvec c A y i - g i) + e * (enorm c w + enorm c y))%R.
Proof.
  intros Hl Hx Hr Hc H. destruct (sv_pinv x r c A d Hl Hx Hr Hc H) as (_ & pm & d' & _ & _ & _ & E & _).
  destruct (sv_solve x r c A d pm d' Hl Hx Hr Hc H E) as (X & B & s1 & M & P & N & SV & _ & _ & F1 & F2). exists pm, d', s1. split; [auto|]. split; [auto|].
  intros b g Hb. destruct (SV b g Hb) as (l & El & Hw). exists l, (mvec r X g). split; [auto|]. split; [auto|]. intros e He y. apply (sv_lsq r c A B X e P). destruct He as [->|[Rk ->]]; auto.
Qed.

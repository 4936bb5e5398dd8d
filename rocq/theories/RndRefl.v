(** Householder reflections computed in float64: the reflection vector, its
    application to a vector, and to the column it comes from. *)
From Coq Require Import ZArith List Reals Lia Lra Psatz Bool Floats.SpecFloat.
From Flocq.IEEE754 Require Import BinarySingleNaN.
From Flocq Require Import Core Relative Plus_error.
From Verif Require Import Base BaseLemmas Scalar Float64 RealOps RSum House RealVec FSum QRFacts QRReal RndSpec FloatR RndSum RndTri RndHouse.
Open Scope Z_scope.
Arguments bpow : simpl never.
Notation b2 := (bpow radix2).

(** ** Constants *)
Lemma pz e : powerRZ 2 e = b2 e. Proof. rewrite bpow_powerRZ. reflexivity. Qed.
Lemma ulp2_b : ulp2 = b2 (-53). Proof. unfold ulp2. rewrite bpow_powerRZ. reflexivity. Qed.
Lemma tiny_b : tiny = b2 (-1075). Proof. unfold tiny. rewrite bpow_powerRZ. reflexivity. Qed.
Lemma ulp2_1024 : (0 <= ulp2 <= / 1024)%R.
Proof. split; [left; apply ulp2_pos|]. rewrite ulp2_b. change (/ 1024)%R with (b2 (-10)). apply bpow_le. lia. Qed.
Lemma huge_ge : (3 / 2 * b2 1023 <= huge)%R.
Proof.
  unfold huge. rewrite !pz. apply Rmult_le_compat_r; [apply bpow_ge_0|].
  pose proof (bpow_le radix2 (-52) (-1) ltac:(lia)) as H. change (b2 (-1)) with (/ 2)%R in H. lra.
Qed.
(** [n] roundings in a row. *)
Lemma gw_inv n : (INR n * ulp2 <= 1)%R -> (gw n * (1 - INR n * ulp2) <= 1)%R.
Proof.
  pose proof ulp2_pos. induction n as [|n IH]; intros Hn; [unfold gw; cbn; lra|]. rewrite S_INR in *. rewrite gw_S. pose proof (pos_INR n). pose proof (gw_ge1 n).
  specialize (IH ltac:(nra)). apply Rle_trans with (gw n * (1 - INR n * ulp2))%R; auto.
  replace ((1 + ulp2) * gw n * (1 - (INR n + 1) * ulp2))%R with (gw n * (1 - INR n * ulp2 - (INR n + 1) * (ulp2 * ulp2)))%R by ring.
  apply Rmult_le_compat_l; [lra|]. assert (0 <= (INR n + 1) * (ulp2 * ulp2))%R by (apply Rmult_le_pos; nra). lra.
Qed.
Lemma gw_small n : (INR n * ulp2 <= / 1024)%R -> (gw n - 1 <= 1002 / 1000 * (INR n * ulp2))%R.
Proof. intros H. pose proof (gw_inv n ltac:(lra)) as K. pose proof (gw_ge1 n). pose proof (pos_INR n). pose proof ulp2_pos. assert (0 <= INR n * ulp2)%R by nra. nra. Qed.

(** ** Exact and relative roundings *)
Lemma mul_m1 y : num y -> num (sf_mul y (SFopp (sf_of_Z 1))) /\ fR (sf_mul y (SFopp (sf_of_Z 1))) = (- fR y)%R.
Proof.
  intros [Vy Fy]. pose proof (opp_num _ num_one) as [V1 F1]. assert (E1 : fR (SFopp (sf_of_Z 1)) = (-1)%R) by (rewrite opp_ok, fR_one; ring).
  set (o := SFopp (sf_of_Z 1)) in *. clearbody o. bfs. rewrite mul_eq. rewrite of_bf_R in *. rewrite !of_bf_fin in *.
  match goal with |- context [Bmult mode_NE ?a ?b] => rename a into y1; rename b into o1 end.
  pose proof (Bmult_correct 53 1024 Hprec Hmax mode_NE y1 o1) as K. rewrite E1 in K. replace (B2R y1 * -1)%R with (- B2R y1)%R in K by ring.
  rewrite round_generic in K; [|apply valid_rnd_N|apply generic_format_opp, generic_format_B2R].
  rewrite Rlt_bool_true in K by (rewrite Rabs_Ropp; apply abs_B2R_lt_emax). destruct K as (E & Fi & _). split; [split; [apply of_bf_valid|]|].
  - rewrite of_bf_fin, Fi, Fy, F1. auto.
  - rewrite !of_bf_R. exact E.
Qed.
Lemma mul_rel x y : num x -> num y -> isfin (sf_mul x y) = true -> (b2 (-1022) <= Rabs (fR x * fR y))%R -> rel_rnd (fR x * fR y) (fR (sf_mul x y)).
Proof.
  intros [Hx _] [Hy _] H Hb. bfs. rewrite mul_eq in *. rewrite !of_bf_R in *.
  match goal with |- context [Bmult mode_NE ?a ?b] => pose proof (Bmult_correct 53 1024 Hprec Hmax mode_NE a b) as K end. destruct (Rlt_bool _ _).
  - destruct K as (-> & _). apply rnd_rel. exact Hb.
  - rewrite of_bf_fin in H. rewrite <- of_bf_fin, K, overflow_inf in H. discriminate.
Qed.
Lemma sub_add x y : sf_sub x y = sf_add x (SFopp y).
Proof.
  destruct x as [[]|[]| |s m e], y as [[]|[]| |s' m' e']; try reflexivity. unfold sf_sub, sf_add. cbn [SFopp SFsub SFadd]. f_equal.
  unfold Z.sub. f_equal. destruct s'; cbn; auto.
Qed.
Lemma apx_opp d s a t y : apx d s a t y -> apx d (- s) a t (SFopp y).
Proof.
  intros (V & H1 & H2 & H3 & H4). assert (E : isfin (SFopp y) = isfin y) by (destruct y; reflexivity).
  split; [destruct y; exact V|]. rewrite Rabs_Ropp. split; auto. split; auto. rewrite E, opp_ok. split; auto.
  intros F. replace (- fR y - - s)%R with (- (fR y - s))%R by ring. rewrite Rabs_Ropp. auto.
Qed.

Section Refl.
Variable pf : Z.
Notation SO := (SFOps pf).

(** ** Sums over k..m-1 *)
Lemma fadds_apx k m d (g : Z -> sf) (s a t : Z -> R) : k <= m -> (forall i, k <= i < m -> apx d (s i) (a i) (t i) (g i)) ->
  apx (d + Z.to_nat (m - k) - 1) (Rs k m s) (Rs k m a) (Rs k m t) (fadds (O := SO) (sf_zero : @F SO) k m g).
Proof.
  intros Hk H. rewrite <- (Rplus_0_l (Rs k m s)), <- (Rplus_0_l (Rs k m a)), <- (Rplus_0_l (Rs k m t)), <- !fadds_R by auto.
  apply (accum_apx0 d (fun i => g (k + i)) (fun i => s (k + i)) (fun i => a (k + i)) (fun i => t (k + i))). intros i Hi. apply H. lia.
Qed.
Lemma fsubl_adds k m (g : Z -> sf) : fsubl (O := SO) (sf_zero : @F SO) k m g = fadds (O := SO) (sf_zero : @F SO) k m (fun i => SFopp (g i)).
Proof.
  unfold fsubl, fadds. apply TabTac.accum_ext. intros. apply sub_add.
Qed.
Lemma Rs_const k m c : k <= m -> Rs k m (fun _ => c) = (IZR (m - k) * c)%R.
Proof.
  intros H. apply (Rs_ind (fun m => Rs k m (fun _ => c) = (IZR (m - k) * c)%R) k m H).
  - rewrite Rs_nil, Z.sub_diag by lia. ring.
  - intros j Hj E. rewrite Rs_last by lia. rewrite E. replace (j + 1 - k) with (j - k + 1) by lia. rewrite plus_IZR. ring.
Qed.

Variable m : Z.
Definition kap : R := (IZR (m + 4) * ulp2)%R.
Hypothesis Hm : 1 <= m.
Hypothesis Hkap : (kap <= / 1024)%R.
Lemma kap_u : (5 * ulp2 <= kap)%R.
Proof. unfold kap. apply Rmult_le_compat_r; [left; apply ulp2_pos|]. apply IZR_le. lia. Qed.
Lemma m_u N : 0 <= N <= m -> (IZR N * ulp2 <= kap - 4 * ulp2)%R.
Proof. intros H. unfold kap. rewrite plus_IZR. pose proof ulp2_pos. assert (IZR N <= IZR m)%R by (apply IZR_le; lia). nra. Qed.
Lemma gw_kap N : 0 <= N <= m -> (gw (Z.to_nat N) - 1 <= 1002 / 1000 * (kap - 4 * ulp2))%R.
Proof.
  intros H. pose proof (m_u N H) as K. pose proof ulp2_pos. assert (E : INR (Z.to_nat N) = IZR N) by (rewrite INR_IZR_INZ, Z2Nat.id by lia; auto).
  pose proof (gw_small (Z.to_nat N)) as G. rewrite E in G. specialize (G ltac:(lra)). lra.
Qed.
Lemma m_b43 : (IZR m <= b2 43)%R.
Proof.
  pose proof (m_u m ltac:(lia)) as K. pose proof ulp2_pos. apply (Rmult_le_reg_r ulp2); auto. apply Rle_trans with (/ 1024)%R; [lra|].
  right. rewrite ulp2_b, <- bpow_plus. reflexivity.
Qed.

(** ** The sum of squares and its root *)
Section Column.
Variable k : Z.
Hypothesis Hk : 0 <= k < m.
Variable x : Z -> sf.
Hypothesis Nx : forall r, k <= r < m -> num (x r).
Let s : R := Rs k m (fun r => fR (x r) * fR (x r))%R.
Let sh : sf := fadds (O := SO) (sf_zero : @F SO) k m (fun r => sf_mul (x r) (x r)).
Let N := m - k.
Lemma s_nonneg : (0 <= s)%R. Proof. apply Rs_nonneg. intros. nra. Qed.
Lemma s_term : (fR (x k) * fR (x k) <= s)%R.
Proof. apply (Rs_term k m (fun r => fR (x r) * fR (x r))%R k); [lia|]. intros. nra. Qed.
Lemma sh_apx : apx (Z.to_nat N) s s (IZR N * tiny) sh.
Proof.
  pose proof (fadds_apx k m 1 (fun r => sf_mul (x r) (x r)) (fun r => fR (x r) * fR (x r))%R (fun r => fR (x r) * fR (x r))%R (fun _ => tiny) ltac:(lia)) as K.
  rewrite Rs_const in K by lia. replace (1 + Z.to_nat (m - k) - 1)%nat with (Z.to_nat N) in K by (unfold N; lia). apply K. intros. apply apx_sqr. auto.
Qed.
Lemma sh_err : isfin sh = true -> (Rabs (fR sh - s) <= 1002 / 1000 * (kap - 4 * ulp2) * s + 11 / 10 * (IZR N * tiny))%R.
Proof.
  intros F. destruct sh_apx as (_ & _ & _ & H & _). specialize (H F). eapply Rle_trans; [exact H|]. pose proof (gw_kap N ltac:(unfold N; lia)) as G.
  pose proof s_nonneg. pose proof tiny_pos. assert (0 <= IZR N)%R by (apply IZR_le; unfold N; lia). pose proof ulp2_pos.
  apply Rplus_le_compat; [apply Rmult_le_compat_r; lra|]. apply Rmult_le_compat_r; [nra|]. lra.
Qed.
Notation nh := (hh_norm (O := SO) m x k).
Notation a := (hh_a (O := SO) m x k).
Lemma nh_eq : nh = sf_sqrt sh. Proof. reflexivity. Qed.
Lemma sh_valid : sf_valid sh = true. Proof. apply sh_apx. Qed.
Lemma nh_valid : sf_valid nh = true. Proof. rewrite nh_eq. apply sqrt_valid, sh_valid. Qed.
Lemma fgt_ok p q : num p -> num q -> @fgt SO p q = true <-> (fR q < fR p)%R. Proof. intros. apply (ltb_ok q p); auto. Qed.
Lemma a_fin_nh : isfin a = true -> isfin nh = true.
Proof. unfold hh_a. destruct (fgt _ _); auto. intros H. apply (sf_mul_fin _ _ H). Qed.
Lemma a_valid : sf_valid a = true.
Proof. unfold hh_a. destruct (fgt _ _); [|apply nh_valid]. apply mul_valid; [apply nh_valid|]. apply (opp_num _ num_one). Qed.
Lemma sqrt_fin_arg y : sf_valid y = true -> isfin (sf_sqrt y) = true -> isfin y = true.
Proof. destruct y as [|[]| |]; auto; cbn; intros; discriminate. Qed.
Section Fin.
Hypothesis Fa : isfin a = true.
Lemma nh_num : num nh. Proof. split; [apply nh_valid|apply a_fin_nh; auto]. Qed.
Lemma sh_num : num sh. Proof. split; [apply sh_valid|]. apply sqrt_fin_arg; [apply sh_valid|]. exact (proj2 nh_num). Qed.
Lemma nh_nonneg : (0 <= fR nh)%R.
Proof.
  pose proof (sqrt_rel sh sh_valid (proj2 nh_num)) as [K _]. rewrite <- nh_eq in K. pose proof (sqrt_pos (fR sh)) as P. rewrite (Rabs_pos_eq _ P) in K.
  apply abs_in in K. pose proof ulp2_1024. nra.
Qed.
Lemma nh_sq : (Rabs (fR nh * fR nh - fR sh) <= 2001 / 1000 * ulp2 * fR sh)%R.
Proof.
  pose proof (sqrt_rel sh sh_valid (proj2 nh_num)) as [K _]. rewrite <- nh_eq in K. pose proof (sqrt_pos (fR sh)) as P. rewrite (Rabs_pos_eq _ P) in K.
  pose proof (sqrt_nonneg sh (proj2 nh_num)) as Q. pose proof (sqrt_sqrt _ Q) as E. set (q := sqrt (fR sh)) in *. pose proof ulp2_1024. apply abs_in in K.
  apply Rabs_le. rewrite <- E. assert (ulp2 * (ulp2 * (q * q)) <= / 1024 * (ulp2 * (q * q)))%R by (apply Rmult_le_compat_r; [|lra]; apply Rmult_le_pos; [lra|nra]).
  split; nra.
Qed.
Lemma a_nh : num a /\ Rabs (fR a) = fR nh /\ (fR a * fR a = fR nh * fR nh)%R /\ (fR a * fR (x k) <= 0)%R.
Proof.
  pose proof nh_num as Nn. pose proof nh_nonneg as P. unfold hh_a. destruct (@fgt SO (x k) (@fzero SO)) eqn:E.
  - apply (fgt_ok (x k) sf_zero (Nx k ltac:(lia)) num0) in E. cbn [fR sf_zero] in E. destruct (mul_m1 nh Nn) as [M1 M2].
    change (@fmul SO) with sf_mul. change (@fneg SO) with SFopp. change (@fone SO) with (sf_of_Z 1). split; [exact M1|]. rewrite M2. rewrite Rabs_Ropp, Rabs_pos_eq by auto.
    split; auto. split; [ring|]. change (fR sf_zero) with 0%R in E. nra.
  - split; auto. split; [apply Rabs_pos_eq; auto|]. split; auto.
    assert (fR (x k) <= 0)%R; [|nra]. apply Rnot_lt_le. intros L. apply (proj2 (fgt_ok (x k) sf_zero (Nx k ltac:(lia)) num0)) in L. change (@fzero SO) with sf_zero in E; rewrite L in E; discriminate.
Qed.
Lemma feq_zero p : num p -> @feq SO p (@fzero SO) = true <-> fR p = 0%R.
Proof. intros H. apply (eqb_ok p sf_zero H num0). Qed.
Lemma a_zero : fR a = 0%R -> (sqrt s <= IZR m * b2 (-537))%R.
Proof.
  intros E. destruct a_nh as (_ & E1 & _ & _). rewrite E, Rabs_R0 in E1. pose proof nh_sq as K. rewrite <- E1 in K. rewrite Rmult_0_l in K.
  pose proof (sqrt_nonneg sh (proj2 nh_num)) as Q. pose proof ulp2_1024. apply abs_in in K. assert (Z0 : fR sh = 0%R) by nra.
  pose proof (sh_err (proj2 sh_num)) as H1. rewrite Z0 in H1. apply abs_in in H1. pose proof s_nonneg. pose proof kap_u. pose proof ulp2_pos.
  assert (PN : (1 <= IZR N)%R) by (apply (IZR_le 1); unfold N; lia). assert (HN : (IZR N <= IZR m)%R) by (apply IZR_le; unfold N; lia). pose proof tiny_pos as Pt.
  assert (S1 : (s <= 12 / 10 * (IZR N * tiny))%R) by nra.
  assert (Et : tiny = (/ 2 * (b2 (-537) * b2 (-537)))%R) by (rewrite <- bpow_plus; change (-537 + -537) with (-1074); apply tiny_bpow).
  pose proof (bpow_gt_0 radix2 (-537)) as Pb. rewrite <- (sqrt_square (IZR m * b2 (-537))) by nra. apply sqrt_le_1_alt.
  eapply Rle_trans; [exact S1|]. rewrite Et. assert (0 < b2 (-537) * b2 (-537))%R by nra.
  replace (IZR m * b2 (-537) * (IZR m * b2 (-537)))%R with (IZR m * IZR m * (b2 (-537) * b2 (-537)))%R by ring.
  replace (12 / 10 * (IZR N * (/ 2 * (b2 (-537) * b2 (-537)))))%R with (6 / 10 * IZR N * (b2 (-537) * b2 (-537)))%R by field. apply Rmult_le_compat_r; [lra|]. nra.
Qed.
(** ** A pivot that is neither too small nor too large *)
Hypothesis La : (b2 (-450) <= Rabs (fR a))%R.
Hypothesis Ua : (Rabs (fR a) <= b2 511)%R.
Lemma sq_ge p q : (0 <= p)%R -> (p <= q)%R -> (p * p <= q * q)%R. Proof. intros. nra. Qed.
Lemma s_ge : (6 / 10 * b2 (-900) <= s)%R.
Proof.
  destruct a_nh as (_ & E1 & _ & _). rewrite E1 in La. pose proof (sq_ge _ _ (bpow_ge_0 radix2 (-450)) La) as H. rewrite <- bpow_plus in H. change (-450 + -450) with (-900) in H.
  pose proof nh_sq as K. pose proof ulp2_1024. pose proof (sqrt_nonneg sh (proj2 nh_num)) as Q. apply abs_in in K.
  assert (S1 : (9 / 10 * b2 (-900) <= fR sh)%R). { pose proof (bpow_gt_0 radix2 (-900)). nra. }
  pose proof (sh_err (proj2 sh_num)) as H1. apply abs_in in H1. pose proof s_nonneg. pose proof kap_u. pose proof ulp2_pos.
  assert (T : (11 / 10 * (IZR N * tiny) <= / 10 * b2 (-900))%R).
  { assert (HN : (IZR N <= IZR m)%R) by (apply IZR_le; unfold N; lia). pose proof m_b43. pose proof tiny_pos.
    assert (K5 : (IZR N * tiny <= b2 43 * tiny)%R) by nra. rewrite tiny_b, <- bpow_plus in K5. change (43 + -1075) with (-10 + -1022) in K5. rewrite bpow_plus in K5. change (b2 (-10)) with (/ 1024)%R in K5.
    pose proof (bpow_le radix2 (-1022) (-900) ltac:(lia)). pose proof (bpow_gt_0 radix2 (-1022)). rewrite tiny_b. lra. }
  nra.
Qed.
Lemma t_le : (11 / 10 * (IZR N * tiny) <= / 8 * ulp2 * s)%R.
Proof.
  assert (HN : (IZR N <= IZR m)%R) by (apply IZR_le; unfold N; lia). pose proof m_b43 as H1. pose proof tiny_pos. pose proof s_ge as H3.
  assert (K : (IZR N * tiny <= b2 43 * tiny)%R) by nra. rewrite tiny_b, <- bpow_plus in K. change (43 + -1075) with (-10 + -1022) in K. rewrite bpow_plus in K. change (b2 (-10)) with (/ 1024)%R in K.
  pose proof (bpow_le radix2 (-1022) (-953) ltac:(lia)) as H4. assert (E : b2 (-953) = (ulp2 * b2 (-900))%R) by (rewrite ulp2_b, <- bpow_plus; reflexivity).
  pose proof ulp2_pos. pose proof (bpow_gt_0 radix2 (-1022)). rewrite tiny_b. 
  apply Rle_trans with (/ 8 * ulp2 * (6 / 10 * b2 (-900)))%R; [nra|]. apply Rmult_le_compat_l; lra.
Qed.
Lemma a_sq : (Rabs (fR a * fR a - s) <= 101 / 100 * kap * s)%R.
Proof.
  destruct a_nh as (_ & _ & E & _). rewrite E. pose proof nh_sq as K. pose proof (sh_err (proj2 sh_num)) as H1. pose proof t_le as H2. pose proof ulp2_1024. pose proof kap_u. pose proof s_nonneg.
  assert (K3 : (fR sh <= 1003 / 1000 * s)%R). { apply abs_in in H1. nra. }
  replace (fR nh * fR nh - s)%R with ((fR nh * fR nh - fR sh) + (fR sh - s))%R by ring. eapply Rle_trans; [apply Rabs_triang|].
  assert (2001 / 1000 * ulp2 * fR sh <= 2001 / 1000 * ulp2 * (1003 / 1000 * s))%R by (apply Rmult_le_compat_l; lra).
  assert (0 <= ulp2 * s)%R by nra. assert (0 <= kap * s)%R by nra. lra.
Qed.
Lemma a_ne : fR a <> 0%R.
Proof. intros E. rewrite E, Rabs_R0 in La. pose proof (bpow_gt_0 radix2 (-450)). lra. Qed.
Lemma a_feq : @feq SO a (@fzero SO) = false.
Proof. apply not_true_is_false. intros E. apply (feq_zero a (proj1 a_nh)) in E. exact (a_ne E). Qed.
Let e := (101 / 100 * kap)%R.
Lemma e_small : (0 <= e <= / 16)%R. Proof. unfold e. pose proof kap_u. pose proof ulp2_pos. lra. Qed.
Notation v := (hh_v (O := SO) m x k).
Lemma v_k : v k = sf_sub (x k) a. Proof. unfold hh_v. rewrite a_feq, Z.eqb_refl. reflexivity. Qed.
Lemma v_other r : r <> k -> v r = x r. Proof. intros. unfold hh_v. rewrite a_feq. rewrite (proj2 (Z.eqb_neq r k)); auto. Qed.
Lemma w_le : (Rabs (fR (x k) - fR a) <= 51 / 25 * Rabs (fR a))%R.
Proof. destruct a_nh as (_ & _ & _ & Hs). apply (hv_W s (fR (x k)) (fR a) 0%R e e_small s_term a_sq Hs). Qed.
Lemma a_511 : (Rabs (fR a) * Rabs (fR a) <= b2 1022)%R.
Proof. change 1022 with (511 + 511). rewrite bpow_plus. apply sq_ge; auto. apply Rabs_pos. Qed.
Lemma v_num r : k <= r < m -> num (v r).
Proof.
  intros Hr. destruct (Z.eq_dec r k) as [->|Hn]; [|rewrite v_other by auto; auto]. rewrite v_k. apply sub_fin; [auto|apply a_nh|].
  pose proof w_le. pose proof huge_ge. pose proof (bpow_le radix2 511 1022 ltac:(lia)). change 1023 with (1022 + 1) in *. rewrite bpow_plus in *. change (b2 1) with 2%R in *. pose proof (bpow_gt_0 radix2 1022). lra.
Qed.
Lemma v_err : (Rabs (fR (v k) - (fR (x k) - fR a)) <= ulp2 * Rabs (fR (x k) - fR a))%R.
Proof.
  pose proof (v_num k ltac:(lia)) as [_ Fv]. rewrite v_k in *. apply sub_ok; auto; [apply Nx; lia|apply a_nh].
Qed.
Lemma av_bounds : (99 / 100 * (Rabs (fR a) * Rabs (fR a)) <= Rabs (fR a * fR (v k)) <= 206 / 100 * (Rabs (fR a) * Rabs (fR a)))%R.
Proof.
  destruct a_nh as (_ & _ & _ & Hs). pose proof (hv_av (fR (x k)) (fR a) (fR (v k)) ulp2 Hs v_err) as [L1 L2]. pose proof (hv_W s (fR (x k)) (fR a) 0%R e e_small s_term a_sq Hs) as [W1 W2].
  pose proof ulp2_1024. pose proof (Rabs_pos (fR a)). set (W := Rabs (fR (x k) - fR a)) in *. set (A := Rabs (fR a)) in *.
  assert (A * A <= A * W)%R by nra. assert (A * W <= 51 / 25 * (A * A))%R by nra. rewrite Rabs_left1 by nra. nra.
Qed.
Notation c := (sf_mul a (v k)).
Lemma c_num : num c.
Proof.
  apply mul_fin; [apply a_nh|apply v_num; lia|]. pose proof av_bounds. pose proof a_511. pose proof huge_ge. change 1023 with (1022 + 1) in *. rewrite bpow_plus in *. change (b2 1) with 2%R in *. pose proof (bpow_gt_0 radix2 1022). lra.
Qed.
Lemma c_err : (Rabs (fR c - fR a * fR (v k)) <= ulp2 * Rabs (fR a * fR (v k)))%R.
Proof.
  apply mul_rel; [apply a_nh|apply v_num; lia|apply c_num|]. pose proof av_bounds as [H _]. eapply Rle_trans; [|exact H].
  pose proof (sq_ge _ _ (bpow_ge_0 radix2 (-450)) La) as H1. rewrite <- bpow_plus in H1. change (-450 + -450) with (-900) in H1.
  pose proof (bpow_le radix2 (-1022) (-901) ltac:(lia)) as H2. change (-901) with (-900 + -1) in H2. rewrite bpow_plus in H2. change (b2 (-1)) with (/ 2)%R in H2. pose proof (bpow_gt_0 radix2 (-900)). lra.
Qed.
Definition cut (y : Z -> sf) (r : Z) : R := if r <? k then 0%R else fR (y r).
Let vr := cut v.
Let V := dot m vr vr.
Lemma cut_dot y z : dot m (cut y) z = Rs k m (fun r => fR (y r) * z r)%R.
Proof.
  unfold dot. rewrite (Rs_low 0 k m) by (try lia; intros; unfold cut; rewrite (proj2 (Z.ltb_lt _ _)) by lia; ring). apply Rs_ext. intros r Hr. unfold cut. rewrite (proj2 (Z.ltb_ge _ _)) by lia. auto.
Qed.
Lemma V_eq : V = (s - fR (x k) * fR (x k) + fR (v k) * fR (v k))%R.
Proof.
  unfold V, vr. rewrite cut_dot, (Rs_first k m) by lia. unfold s. rewrite (Rs_first k m (fun r => fR (x r) * fR (x r))%R) by lia.
  assert (E : Rs (k + 1) m (fun r => fR (v r) * cut v r)%R = Rs (k + 1) m (fun r => fR (x r) * fR (x r))%R).
  { apply Rs_ext. intros r Hr. unfold cut. rewrite (proj2 (Z.ltb_ge _ _)) by lia. rewrite v_other by lia. auto. }
  rewrite E. unfold cut. rewrite (proj2 (Z.ltb_ge _ _)) by lia. ring.
Qed.
Lemma V_bounds : (19 / 10 * (Rabs (fR a) * Rabs (fR a)) <= V <= 43 / 10 * (Rabs (fR a) * Rabs (fR a)))%R.
Proof. rewrite V_eq. destruct a_nh as (_ & _ & _ & Hs). apply (hv_V2 s (fR (x k)) (fR a) (fR (v k)) e ulp2 e_small s_term a_sq Hs ulp2_1024 v_err). Qed.
Lemma V_pos : (0 < V)%R.
Proof. pose proof V_bounds as [H _]. pose proof (Rabs_pos_lt _ a_ne). nra. Qed.
Lemma vlen_bounds : (b2 (-450) <= vlen m vr <= b2 513)%R.
Proof.
  pose proof V_bounds as [H1 H2]. pose proof (Rabs_pos (fR a)) as PA. pose proof (vlen_pos m vr) as PL. pose proof (vlen_sq m vr) as E. fold V in E. split.
  - apply Rle_trans with (Rabs (fR a)); auto. apply Rsqr_incr_0_var; auto. unfold Rsqr. nra.
  - apply Rle_trans with (4 * Rabs (fR a))%R; [apply Rsqr_incr_0_var; [unfold Rsqr; nra|lra]|]. change 513 with (511 + 2). rewrite bpow_plus. change (b2 2) with 4%R. lra.
Qed.
Lemma c_V : (Rabs (fR c + V / 2) <= 21 / 10 * kap * (V / 2))%R.
Proof.
  pose proof V_pos. destruct a_nh as (_ & _ & _ & Hs). pose proof (hv_c s (fR (x k)) (fR a) (fR (v k)) (fR c) e ulp2 e_small s_term a_sq Hs ulp2_1024 v_err c_err) as K. rewrite <- V_eq in K.
  eapply Rle_trans; [exact K|]. apply Rmult_le_compat_r; [lra|]. unfold e. pose proof kap_u. pose proof ulp2_pos. lra.
Qed.
(** The column the reflection comes from. *)
Lemma own_column (y : Z -> R) : (forall r, k <= r < m -> y r = fR (x r)) ->
  (vlen m (fun r => (if r <? k then y r else if r =? k then fR a else 0) - mvec m (refl vr (- (V / 2))) y r) <= 31 / 10 * kap * vlen m y)%R.
Proof.
  intros Hy. pose proof V_pos as PV. destruct a_nh as (_ & _ & _ & Hs). set (d := (fR (v k) - (fR (x k) - fR a))%R). set (be := (fR a - d)%R). set (th := ((be * be - s) / V)%R).
  assert (Hq : Rs 0 m (fun r => vr r * y r)%R = (s - fR (x k) * fR (x k) + fR (v k) * fR (x k))%R).
  { change (Rs 0 m (fun r => vr r * y r)%R) with (dot m vr y). unfold vr. rewrite cut_dot, (Rs_first k m) by lia. unfold s. rewrite (Rs_first k m (fun r => fR (x r) * fR (x r))%R) by lia.
    rewrite (Rs_ext (k + 1) m _ (fun r => fR (x r) * fR (x r))%R) by (intros r Hr; rewrite v_other, Hy by lia; auto). rewrite Hy by lia. ring. }
  assert (Ht : (1 + Rs 0 m (fun r => vr r * y r) / - (V / 2) = th)%R).
  { rewrite Hq. unfold th, be, d. rewrite V_eq. field. rewrite <- V_eq. lra. }
  rewrite (vlen_ext m _ (fun r => (if r =? k then d else 0) + - th * vr r)%R).
  2:{ intros r Hr. rewrite refl_vec by auto. unfold Rdiv at 1. rewrite Rmult_assoc. change (Rs 0 m (fun r => vr r * y r) * / - (V / 2))%R with (Rs 0 m (fun r => vr r * y r) / - (V / 2))%R.
      set (q := (Rs 0 m (fun r => vr r * y r) / - (V / 2))%R) in *. replace th with (1 + q)%R by auto. unfold vr, cut. destruct (Z.ltb_spec r k).
      - rewrite (proj2 (Z.eqb_neq r k)) by lia. ring.
      - destruct (Z.eqb_spec r k) as [->|].
        + rewrite Hy by lia. unfold d. ring.
        + rewrite Hy, v_other by lia. ring. }
  eapply Rle_trans; [apply vlen_tri|]. rewrite vlen_scal, Rabs_Ropp.
  assert (E1 : vlen m (fun r => if r =? k then d else 0)%R = Rabs d).
  { unfold vlen, dot. rewrite (Rs_pick 0 m k) by (try lia; intros i _ Hi; rewrite (proj2 (Z.eqb_neq i k)) by auto; ring). rewrite Z.eqb_refl. apply sqrt_Rsqr_abs. }
  rewrite E1. pose proof (hv_col s (fR (x k)) (fR a) (fR (v k)) e ulp2 e_small s_term a_sq Hs ulp2_1024 v_err (Rabs_pos_lt _ a_ne)) as K. rewrite <- V_eq in K.
  fold d in K. fold be in K. replace (Rabs (s - be * be) / V)%R with (Rabs th) in K.
  2:{ unfold th, Rdiv. rewrite Rabs_mult, Rabs_minus_sym, Rabs_inv, (Rabs_pos_eq V) by lra. auto. }
  change (sqrt V) with (vlen m vr) in K. eapply Rle_trans; [exact K|]. pose proof kap_u. pose proof ulp2_pos.
  assert (Es : (sqrt s <= vlen m y)%R).
  { unfold vlen. apply sqrt_le_1_alt. unfold dot. rewrite (Rs_split 0 k m) by lia. rewrite (Rs_ext k m (fun k0 => y k0 * y k0)%R (fun r => fR (x r) * fR (x r))%R) by (intros; rewrite !Hy by auto; auto).
    fold s. pose proof (Rs_nonneg 0 k (fun k0 => y k0 * y k0)%R ltac:(intros; nra)). lra. }
  pose proof (sqrt_pos s). unfold e. apply Rmult_le_compat; lra.
Qed.
End Fin.
End Column.
End Refl.

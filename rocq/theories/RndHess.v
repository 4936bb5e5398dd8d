(** One reflection of the Hessenberg transform in float64: the scaled column, the
    reflection vector and its application. *)
From Coq Require Import ZArith List Reals Lia Lra Psatz Bool Floats.SpecFloat.
From Flocq Require Import Core BinarySingleNaN.
From Verif Require Import Base BaseLemmas Scalar Float64 Float64Facts VecSpec RealOps RSum House RealVec TabTac FSum QRSpec QRFacts QRReal RndSpec FloatR RndSum RndTri RndHouse RndRefl RndApply RndQRSpec RndQR SVDSpecR RndFrob HessFacts.
Open Scope Z_scope.

(** ** The test against zero *)
Lemma ulp1_zero c x : sf_valid x = true -> equalsWithULP c x sf_zero 1 = true -> isfin x = true /\ (Rabs (fR x) <= 2 * tiny)%R.
Proof.
  intros Vx H. unfold equalsWithULP in H. apply andb_prop in H. destruct H as [H _]. apply andb_prop in H. destruct H as [H Nx]. apply negb_true_iff in Nx.
  apply equalsWithULP_bits_1 in H; [|apply bits64_range; auto|cbn; lia]. destruct H as [_ H]. pose proof (bits64_nonnan x Vx Nx) as B. pose proof (bits64_range x Vx) as B0. change (bits64 sf_zero) with 0 in H.
  assert (K : bits64 x = 0 \/ bits64 x = 1).
  { destruct H as [H|[H|[[H H']|[_ H]]]]; try lia. rewrite Z.sub_0_r, Z.mod_small in H by lia. lia. }
  pose proof tiny_pos as Pt. destruct K as [K|K].
  - change 0 with (bits64 sf_zero) in K. apply bits64_inj in K; [|auto|reflexivity]. subst. split; [reflexivity|]. cbn [fR sf_zero]. rewrite Rabs_R0. lra.
  - change 1 with (bits64 (S754_finite false 1 (-1074))) in K. apply bits64_inj in K; [|auto|reflexivity]. subst. split; [reflexivity|].
    right. rewrite tiny_bpow. unfold fR. cbv iota. rewrite Rabs_pos_eq by (apply Rmult_le_pos; [lra|]; rewrite pz; apply bpow_ge_0). rewrite pz. lra.
Qed.
Lemma ulp1_zero_refl c : equalsWithULP c sf_zero sf_zero 1 = true.
Proof. unfold equalsWithULP. change (bits64 sf_zero) with 0. rewrite (proj2 (equalsWithULP_bits_1 c 0 0 ltac:(lia) ltac:(lia))); [reflexivity|]. auto. Qed.

(** Sums of absolute values are not -0. *)
Lemma add_pos_zero x y : num x -> num y -> x <> S754_zero true -> (0 <= fR x)%R -> (0 <= fR y)%R -> isfin (sf_add x y) = true -> sf_add x y <> S754_zero true.
Proof.
  intros [Vx Fx] [Vy Fy] Nx Px Py F. destruct (to_bf x Vx) as [b Eb]. destruct (to_bf y Vy) as [b' Eb']. subst. rewrite add_eq in *. rewrite !of_bf_fin in *. rewrite !of_bf_R in *.
  pose proof (Bplus_correct 53 1024 Hprec Hmax mode_NE b b' Fx Fy) as K. destruct (Rlt_bool _ _).
  - destruct K as (_ & _ & K). intros E. match type of K with Bsign ?r = _ => assert (S1 : Bsign r = true) by (destruct r; cbn in E; try discriminate; injection E as ->; reflexivity) end.
    rewrite S1 in K. destruct (Rcompare_spec (B2R b + B2R b') 0) as [L|L|L]; [lra| |discriminate].
    assert (Z1 : B2R b = 0%R) by lra. symmetry in K. apply andb_prop in K. destruct K as [K _].
    destruct b as [s|s| |s m e Hb]; try discriminate; cbn in K; subst; [apply Nx; reflexivity|]. cbn in Z1. pose proof (F2R_lt_0 radix2 (Float radix2 (Zneg m) e)) as L2. cbn in L2. specialize (L2 ltac:(lia)). cbn in Px. lra.
  - destruct K as [K _]. rewrite <- of_bf_fin, K, overflow_inf in F. discriminate.
Qed.

(** ** Close vectors reflect alike *)
Lemma vlen_div n x a : (0 < a)%R -> vlen n (fun r => x r / a)%R = (vlen n x / a)%R.
Proof.
  intros Ha. rewrite (vlen_ext n _ (fun r => / a * x r)%R) by (intros; unfold Rdiv; ring). rewrite vlen_scal, Rabs_pos_eq by (left; apply Rinv_0_lt_compat; auto). unfold Rdiv. ring.
Qed.
Lemma refl_near n (a b z : Z -> R) e : (0 < vlen n a)%R -> (0 < vlen n b)%R -> (vlen n (fun r => a r - b r) <= e * vlen n a)%R ->
  (vlen n (fun r => mvec n (refl a (- (dot n a a / 2))) z r - mvec n (refl b (- (dot n b b / 2))) z r) <= 8 * e * vlen n z)%R.
Proof.
  intros Pa Pb He. set (al := vlen n a) in *. set (be := vlen n b) in *. pose proof (vlen_sq n a) as Ea. fold al in Ea. pose proof (vlen_sq n b) as Eb. fold be in Eb.
  set (p := fun r => (a r / al)%R). set (q := fun r => (b r / be)%R).
  assert (Lp : vlen n p = 1%R) by (unfold p; rewrite vlen_div by auto; fold al; field; lra).
  assert (Lq : vlen n q = 1%R) by (unfold q; rewrite vlen_div by auto; fold be; field; lra).
  assert (Hd : (vlen n (fun r => p r - q r) <= 2 * e)%R).
  { rewrite (vlen_ext n _ (fun r => (a r - b r) / al + (b r / al - b r / be))%R) by (intros; unfold p, q; field; lra). eapply Rle_trans; [apply vlen_tri|].
    rewrite vlen_div by auto. rewrite (vlen_ext n (fun r => b r / al - b r / be)%R (fun r => (/ al - / be) * b r)%R) by (intros; unfold Rdiv; ring). rewrite vlen_scal. fold be.
    assert (K1 : (vlen n (fun r => a r - b r) / al <= e)%R) by (apply (Rmult_le_reg_r al); auto; unfold Rdiv; rewrite Rmult_assoc, Rinv_l by lra; lra).
    assert (K2 : (Rabs (/ al - / be) * be <= e)%R); [|lra].
    replace (Rabs (/ al - / be) * be)%R with (Rabs (be - al) / al)%R.
    - apply (Rmult_le_reg_r al); auto. unfold Rdiv. rewrite Rmult_assoc, Rinv_l, Rmult_1_r by lra. eapply Rle_trans; [|exact He].
      pose proof (vlen_diff n a b) as D1. pose proof (vlen_diff n b a) as D2. rewrite vlen_sub in D2. fold al be in D1, D2. apply Rabs_le. lra.
    - replace (/ al - / be)%R with ((be - al) / (al * be))%R by (field; lra). unfold Rdiv. rewrite Rabs_mult, Rabs_inv, (Rabs_pos_eq (al * be)) by nra. field. lra. }
  assert (Ez : forall r, 0 <= r < n -> (mvec n (refl a (- (dot n a a / 2))) z r - mvec n (refl b (- (dot n b b / 2))) z r = -2 * dot n z q * (p r - q r) + -2 * (dot n z (fun r => p r - q r) * p r))%R).
  { intros r Hr. rewrite !refl_vec by auto. rewrite <- Ea, <- Eb. replace (Rs 0 n (fun r => a r * z r))%R with (al * dot n z p)%R.
    2:{ unfold dot. rewrite <- Rs_scal_l. apply Rs_ext. intros. unfold p. field. lra. }
    replace (Rs 0 n (fun r => b r * z r))%R with (be * dot n z q)%R.
    2:{ unfold dot. rewrite <- Rs_scal_l. apply Rs_ext. intros. unfold q. field. lra. }
    assert (E2 : dot n z (fun r => p r - q r)%R = (dot n z p - dot n z q)%R) by (unfold dot; rewrite <- Rs_minus; apply Rs_ext; intros; ring). rewrite E2. generalize (dot n z p) (dot n z q). intros dp dq. unfold p, q. field. lra. }
  rewrite (vlen_ext n _ _ Ez). eapply Rle_trans; [apply vlen_tri|]. rewrite !vlen_scal.
  rewrite Lp.
  pose proof (vlen_dot n z q) as C1. rewrite Lq, Rmult_1_r in C1. pose proof (vlen_dot n z (fun r => p r - q r)%R) as C2. set (d := vlen n (fun r => p r - q r)%R) in *.
  assert (Pd : (0 <= d)%R) by apply vlen_pos. pose proof (vlen_pos n z) as Pz. rewrite Rabs_mult. replace (Rabs (-2)) with 2%R by (rewrite Rabs_left; lra).
  assert (2 * Rabs (dot n z q) * d <= 2 * vlen n z * d)%R by (apply Rmult_le_compat_r; lra). assert (vlen n z * d <= vlen n z * (2 * e))%R by (apply Rmult_le_compat_l; lra). lra.
Qed.

Section Sums.
Variable pf : Z.
Notation SO := (SFOps pf).
(** ** Downward sums *)
Lemma faddd_rev k m (g : Z -> sf) : faddd (O := SO) (sf_zero : @F SO) k m g = fadds (O := SO) (sf_zero : @F SO) k m (fun i => g (k + m - 1 - i)).
Proof. unfold faddd, fadds. apply TabTac.accum_ext. intros. f_equal. f_equal. lia. Qed.
Lemma Rs_rev k m (g : Z -> R) : Rs k m (fun i => g (k + m - 1 - i)) = Rs k m g.
Proof.
  destruct (Z_le_gt_dec k m) as [H|H]; [|rewrite !Rs_nil by lia; auto]. remember (m - k) as d eqn:Ed. assert (Hd : 0 <= d) by lia. revert d Hd k m H Ed. refine (natlike_ind _ _ _).
  - intros k m H Ed. rewrite !Rs_nil by lia. auto.
  - intros d Hd IH k m H Ed.
    assert (E1 : Rs (k + 1) m (fun i => g (k + m - 1 - i)) = Rs k (m - 1) (fun i => g (k + (m - 1) - 1 - i))).
    { pose proof (Rs_shift k (m - 1) 1 (fun i => g (k + m - 1 - i))) as K. replace (m - 1 + 1) with m in K by lia. rewrite <- K. apply Rs_ext. intros. f_equal. lia. }
    assert (E2 : Rs k m g = (Rs k (m - 1) g + g (m - 1)%Z)%R) by (pose proof (Rs_last k (m - 1) g ltac:(lia)) as K; replace (m - 1 + 1) with m in K by lia; exact K).
    rewrite (Rs_first k m) by lia. rewrite E1, E2, (IH k (m - 1)) by lia. rewrite Rplus_comm. f_equal. f_equal. lia.
Qed.
Lemma faddd_apx k m d (g : Z -> sf) (s a t : Z -> R) : k <= m -> (forall i, k <= i < m -> apx d (s i) (a i) (t i) (g i)) ->
  apx (d + Z.to_nat (m - k) - 1) (Rs k m s) (Rs k m a) (Rs k m t) (faddd (O := SO) (sf_zero : @F SO) k m g).
Proof.
  intros Hk H. rewrite faddd_rev, <- (Rs_rev k m s), <- (Rs_rev k m a), <- (Rs_rev k m t). apply fadds_apx; auto. intros. apply H. lia.
Qed.
Lemma faddd_valid k m (g : Z -> sf) : (forall i, k <= i < m -> sf_valid (g i) = true) -> sf_valid (faddd (O := SO) (sf_zero : @F SO) k m g) = true.
Proof. intros H. rewrite faddd_rev. apply (fadds_valid pf m m). intros. apply H. lia. Qed.
Lemma faddd_fin k m (g : Z -> sf) : isfin (faddd (O := SO) (sf_zero : @F SO) k m g) = true -> forall i, k <= i < m -> isfin (g i) = true.
Proof. intros H i Hi. rewrite faddd_rev in H. pose proof (fadds_fin pf m m k m _ H (k + m - 1 - i) ltac:(lia)) as K. cbn beta in K. replace (k + m - 1 - (k + m - 1 - i)) with i in K by lia. exact K. Qed.
End Sums.

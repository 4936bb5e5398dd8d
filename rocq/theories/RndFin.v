(** A computed reflection applied to a vector of moderate size stays finite. *)
From Coq Require Import ZArith List Reals Lia Lra Psatz Bool Floats.SpecFloat.
From Flocq Require Import Core BinarySingleNaN.
From Verif Require Import Base BaseLemmas Scalar Float64 VecSpec RealOps RSum House RealVec TabTac FSum CholFacts QRSpec QRFacts QRReal RndSpec FloatR RndSum RndTri RndHouse RndRefl RndApply RndQRSpec RndQR RndBidiag3 RndHess2 RndQREx.
Open Scope Z_scope.

Section Fin.
Variables (pf m k : Z).
Notation SO := (SFOps pf).
Hypothesis Hm : 1 <= m.
Hypothesis Hkap : (kap m <= / 1024)%R.
Hypothesis Hk : 0 <= k < m.
Variables (v : Z -> sf) (c : sf) (z : Z -> sf) (zr : Z -> R).
Hypothesis G : good m k v c.
Hypothesis Nz : forall r, k <= r < m -> num (z r).
Hypothesis Hz : forall r, k <= r < m -> zr r = fR (z r).
Hypothesis Lz : (vlen m zr <= 2)%R.
Notation L := (vlen m (cut k v)).
Lemma f_L : (b2 (-450) <= L <= b2 513)%R. Proof. apply G. Qed.
Lemma f_L0 : (0 < L)%R. Proof. pose proof f_L. pose proof (bpow_gt_0 radix2 (-450)). lra. Qed.
Lemma f_c : (49 / 100 * (L * L) <= Rabs (fR c))%R.
Proof.
  destruct G as (_ & _ & PV & _ & HcV & _). rewrite <- vlen_sq in HcV, PV. set (V := (L * L)%R) in *. assert (21 / 10 * kap m * (V / 2) <= 21 / 10 * / 1024 * (V / 2))%R by (apply Rmult_le_compat_r; lra).
  pose proof (Rabs_triang_inv (V / 2) (V / 2 + fR c)) as K. replace (V / 2 - (V / 2 + fR c))%R with (- fR c)%R in K by ring. rewrite Rabs_Ropp, (Rabs_pos_eq (V / 2)), (Rplus_comm (V / 2) (fR c)) in K by lra. lra.
Qed.
Lemma f_c0 : fR c <> 0%R. Proof. intros E. pose proof f_c as K. rewrite E, Rabs_R0 in K. pose proof f_L0. nra. Qed.
Lemma f_v r : k <= r < m -> (Rabs (fR (v r)) <= L)%R.
Proof. intros Hr. pose proof (vlen_entry m (cut k v) r ltac:(lia)) as K. unfold cut at 1 in K. rewrite (proj2 (Z.ltb_ge _ _)) in K by lia. exact K. Qed.
Lemma f_z r : k <= r < m -> (Rabs (fR (z r)) <= 2)%R.
Proof. intros Hr. rewrite <- Hz by auto. pose proof (vlen_entry m zr r ltac:(lia)). lra. Qed.
Lemma f_huge : (b2 1000 <= huge)%R.
Proof. pose proof huge_ge as HG. pose proof (bpow_le radix2 1000 1023 ltac:(lia)) as HG2. pose proof (bpow_gt_0 radix2 1023). lra. Qed.
Lemma f_mt : (0 <= IZR m * tiny <= b2 (-1032))%R.
Proof.
  pose proof tiny_pos. assert (1 <= IZR m)%R by (apply (IZR_le 1); lia). split; [apply Rmult_le_pos; lra|]. pose proof (m_b43 m Hm Hkap) as B. rewrite tiny_b. change (-1032) with (43 + -1075). rewrite bpow_plus. apply Rmult_le_compat_r; [apply bpow_ge_0|auto].
Qed.
(** The inner product. *)
Lemma f_sum (s : sf) (q : R) : apx (Z.to_nat (m - k)) q (Rs k m (fun r => Rabs (fR (z r)) * Rabs (fR (v r)))%R) (IZR (m - k) * tiny) s -> num s /\ (Rabs (fR s) <= 21 / 10 * L)%R.
Proof.
  intros (Vs & As & Ts & Es & Fs). pose proof f_L as [L1 L2]. pose proof f_L0 as L0. pose proof (gw_kap m Hkap (m - k) ltac:(lia)) as Gw. pose proof (gw_ge1 (Z.to_nat (m - k))) as G1. pose proof ulp2_pos as Pu. set (g := gw (Z.to_nat (m - k))) in *.
  assert (G2 : (g <= 101 / 100)%R) by (pose proof (kap_u m Hm); lra). pose proof tiny_pos as Pt. pose proof f_mt as [T0 T1].
  assert (T2 : (IZR (m - k) * tiny <= IZR m * tiny)%R) by (apply Rmult_le_compat_r; [lra|apply IZR_le; lia]). set (tt := (IZR (m - k) * tiny)%R) in *.
  assert (SA : (Rs k m (fun r => Rabs (fR (z r)) * Rabs (fR (v r))) <= 2 * L)%R).
  { apply Rle_trans with (vlen m zr * L)%R; [|apply Rmult_le_compat_r; lra]. rewrite (Rs_ext k m _ (fun r => Rabs (zr r) * Rabs (cut k v r))%R) by (intros; unfold cut; rewrite (proj2 (Z.ltb_ge _ _)), Hz by lia; auto). apply abs_dot_le. lia. }
  set (aa := Rs k m (fun r => Rabs (fR (z r)) * Rabs (fR (v r)))%R) in *. assert (PA0 : (0 <= aa)%R) by (eapply Rle_trans; [apply Rabs_pos|exact As]).
  assert (T3 : (b2 (-1032) <= / 1024 * L)%R). { apply Rle_trans with (b2 (-10) * b2 (-450))%R; [rewrite <- bpow_plus; apply bpow_le; lia|]. change (b2 (-10)) with (/ 1024)%R. lra. }
  assert (F : isfin s = true).
  { apply Fs. apply Rle_trans with (101 / 100 * (aa + tt))%R; [apply Rmult_le_compat_r; lra|]. pose proof f_huge. pose proof (bpow_le radix2 515 1000 ltac:(lia)) as HH. assert (b2 515 = 4 * b2 513)%R by (change 515 with (2 + 513); rewrite bpow_plus; reflexivity). lra. }
  split; [split; auto|]. specialize (Es F). assert ((g - 1) * aa <= 1 / 100 * aa)%R by (apply Rmult_le_compat_r; lra). assert (g * tt <= 101 / 100 * tt)%R by (apply Rmult_le_compat_r; lra). pose proof (Rabs_triang_inv (fR s) q). lra.
Qed.
(** The update with a factor of the right size. *)
Lemma f_entry (al : sf) : num al -> (Rabs (fR al) <= 5 / L + b2 (-515))%R -> forall r, k <= r < m -> isfin (sf_mul al (v r)) = true /\ isfin (sf_add (z r) (sf_mul al (v r))) = true.
Proof.
  intros Na Ba r Hr. pose proof f_L as [L1 L2]. pose proof f_L0 as L0. pose proof (f_v r Hr) as Wr. pose proof (f_z r Hr) as Zr. destruct G as (Nv & _). pose proof f_huge as HU. assert (H64 : (64 <= b2 1000)%R) by (apply (bpow_le radix2 6 1000); lia).
  assert (B5 : (Rabs (fR al * fR (v r)) <= 6)%R).
  { rewrite Rabs_mult. pose proof (bpow_ge_0 radix2 (-515)) as P5. assert (PI : (0 < / L)%R) by (apply Rinv_0_lt_compat; auto). apply Rle_trans with ((5 / L + b2 (-515)) * L)%R; [apply Rmult_le_compat; try apply Rabs_pos; auto|].
    replace ((5 / L + b2 (-515)) * L)%R with (5 + b2 (-515) * L)%R by (field; lra). assert (b2 (-515) * L <= b2 (-515) * b2 513)%R by (apply Rmult_le_compat_l; auto). rewrite <- bpow_plus in H. change (b2 (-515 + 513)) with (/ 4)%R in H. lra. }
  assert (N3 : num (sf_mul al (v r))) by (apply mul_fin; auto; lra). destruct (mul_ok al (v r) (proj1 Na) (proj1 (Nv r Hr)) (proj2 N3)) as [E3 _].
  pose proof ulp2_1024. pose proof ulp2_pos. assert (T8 : (tiny <= / 1024)%R) by (rewrite tiny_b; change (/ 1024)%R with (b2 (-10)); apply bpow_le; lia).
  assert (B6 : (Rabs (fR (sf_mul al (v r))) <= 7)%R). { pose proof (Rabs_triang_inv (fR (sf_mul al (v r))) (fR al * fR (v r))). assert (ulp2 * Rabs (fR al * fR (v r)) <= / 1024 * 6)%R by (apply Rmult_le_compat; [lra|apply Rabs_pos|lra|lra]). lra. }
  split; [apply N3|]. apply add_fin; auto. eapply Rle_trans; [apply Rabs_triang|]. lra.
Qed.
Lemma f_invL : (/ L <= b2 450)%R.
Proof. pose proof f_L as [L1 _]. pose proof f_L0 as L0. apply (Rmult_le_reg_r L); auto. rewrite Rinv_l by lra. apply Rle_trans with (b2 450 * b2 (-450))%R; [rewrite <- bpow_plus; apply Rle_refl|apply Rmult_le_compat_l; [apply bpow_ge_0|auto]]. Qed.
Lemma f_tiny : (tiny <= b2 (-1000))%R. Proof. rewrite tiny_b. apply bpow_le. lia. Qed.
Lemma f_tL : (tiny * L <= b2 (-560))%R.
Proof. pose proof f_L as [_ L2]. pose proof tiny_pos. apply Rle_trans with (tiny * b2 513)%R; [apply Rmult_le_compat_l; lra|]. rewrite tiny_b, <- bpow_plus. apply bpow_le. lia. Qed.
(** The factor computed by a division. *)
Lemma f_div (s : sf) : num s -> (Rabs (fR s) <= 21 / 10 * L)%R -> num (sf_div s c) /\ (Rabs (fR (sf_div s c)) <= 5 / L + b2 (-515))%R.
Proof.
  intros Ns Bs. pose proof f_c as C. pose proof f_c0 as C0. pose proof f_L0 as L0. pose proof f_invL as IL. assert (PI : (0 < / L)%R) by (apply Rinv_0_lt_compat; auto). pose proof G as (_ & Nc & _).
  assert (B1 : (Rabs (fR s / fR c) <= 43 / 10 * / L)%R).
  { assert (PC : (0 < Rabs (fR c))%R) by (apply Rabs_pos_lt; auto). unfold Rdiv. rewrite Rabs_mult, Rabs_inv. apply (Rmult_le_reg_r (Rabs (fR c))); auto. rewrite Rmult_assoc, Rinv_l, Rmult_1_r by lra.
    apply Rle_trans with (43 / 10 * / L * (49 / 100 * (L * L)))%R; [|apply Rmult_le_compat_l; lra]. replace (43 / 10 * / L * (49 / 100 * (L * L)))%R with (2107 / 1000 * L)%R by (field; lra). lra. }
  assert (Nq : num (sf_div s c)).
  { apply div_fin; auto. pose proof f_huge. pose proof (bpow_le radix2 453 1000 ltac:(lia)) as HH. assert (b2 453 = 8 * b2 450)%R by (change 453 with (3 + 450); rewrite bpow_plus; reflexivity). lra. }
  split; auto. destruct (div_ok s c (proj1 Ns) (proj1 Nc) (proj2 Nq) C0) as [E _]. pose proof (Rabs_triang_inv (fR (sf_div s c)) (fR s / fR c)) as K. pose proof ulp2_1024. pose proof ulp2_pos.
  assert (ulp2 * Rabs (fR s / fR c) <= / 1024 * (43 / 10 * / L))%R by (apply Rmult_le_compat; [lra|apply Rabs_pos|lra|lra]). pose proof f_tiny. pose proof (bpow_le radix2 (-1000) (-515) ltac:(lia)). change (5 / L)%R with (5 * / L)%R. lra.
Qed.
(** The factor computed by a multiplication with the inverse. *)
Lemma f_mul (s : sf) : num s -> (Rabs (fR s) <= 21 / 10 * L)%R -> num (sf_mul s (sf_div (sf_of_Z 1) c)) /\ (Rabs (fR (sf_mul s (sf_div (sf_of_Z 1) c))) <= 5 / L + b2 (-515))%R.
Proof.
  intros Ns Bs. pose proof f_c as C. pose proof f_c0 as C0. pose proof f_L0 as L0. pose proof f_invL as IL. assert (PI : (0 < / L)%R) by (apply Rinv_0_lt_compat; auto). pose proof G as (_ & Nc & _). pose proof f_L as [L1 L2].
  assert (B1 : (Rabs (1 / fR c) <= 21 / 10 * (/ L * / L))%R).
  { assert (PC : (0 < Rabs (fR c))%R) by (apply Rabs_pos_lt; auto). unfold Rdiv. rewrite Rabs_mult, Rabs_inv, Rabs_R1. apply (Rmult_le_reg_r (Rabs (fR c))); auto. rewrite Rmult_assoc, Rinv_l, Rmult_1_r by lra.
    apply Rle_trans with (21 / 10 * (/ L * / L) * (49 / 100 * (L * L)))%R; [|apply Rmult_le_compat_l; [nra|lra]]. replace (21 / 10 * (/ L * / L) * (49 / 100 * (L * L)))%R with (1029 / 1000)%R by (field; lra). lra. }
  assert (I2 : (/ L * / L <= b2 900)%R) by (change 900 with (450 + 450); rewrite bpow_plus; apply Rmult_le_compat; lra).
  pose proof f_huge as HU. assert (Nq : num (sf_div (sf_of_Z 1) c)).
  { apply div_fin; auto; [apply num_one|]. rewrite fR_one. pose proof (bpow_le radix2 902 1000 ltac:(lia)) as HH. pose proof (bpow_ge_0 radix2 900). assert (b2 902 = 4 * b2 900)%R by (change 902 with (2 + 900); rewrite bpow_plus; reflexivity). lra. }
  destruct (div_ok (sf_of_Z 1) c (proj1 num_one) (proj1 Nc) (proj2 Nq) C0) as [E _]. rewrite fR_one in E. set (i := sf_div (sf_of_Z 1) c) in *. pose proof (Rabs_triang_inv (fR i) (1 / fR c)) as K. pose proof ulp2_1024 as U1. pose proof ulp2_pos as U0.
  assert (U2 : (ulp2 * Rabs (1 / fR c) <= / 1024 * (21 / 10 * (/ L * / L)))%R) by (apply Rmult_le_compat; [lra|apply Rabs_pos|lra|lra]).
  assert (LL : (0 < / L * / L)%R) by nra. assert (B2 : (Rabs (fR i) <= 22 / 10 * (/ L * / L) + tiny)%R) by lra.
  assert (B3 : (Rabs (fR s * fR i) <= 47 / 10 * / L + 21 / 10 * (tiny * L))%R).
  { rewrite Rabs_mult. apply Rle_trans with (21 / 10 * L * (22 / 10 * (/ L * / L) + tiny))%R; [apply Rmult_le_compat; try apply Rabs_pos; auto|]. replace (21 / 10 * L * (22 / 10 * (/ L * / L) + tiny))%R with (462 / 100 * / L + 21 / 10 * (tiny * L))%R by (field; lra). lra. }
  pose proof f_tL as TL. pose proof tiny_pos as Pt. assert (T5 : (b2 (-560) <= / 4 * b2 (-515))%R) by (change (/ 4)%R with (b2 (-2)); rewrite <- bpow_plus; apply bpow_le; lia).
  assert (P515 : (b2 (-515) <= 1)%R) by (apply (bpow_le radix2 (-515) 0); lia).
  assert (Nm : num (sf_mul s i)).
  { apply mul_fin; auto. pose proof (bpow_le radix2 453 1000 ltac:(lia)) as HH. assert (b2 453 = 8 * b2 450)%R by (change 453 with (3 + 450); rewrite bpow_plus; reflexivity). assert (1 <= b2 450)%R by (apply (bpow_le radix2 0 450); lia). lra. }
  split; auto. destruct (mul_ok s i (proj1 Ns) (proj1 Nq) (proj2 Nm)) as [E2 _]. pose proof (Rabs_triang_inv (fR (sf_mul s i)) (fR s * fR i)) as K2.
  assert (ulp2 * Rabs (fR s * fR i) <= / 1024 * (47 / 10 * / L + 21 / 10 * (tiny * L)))%R by (apply Rmult_le_compat; [lra|apply Rabs_pos|lra|lra]). pose proof f_tiny. pose proof (bpow_le radix2 (-1000) (-560) ltac:(lia)). change (5 / L)%R with (5 * / L)%R. assert (0 <= tiny * L)%R by nra. lra.
Qed.
Lemma fin_neg r : k <= r < m -> isfin (sf_add (z r) (sf_mul (SFopp (al_sub pf m k z v c)) (v r))) = true.
Proof.
  intros Hr. destruct (f_sum _ _ (subl_err pf m k z v Hk Nz (proj1 G))) as [Ns Bs]. destruct (f_div _ Ns Bs) as [Na Ba]. apply f_entry; auto.
  - split; [rewrite opp_valid; apply Na|rewrite opp_fin; apply Na].
  - unfold al_sub. rewrite opp_ok, Rabs_Ropp. exact Ba.
Qed.
Lemma fin_mul r : k <= r < m -> isfin (sf_mul (al_mul pf m k v c z) (v r)) = true /\ isfin (sf_add (z r) (sf_mul (al_mul pf m k v c z) (v r))) = true.
Proof.
  intros Hr. pose proof (sums_err pf m k v z Hk (proj1 G) Nz) as K. rewrite (Rs_ext k m (fun r => Rabs (fR (v r)) * Rabs (fR (z r)))%R (fun r => Rabs (fR (z r)) * Rabs (fR (v r)))%R) in K by (intros; ring).
  destruct (f_sum _ _ K) as [Ns Bs]. destruct (f_mul _ Ns Bs) as [Na Ba]. apply f_entry; auto.
Qed.
End Fin.

(** Finiteness and length, downwards, for all columns at once. *)
Lemma fin_len n p d : 1 <= n -> (kap n <= / 1024)%R -> 0 <= d <= p -> p <= n -> (10 * IZR p * kap n <= / 16)%R -> (gr (10 * kap n) d + IZR d * gr (10 * kap n) d * omg n <= 2)%R.
Proof.
  intros Hn Hkap Hd Hp Hsz. pose proof (q_bound n d p Hn ltac:(lia)) as QB. destruct (Z.eq_dec p 0) as [E|E].
  - assert (d = 0) by lia. subst. unfold gr. cbn [Z.to_nat pow]. lra.
  - destruct (RndQREx.qr_bounds n p Hn ltac:(lia) Hsz) as [[_ B1] [_ B2]]. change (IZR (n + 4) * ulp2)%R with (kap n) in B1.
    assert (S1 : (1 <= IZR p <= IZR n)%R) by (split; apply IZR_le; lia). pose proof (m_b43 n Hn Hkap) as M43.
    assert (SP : (IZR p * IZR n * powerRZ 2 (-537) <= / 16)%R).
    { rewrite pz. apply Rle_trans with (b2 43 * b2 43 * b2 (-537))%R; [apply Rmult_le_compat_r; [apply bpow_ge_0|apply Rmult_le_compat; lra]|]. rewrite <- !bpow_plus. change (/ 16)%R with (b2 (-4)). apply bpow_le. lia. }
    lra.
Qed.
Lemma fin_down n p (P : Z -> Z -> Z -> R) (y : Z -> Z -> Z -> R) (Fin : Z -> Prop) : 1 <= n -> (kap n <= / 1024)%R -> 0 <= p <= n -> (10 * IZR p * kap n <= / 16)%R -> (forall q, orthogonal n (P q)) ->
  Fin p -> (forall j, 0 <= j < n -> (vlen n (y j p) <= 1)%R) ->
  (forall q, 0 <= q < p -> Fin (q + 1) -> (forall j, 0 <= j < n -> (vlen n (y j (q + 1)%Z) <= 2)%R) -> Fin q) ->
  (forall q j, 0 <= q < p -> 0 <= j < n -> Fin q -> (vlen n (fun r => y j q r - mvec n (P q) (y j (q + 1)%Z) r) <= 10 * kap n * vlen n (y j (q + 1)%Z) + omg n)%R) -> Fin 0.
Proof.
  intros Hn Hkap Hp Hsz OP F0 Y0 HF HS. pose proof (kap_u n Hn) as Ku. pose proof ulp2_pos as Pu. assert (Eta : (0 <= 10 * kap n)%R) by lra. pose proof (omg_pos n Hn) as Po.
  assert (G : forall d, 0 <= d -> d <= p -> Fin (p - d) /\ forall j, 0 <= j < n -> (vlen n (y j (p - d)%Z) <= gr (10 * kap n) d + IZR d * gr (10 * kap n) d * omg n)%R); [|replace 0 with (p - p) by lia; apply G; lia].
  refine (natlike_ind _ _ _).
  - intros _. rewrite Z.sub_0_r. split; auto. intros j Hj. unfold gr. cbn [Z.to_nat pow]. specialize (Y0 j Hj). lra.
  - intros d Hd IH Hdp. change (Z.succ d) with (d + 1) in *. destruct (IH ltac:(lia)) as [F1 L1]. clear IH. set (q := p - (d + 1)). assert (Eq : p - d = q + 1) by (unfold q; lia). rewrite Eq in F1, L1.
    assert (FQ : Fin q). { apply HF; [unfold q; lia|auto|]. intros j Hj. eapply Rle_trans; [apply L1; auto|]. apply (fin_len n p d); auto; lia. }
    split; [exact FQ|]. intros j Hj. pose proof (HS q j ltac:(unfold q; lia) Hj FQ) as K. specialize (L1 j Hj).
    pose proof (vlen_diff n (mvec n (P q) (y j (q + 1))) (y j q)) as K2. rewrite vlen_sub in K2. rewrite (vlen_orth n (P q)) in K2 by apply OP.
    rewrite gr_S by auto. pose proof (gr_1 (10 * kap n) d Eta) as G1. set (gd := gr (10 * kap n) d) in *. rewrite plus_IZR. set (e := (10 * kap n)%R) in *. set (vv := vlen n (y j (q + 1)%Z)) in *.
    assert (Q1 : ((1 + e) * vv <= (1 + e) * (gd + IZR d * gd * omg n))%R) by (apply Rmult_le_compat_l; lra). assert (Q2 : (omg n <= (1 + e) * gd * omg n)%R) by (assert (1 <= (1 + e) * gd)%R by nra; nra).
    apply Rle_trans with ((1 + e) * (gd + IZR d * gd * omg n) + omg n)%R; [lra|]. replace ((1 + e) * gd + (IZR d + 1) * ((1 + e) * gd) * omg n)%R with ((1 + e) * (gd + IZR d * gd * omg n) + (1 + e) * gd * omg n)%R by ring. lra.
Qed.

(** Applying a computed reflection to a vector in float64, in the three forms
    the QR code uses. *)
From Coq Require Import ZArith List Reals Lia Lra Psatz Bool Floats.SpecFloat.
From Flocq Require Import Core.
From Verif Require Import Base BaseLemmas Scalar Float64 RealOps RSum House RealVec FSum QRFacts QRReal RndSpec FloatR RndSum RndTri RndHouse RndRefl.
Open Scope Z_scope.

Section Apply.
Variables (pf m : Z).
Notation SO := (SFOps pf).
Hypothesis Hm : 1 <= m.
Hypothesis Hkap : (kap m <= / 1024)%R.

(** The reflection I - 2 v v^T / v^T v of the computed vector. *)
Definition rP (k : Z) (v : Z -> sf) : Z -> Z -> R := refl (cut k v) (- (dot m (cut k v) (cut k v) / 2)).
Definition good (k : Z) (v : Z -> sf) (c : sf) : Prop :=
  (forall r, k <= r < m -> num (v r)) /\ num c /\ (0 < dot m (cut k v) (cut k v))%R /\ (b2 (-450) <= vlen m (cut k v) <= b2 513)%R /\
  (Rabs (fR c + dot m (cut k v) (cut k v) / 2) <= 21 / 10 * kap m * (dot m (cut k v) (cut k v) / 2))%R /\
  (Rabs (fR c) <= 22 / 10 * b2 1022)%R.
Definition omg : R := (IZR m * b2 (-537))%R.
Lemma omg_pos : (0 < omg)%R. Proof. unfold omg. apply Rmult_lt_0_compat; [apply IZR_lt; lia|apply bpow_gt_0]. Qed.
Lemma rP_orth k v : orthogonal m (rP k v).
Proof. apply refl_orth. change (Rs 0 m (fun r => cut k v r * cut k v r)%R) with (dot m (cut k v) (cut k v)). field. Qed.
Lemma rP_low k v z r : 0 <= r < m -> r < k -> mvec m (rP k v) z r = z r.
Proof. intros Hr Hk. unfold rP. rewrite refl_vec by auto. unfold cut at 1. rewrite (proj2 (Z.ltb_lt _ _)) by auto. unfold Rdiv. ring. Qed.
Lemma rP_sym k v i j : rP k v i j = rP k v j i. Proof. apply refl_sym. Qed.

Lemma hh_good k x : 0 <= k < m -> (forall r, k <= r < m -> num (x r)) -> isfin (hh_a (O := SO) m x k) = true ->
  (b2 (-450) <= Rabs (fR (hh_a (O := SO) m x k)) <= b2 511)%R -> good k (hh_v (O := SO) m x k) (sf_mul (hh_a (O := SO) m x k) (hh_v (O := SO) m x k k)).
Proof.
  intros Hk Nx Fa [La Ua]. split; [|split; [|split; [|split; [|split]]]].
  - intros r Hr. apply (v_num pf m Hm Hkap k Hk x Nx Fa La Ua r Hr).
  - apply (c_num pf m Hm Hkap k Hk x Nx Fa La Ua).
  - apply (V_pos pf m Hm Hkap k Hk x Nx Fa La Ua).
  - apply (vlen_bounds pf m Hm Hkap k Hk x Nx Fa La Ua).
  - apply (c_V pf m Hm Hkap k Hk x Nx Fa La Ua).
  - pose proof (c_err pf m Hm Hkap k Hk x Nx Fa La Ua) as E. pose proof (av_bounds pf m Hm Hkap k Hk x Nx Fa La Ua) as [_ B]. pose proof (a_511 pf m k x Ua) as C.
    set (q := (fR (hh_a (O := SO) m x k) * fR (hh_v (O := SO) m x k k))%R) in *. set (cc := sf_mul _ _) in *. pose proof (Rabs_triang_inv (fR cc) q). pose proof ulp2_1024. pose proof (Rabs_pos q). pose proof (bpow_gt_0 radix2 1022).
    assert (ulp2 * Rabs q <= / 1024 * Rabs q)%R by (apply Rmult_le_compat_r; lra). lra.
Qed.
Lemma abs_dot_le k y z : 0 <= k <= m -> (Rs k m (fun r => Rabs (y r) * Rabs (z r)) <= vlen m y * vlen m z)%R.
Proof.
  intros Hk. apply Rle_trans with (dot m (fun r => Rabs (y r)) (fun r => Rabs (z r))).
  - unfold dot. rewrite (Rs_split 0 k m) by lia. pose proof (absprod_nonneg 0 k y z). lra.
  - rewrite <- (vlen_abs m y), <- (vlen_abs m z). eapply Rle_trans; [apply Rle_abs|apply vlen_dot].
Qed.
Lemma apply_real k v c (zr zhr : Z -> R) (sg b : R) : 0 <= k < m -> good k v c ->
  (Rabs (sg - dot m zr (cut k v)) <= 1003 / 1000 * kap m * (vlen m zr * vlen m (cut k v)) + 102 / 100 * (IZR m * tiny))%R ->
  (Rabs (b - sg / fR c) <= ulp2 * Rabs (sg / fR c) + tiny)%R ->
  (forall r, 0 <= r < k -> zhr r = zr r) ->
  (forall r, k <= r < m -> (Rabs (zhr r - (zr r + b * fR (v r))) <= ulp2 * Rabs (zr r) + 3 * ulp2 * (Rabs b * Rabs (fR (v r))) + 2 * tiny)%R) ->
  (vlen m (fun r => zhr r - mvec m (rP k v) zr r) <= 10 * kap m * vlen m zr + omg)%R.
Proof.
  intros Hk (Nv & [Vc Fc] & PV & [L1 L2] & HcV & _) Hsg Hb Hlo Hhi. set (vr := cut k v) in *. set (V := dot m vr vr) in *.
  pose proof (kap_u m Hm) as Ku. pose proof ulp2_pos as Pu. pose proof tiny_pos as Pt. assert (Pm : (1 <= IZR m)%R) by (apply (IZR_le 1); lia).
  pose proof (ap_refl m vr zr zhr (fR c) sg b (21 / 10 * kap m) (1003 / 1000 * kap m) (102 / 100 * (IZR m * tiny)) ulp2 tiny ltac:(lia) PV ulp2_1024 ltac:(lra) ltac:(lra)) as K.
  assert (Pgt : (0 <= 102 / 100 * (IZR m * tiny))%R) by (apply Rmult_le_pos; [lra|apply Rmult_le_pos; lra]).
  specialize (K Pgt ltac:(lra) HcV Hsg Hb). fold V in K. unfold rP. fold vr V.
  assert (EV : forall r, k <= r < m -> vr r = fR (v r)) by (intros r Hr; unfold vr, cut; rewrite (proj2 (Z.ltb_ge _ _)) by lia; auto).
  eapply Rle_trans; [apply K|].
  - intros r Hr. destruct (Z_lt_ge_dec r k) as [L|L].
    + rewrite Hlo by lia. unfold vr, cut. rewrite (proj2 (Z.ltb_lt _ _)) by lia. replace (zr r - (zr r + b * 0))%R with 0%R by ring. rewrite Rabs_R0, Rmult_0_r.
      pose proof (Rabs_pos (zr r)). nra.
    + rewrite EV by lia. apply Hhi. lia.
  - (* the numbers *)
    assert (PL : (0 < vlen m vr)%R) by (pose proof (bpow_gt_0 radix2 (-450)); lra). pose proof (vlen_pos m zr) as PZ.
    apply Rplus_le_compat; [apply Rmult_le_compat_r; lra|].
    assert (T1 : (24 / 10 * (102 / 100 * (IZR m * tiny)) / vlen m vr <= 3 * IZR m * b2 (-625))%R).
    { apply (Rmult_le_reg_r (vlen m vr)); auto. unfold Rdiv at 1. rewrite Rmult_assoc, Rinv_l, Rmult_1_r by lra.
      apply Rle_trans with (3 * IZR m * b2 (-625) * b2 (-450))%R; [|apply Rmult_le_compat_l; [pose proof (bpow_gt_0 radix2 (-625)); nra|auto]].
      rewrite (Rmult_assoc (3 * IZR m)), <- bpow_plus. change (-625 + -450) with (-1075). rewrite <- tiny_b. assert (0 <= IZR m * tiny)%R by nra. lra. }
    assert (T2 : (12 / 10 * tiny * vlen m vr <= 2 * b2 (-562))%R).
    { apply Rle_trans with (12 / 10 * tiny * b2 513)%R; [apply Rmult_le_compat_l; lra|]. rewrite tiny_b, (Rmult_assoc (12 / 10)), <- bpow_plus. change (-1075 + 513) with (-562). pose proof (bpow_gt_0 radix2 (-562)). lra. }
    pose proof (bpow_le radix2 (-625) (-540) ltac:(lia)) as B1. pose proof (bpow_le radix2 (-562) (-540) ltac:(lia)) as B2. pose proof (bpow_le radix2 (-1075) (-540) ltac:(lia)) as B3. rewrite <- tiny_b in B3.
    unfold omg. change (-537) with (-540 + 3). rewrite bpow_plus. change (b2 3) with 8%R. pose proof (bpow_gt_0 radix2 (-540)) as B4.
    assert (3 * IZR m * b2 (-625) <= 3 * IZR m * b2 (-540))%R by (apply Rmult_le_compat_l; lra).
    assert (2 * IZR m * tiny <= 2 * IZR m * b2 (-540))%R by (apply Rmult_le_compat_l; lra).
    assert (b2 (-540) <= IZR m * b2 (-540))%R by nra. lra.
Qed.
(** The inner product of the code against the exact one. *)
Lemma sum_real k v (z : Z -> sf) (zr : Z -> R) (s : R) : 0 <= k < m -> (forall r, k <= r < m -> zr r = fR (z r)) ->
  (Rabs (s - Rs k m (fun r => fR (z r) * fR (v r))) <= (gw (Z.to_nat (m - k)) - 1) * Rs k m (fun r => Rabs (fR (z r)) * Rabs (fR (v r))) + gw (Z.to_nat (m - k)) * (IZR (m - k) * tiny))%R ->
  (Rabs (s - dot m zr (cut k v)) <= 1002 / 1000 * (kap m - 4 * ulp2) * (vlen m zr * vlen m (cut k v)) + 101 / 100 * (IZR m * tiny))%R.
Proof.
  intros Hk Hz Hsg. pose proof (kap_u m Hm) as Ku. pose proof ulp2_pos as Pu. pose proof tiny_pos as Pt. pose proof (gw_kap m Hkap (m - k) ltac:(lia)) as G. pose proof (gw_ge1 (Z.to_nat (m - k))) as G1. set (g := gw (Z.to_nat (m - k))) in *.
  assert (PN : (0 <= IZR (m - k) <= IZR m)%R) by (split; apply IZR_le; lia). set (vr := cut k v) in *.
  assert (EV : forall r, k <= r < m -> vr r = fR (v r)) by (intros r Hr; unfold vr, cut; rewrite (proj2 (Z.ltb_ge _ _)) by lia; auto).
  assert (Eq : dot m zr vr = Rs k m (fun r => fR (z r) * fR (v r))%R).
  { rewrite dot_comm. unfold vr. rewrite cut_dot by lia. apply Rs_ext. intros. rewrite Hz by auto. ring. }
  assert (Es : (0 <= Rs k m (fun r => Rabs (fR (z r)) * Rabs (fR (v r))) <= vlen m zr * vlen m vr)%R).
  { split; [apply absprod_nonneg|]. rewrite (Rs_ext k m _ (fun r => Rabs (zr r) * Rabs (vr r))%R) by (intros; rewrite EV, Hz by auto; auto). apply abs_dot_le. lia. }
  rewrite Eq. eapply Rle_trans; [exact Hsg|]. apply Rplus_le_compat; [apply Rmult_le_compat; lra|].
  assert (0 <= IZR (m - k) * tiny <= IZR m * tiny)%R by (split; [apply Rmult_le_pos; lra|apply Rmult_le_compat_r; lra]).
  apply Rmult_le_compat; lra.
Qed.
Lemma apply_any k v c (z : Z -> sf) (zr zhr : Z -> R) (sg : sf) (ep b : R) : 0 <= k < m -> good k v c ->
  (forall r, k <= r < m -> zr r = fR (z r)) -> (ep = 1 \/ ep = -1)%R -> sf_valid sg = true ->
  (Rabs (ep * fR sg - Rs k m (fun r => fR (z r) * fR (v r))) <= (gw (Z.to_nat (m - k)) - 1) * Rs k m (fun r => Rabs (fR (z r)) * Rabs (fR (v r))) + gw (Z.to_nat (m - k)) * (IZR (m - k) * tiny))%R ->
  isfin (sf_div sg c) = true -> b = (ep * fR (sf_div sg c))%R ->
  (forall r, 0 <= r < k -> zhr r = zr r) ->
  (forall r, k <= r < m -> (Rabs (zhr r - (zr r + b * fR (v r))) <= ulp2 * Rabs (zr r) + 3 * ulp2 * (Rabs b * Rabs (fR (v r))) + 2 * tiny)%R) ->
  (vlen m (fun r => zhr r - mvec m (rP k v) zr r) <= 10 * kap m * vlen m zr + omg)%R.
Proof.
  intros Hk G0 Hz He Vs Hsg Fd Eb Hlo Hhi. apply (apply_real k v c zr zhr (ep * fR sg) b Hk G0); auto.
  - eapply Rle_trans; [apply (sum_real k v z zr _ Hk Hz Hsg)|]. pose proof (kap_u m Hm). pose proof ulp2_pos. pose proof tiny_pos. assert (0 <= IZR m * tiny)%R by (apply Rmult_le_pos; [apply IZR_le; lia|lra]).
    apply Rplus_le_compat; [apply Rmult_le_compat_r; [apply Rmult_le_pos; apply vlen_pos|lra]|lra].
  - destruct G0 as (Nv & [Vc Fc] & PV & _ & HcV & _).
    assert (cN : fR c <> 0%R). { intros E. rewrite E in HcV. rewrite Rplus_0_l, Rabs_pos_eq in HcV by lra. nra. }
    rewrite Eb. destruct (div_ok sg c Vs Vc Fd cN) as [D _]. replace (ep * fR (sf_div sg c) - ep * fR sg / fR c)%R with (ep * (fR (sf_div sg c) - fR sg / fR c))%R by (unfold Rdiv; ring).
    replace (ep * fR sg / fR c)%R with (ep * (fR sg / fR c))%R by (unfold Rdiv; ring). rewrite !Rabs_mult.
    replace (Rabs ep) with 1%R by (destruct He as [-> | ->]; [rewrite Rabs_R1|rewrite Rabs_left]; lra). rewrite !Rmult_1_l. exact D.
Qed.

(** One entry: z + fl(b v), rounded. *)
Lemma entry_err (z w t : sf) (zr b vr : R) : sf_valid z = true -> sf_valid w = true -> fR z = zr -> t = sf_add z w -> isfin t = true ->
  (Rabs (fR w - b * vr) <= ulp2 * Rabs (b * vr) + tiny)%R ->
  (Rabs (fR t - (zr + b * vr)) <= ulp2 * Rabs zr + 3 * ulp2 * (Rabs b * Rabs vr) + 2 * tiny)%R.
Proof.
  intros Vz Vw <- -> Ft Hw. destruct (add_ok z w Vz Vw Ft) as [K _]. rewrite <- Rabs_mult. set (p := (b * vr)%R) in *. pose proof ulp2_1024. pose proof tiny_pos. pose proof (Rabs_pos p).
  replace (fR (sf_add z w) - (fR z + p))%R with ((fR (sf_add z w) - (fR z + fR w)) + (fR w - p))%R by ring. eapply Rle_trans; [apply Rabs_triang|].
  assert (Rabs (fR z + fR w) <= Rabs (fR z) + (Rabs p + Rabs (fR w - p)))%R.
  { eapply Rle_trans; [apply Rabs_triang|]. apply Rplus_le_compat_l. replace (fR w) with (p + (fR w - p))%R at 1 by ring. apply Rabs_triang. }
  assert (ulp2 * Rabs (fR z + fR w) <= ulp2 * (Rabs (fR z) + (Rabs p + (ulp2 * Rabs p + tiny))))%R by (apply Rmult_le_compat_l; lra).
  assert (ulp2 * (ulp2 * Rabs p) <= / 1024 * (ulp2 * Rabs p))%R by (apply Rmult_le_compat_r; nra). assert (0 <= ulp2 * Rabs p)%R by nra. assert (ulp2 * tiny <= / 1024 * tiny)%R by nra. lra.
Qed.
Lemma sums_err k (z v : Z -> sf) : 0 <= k < m -> (forall r, k <= r < m -> num (z r)) -> (forall r, k <= r < m -> num (v r)) ->
  apx (Z.to_nat (m - k)) (Rs k m (fun r => fR (z r) * fR (v r))%R) (Rs k m (fun r => Rabs (fR (z r)) * Rabs (fR (v r)))%R) (IZR (m - k) * tiny) (fadds (O := SO) (sf_zero : @F SO) k m (fun r => sf_mul (z r) (v r))).
Proof.
  intros Hk Nz Nv. pose proof (fadds_apx pf k m 1 (fun r => sf_mul (z r) (v r)) (fun r => fR (z r) * fR (v r))%R (fun r => Rabs (fR (z r)) * Rabs (fR (v r)))%R (fun _ => tiny) ltac:(lia)) as K.
  rewrite Rs_const in K by lia. replace (1 + Z.to_nat (m - k) - 1)%nat with (Z.to_nat (m - k)) in K by lia. apply K. intros. apply apx_mul; auto.
Qed.
Lemma subl_err k (z v : Z -> sf) : 0 <= k < m -> (forall r, k <= r < m -> num (z r)) -> (forall r, k <= r < m -> num (v r)) ->
  apx (Z.to_nat (m - k)) (- Rs k m (fun r => fR (z r) * fR (v r))%R) (Rs k m (fun r => Rabs (fR (z r)) * Rabs (fR (v r)))%R) (IZR (m - k) * tiny) (fsubl (O := SO) (sf_zero : @F SO) k m (fun r => sf_mul (z r) (v r))).
Proof.
  intros Hk Nz Nv. rewrite fsubl_adds. pose proof (fadds_apx pf k m 1 (fun r => SFopp (sf_mul (z r) (v r))) (fun r => - (fR (z r) * fR (v r)))%R (fun r => Rabs (fR (z r)) * Rabs (fR (v r)))%R (fun _ => tiny) ltac:(lia)) as K.
  rewrite Rs_const, Rs_opp in K by lia. replace (1 + Z.to_nat (m - k) - 1)%nat with (Z.to_nat (m - k)) in K by lia. apply K. intros. apply apx_opp, apx_mul; auto.
Qed.
Lemma opp_fin y : isfin (SFopp y) = isfin y. Proof. destruct y; reflexivity. Qed.
Lemma opp_valid y : sf_valid (SFopp y) = sf_valid y. Proof. destruct y; reflexivity. Qed.

(** The form of the decomposition: z - alpha v. *)
Definition al_sub (k : Z) (z v : Z -> sf) (c : sf) : sf := sf_div (fsubl (O := SO) (sf_zero : @F SO) k m (fun r => sf_mul (z r) (v r))) c.
Definition al_add (k : Z) (z v : Z -> sf) (c : sf) : sf := sf_div (fadds (O := SO) (sf_zero : @F SO) k m (fun r => sf_mul (z r) (v r))) c.
Section Forms.
Variables (k : Z) (v : Z -> sf) (c : sf) (z zh : Z -> sf) (zr zhr : Z -> R).
Hypothesis Hk : 0 <= k < m.
Hypothesis G : good k v c.
Hypothesis Vz : forall r, k <= r < m -> sf_valid (z r) = true.
Hypothesis Fz : forall r, k <= r < m -> isfin (zh r) = true.
Hypothesis Hz : forall r, k <= r < m -> zr r = fR (z r).
Hypothesis Hh : forall r, k <= r < m -> zhr r = fR (zh r).
Hypothesis Hlo : forall r, 0 <= r < k -> zhr r = zr r.
Lemma prod_err al r : k <= r < m -> sf_valid al = true -> isfin (sf_mul al (v r)) = true -> (Rabs (fR (sf_mul al (v r)) - fR al * fR (v r)) <= ulp2 * Rabs (fR al * fR (v r)) + tiny)%R.
Proof. intros Hr Va F. destruct G as (Nv & _). apply mul_ok; auto. apply Nv. auto. Qed.
Lemma form_sub : (forall r, k <= r < m -> zh r = sf_sub (z r) (sf_mul (al_sub k z v c) (v r))) ->
  (vlen m (fun r => zhr r - mvec m (rP k v) zr r) <= 10 * kap m * vlen m zr + omg)%R.
Proof.
  intros E. assert (FF : forall r, k <= r < m -> num (z r) /\ isfin (sf_mul (al_sub k z v c) (v r)) = true).
  { intros r Hr. specialize (Fz r Hr). rewrite E in Fz by auto. apply sf_sub_fin in Fz. destruct Fz. split; auto. split; auto. }
  destruct (sf_mul_fin _ _ (proj2 (FF k ltac:(lia)))) as [Fa _]. destruct G as (Nv & [Vc Fc] & _).
  destruct (subl_err k z v Hk (fun r Hr => proj1 (FF r Hr)) Nv) as (Vs & _ & _ & Es & _). specialize (Es (sf_div_fin _ _ Fa)).
  assert (Va : sf_valid (al_sub k z v c) = true) by (apply div_valid; auto).
  apply (apply_any k v c z zr zhr (fsubl (O := SO) (sf_zero : @F SO) k m (fun r => sf_mul (z r) (v r))) (-1)%R (- fR (al_sub k z v c))%R Hk G Hz); auto.
  - match goal with |- (Rabs ?l <= _)%R => replace l with (- (fR (fsubl (O := SO) (sf_zero : @F SO) k m (fun r => sf_mul (z r) (v r))) - - Rs k m (fun r => fR (z r) * fR (v r))))%R by ring end.
    rewrite Rabs_Ropp. exact Es.
  - unfold al_sub. ring.
  - intros r Hr. rewrite Hh by auto. apply (entry_err (z r) (SFopp (sf_mul (al_sub k z v c) (v r)))); auto.
    + rewrite opp_valid. apply mul_valid; auto. apply Nv. auto.
    + symmetry. auto.
    + rewrite E by auto. apply sub_add.
    + rewrite opp_ok. pose proof (prod_err _ r Hr Va (proj2 (FF r Hr))) as P.
      replace (- fR (sf_mul (al_sub k z v c) (v r)) - - fR (al_sub k z v c) * fR (v r))%R with (- (fR (sf_mul (al_sub k z v c) (v r)) - fR (al_sub k z v c) * fR (v r)))%R by ring.
      replace (- fR (al_sub k z v c) * fR (v r))%R with (- (fR (al_sub k z v c) * fR (v r)))%R by ring. rewrite !Rabs_Ropp. exact P.
Qed.
(** The form of QT: z + (- alpha) v. *)
Lemma form_neg : (forall r, k <= r < m -> zh r = sf_add (z r) (sf_mul (SFopp (al_sub k z v c)) (v r))) ->
  (vlen m (fun r => zhr r - mvec m (rP k v) zr r) <= 10 * kap m * vlen m zr + omg)%R.
Proof.
  intros E. assert (FF : forall r, k <= r < m -> num (z r) /\ isfin (sf_mul (SFopp (al_sub k z v c)) (v r)) = true).
  { intros r Hr. specialize (Fz r Hr). rewrite E in Fz by auto. apply sf_add_fin in Fz. destruct Fz. split; auto. split; auto. }
  destruct (sf_mul_fin _ _ (proj2 (FF k ltac:(lia)))) as [Fa _]. rewrite opp_fin in Fa. destruct G as (Nv & [Vc Fc] & _).
  destruct (subl_err k z v Hk (fun r Hr => proj1 (FF r Hr)) Nv) as (Vs & _ & _ & Es & _). specialize (Es (sf_div_fin _ _ Fa)).
  assert (Va : sf_valid (SFopp (al_sub k z v c)) = true) by (rewrite opp_valid; apply div_valid; auto).
  apply (apply_any k v c z zr zhr (fsubl (O := SO) (sf_zero : @F SO) k m (fun r => sf_mul (z r) (v r))) (-1)%R (fR (SFopp (al_sub k z v c)))%R Hk G Hz); auto.
  - match goal with |- (Rabs ?l <= _)%R => replace l with (- (fR (fsubl (O := SO) (sf_zero : @F SO) k m (fun r => sf_mul (z r) (v r))) - - Rs k m (fun r => fR (z r) * fR (v r))))%R by ring end.
    rewrite Rabs_Ropp. exact Es.
  - rewrite opp_ok. unfold al_sub. ring.
  - intros r Hr. rewrite Hh by auto. apply (entry_err (z r) (sf_mul (SFopp (al_sub k z v c)) (v r))); auto.
    + apply mul_valid; auto. apply Nv. auto.
    + symmetry. auto.
    + apply (prod_err _ r Hr Va (proj2 (FF r Hr))).
Qed.
End Forms.
(** The forms of the solvers: z + alpha v.  A row the solver does not use may
    hold anything; it then counts as exact. *)
Section Solvers.
Variables (k : Z) (v : Z -> sf) (c : sf) (z : Z -> sf) (zr zhr : Z -> R).
Hypothesis Hk : 0 <= k < m.
Hypothesis G : good k v c.
Hypothesis Hz : forall r, k <= r < m -> zr r = fR (z r).
Hypothesis Hlo : forall r, 0 <= r < k -> zhr r = zr r.
Hypothesis Nz : forall r, k <= r < m -> num (z r).
Let rows (al : sf) := forall r, k <= r < m -> (zhr r = fR (sf_add (z r) (sf_mul al (v r))) /\ isfin (sf_add (z r) (sf_mul al (v r))) = true) \/ zhr r = (zr r + fR al * fR (v r))%R.
Lemma rows_err al : sf_valid al = true -> rows al -> forall r, k <= r < m ->
  (Rabs (zhr r - (zr r + fR al * fR (v r))) <= ulp2 * Rabs (zr r) + 3 * ulp2 * (Rabs (fR al) * Rabs (fR (v r))) + 2 * tiny)%R.
Proof.
  intros Va H r Hr. destruct (H r Hr) as [[-> F]| ->].
  - destruct G as (Nv & _). apply (entry_err (z r) (sf_mul al (v r))); auto.
    + apply Nz. auto.
    + apply mul_valid; auto. apply Nv. auto.
    + symmetry. auto.
    + apply (prod_err k v c G al r Hr Va). apply (sf_add_fin _ _ F).
  - unfold Rminus. rewrite Rplus_opp_r, Rabs_R0. pose proof (Rabs_pos (zr r)). pose proof (Rabs_pos (fR al)). pose proof (Rabs_pos (fR (v r))). pose proof ulp2_pos. pose proof tiny_pos.
    assert (0 <= Rabs (fR al) * Rabs (fR (v r)))%R by nra. nra.
Qed.
Lemma form_add : isfin (al_add k z v c) = true -> rows (al_add k z v c) ->
  (vlen m (fun r => zhr r - mvec m (rP k v) zr r) <= 10 * kap m * vlen m zr + omg)%R.
Proof.
  intros Fa E. pose proof G as (Nv & [Vc Fc] & _).
  destruct (sums_err k z v Hk Nz Nv) as (Vs & _ & _ & Es & _). specialize (Es (sf_div_fin _ _ Fa)).
  assert (Va : sf_valid (al_add k z v c) = true) by (apply div_valid; auto).
  apply (apply_any k v c z zr zhr (fadds (O := SO) (sf_zero : @F SO) k m (fun r => sf_mul (z r) (v r))) 1%R (fR (al_add k z v c))%R Hk G Hz); auto.
  - rewrite Rmult_1_l. exact Es.
  - unfold al_add. ring.
  - apply rows_err; auto.
Qed.
Definition al_mul : sf := sf_mul (fadds (O := SO) (sf_zero : @F SO) k m (fun r => sf_mul (v r) (z r))) (sf_div (sf_of_Z 1) c).
Lemma form_mul : isfin al_mul = true -> rows al_mul ->
  (vlen m (fun r => zhr r - mvec m (rP k v) zr r) <= 10 * kap m * vlen m zr + omg)%R.
Proof.
  intros Fa E. pose proof G as (Nv & [Vc Fc] & PV & _ & HcV & Uc). destruct (sf_mul_fin _ _ Fa) as [Fs Fi].
  destruct (sums_err k v z Hk Nv Nz) as (Vs & _ & _ & Es & _). specialize (Es Fs).
  assert (cN : fR c <> 0%R). { intros E0. rewrite E0 in HcV. rewrite Rplus_0_l, Rabs_pos_eq in HcV by lra. nra. }
  assert (Vi : sf_valid (sf_div (sf_of_Z 1) c) = true) by (apply div_valid; auto; apply num_one).
  assert (Va : sf_valid al_mul = true) by (apply mul_valid; auto).
  set (s := fadds (O := SO) (sf_zero : @F SO) k m (fun r => sf_mul (v r) (z r))) in *. set (i := sf_div (sf_of_Z 1) c) in *.
  destruct (mul_ok s i Vs Vi Fa) as [Ma _]. fold al_mul in Ma.
  destruct (div_ok (sf_of_Z 1) c (proj1 num_one) Vc Fi cN) as [Di _]. fold i in Di. rewrite fR_one in Di.
  assert (Hi : (Rabs (fR i * fR c - 1) <= 32 / 10 * ulp2)%R).
  { replace (fR i * fR c - 1)%R with ((fR i - 1 / fR c) * fR c)%R by (field; auto). rewrite Rabs_mult.
    assert (P : (0 < Rabs (fR c))%R) by (apply Rabs_pos_lt; auto). assert (K : (Rabs (1 / fR c) * Rabs (fR c) = 1)%R) by (rewrite <- Rabs_mult; replace (1 / fR c * fR c)%R with 1%R by (field; auto); apply Rabs_R1).
    assert (tiny * Rabs (fR c) <= tiny * (22 / 10 * b2 1022))%R by (apply Rmult_le_compat_l; [pose proof tiny_pos; lra|auto]).
    assert (Et : (tiny * b2 1022 = ulp2)%R) by (rewrite tiny_b, <- bpow_plus, ulp2_b; reflexivity).
    assert (Rabs (fR i - 1 / fR c) * Rabs (fR c) <= (ulp2 * Rabs (1 / fR c) + tiny) * Rabs (fR c))%R by (apply Rmult_le_compat_r; lra).
    replace ((ulp2 * Rabs (1 / fR c) + tiny) * Rabs (fR c))%R with (ulp2 * (Rabs (1 / fR c) * Rabs (fR c)) + tiny * Rabs (fR c))%R in * by ring. rewrite K in *.
    replace (tiny * (22 / 10 * b2 1022))%R with (22 / 10 * (tiny * b2 1022))%R in * by ring. rewrite Et in *. lra. }
  apply (apply_real k v c zr zhr (fR s * fR i * fR c) (fR al_mul) Hk G); auto.
  - pose proof (sum_real k v z zr (fR s) Hk Hz) as K.
    rewrite (Rs_ext k m (fun r => fR (z r) * fR (v r))%R (fun r => fR (v r) * fR (z r))%R) in K by (intros; ring).
    rewrite (Rs_ext k m (fun r => Rabs (fR (z r)) * Rabs (fR (v r)))%R (fun r => Rabs (fR (v r)) * Rabs (fR (z r)))%R) in K by (intros; ring). specialize (K Es).
    pose proof (vlen_dot m zr (cut k v)) as KD. set (q := dot m zr (cut k v)) in *. set (B := (vlen m zr * vlen m (cut k v))%R) in *.
    replace (fR s * fR i * fR c - q)%R with ((fR s - q) + fR s * (fR i * fR c - 1))%R by ring. eapply Rle_trans; [apply Rabs_triang|]. rewrite Rabs_mult.
    pose proof (kap_u m Hm). pose proof ulp2_pos. pose proof ulp2_1024. pose proof tiny_pos. assert (0 <= IZR m * tiny)%R by (apply Rmult_le_pos; [apply IZR_le; lia|lra]).
    assert (PB : (0 <= B)%R) by (pose proof (Rabs_pos q); lra).
    assert (S1 : (Rabs (fR s) <= 1003 / 1000 * B + 102 / 100 * (IZR m * tiny))%R).
    { replace (fR s) with (q + (fR s - q))%R by ring. eapply Rle_trans; [apply Rabs_triang|]. assert (1002 / 1000 * (kap m - 4 * ulp2) * B <= 2 / 1000 * B)%R by (apply Rmult_le_compat_r; lra). lra. }
    assert (S2 : (Rabs (fR s) * Rabs (fR i * fR c - 1) <= (1003 / 1000 * B + 102 / 100 * (IZR m * tiny)) * (32 / 10 * ulp2))%R) by (apply Rmult_le_compat; auto; apply Rabs_pos).
    assert (IZR m * tiny * ulp2 <= IZR m * tiny * / 1024)%R by (apply Rmult_le_compat_l; lra). assert (0 <= ulp2 * B)%R by nra.
    assert (0 <= (kap m - 4 * ulp2) * B)%R by (apply Rmult_le_pos; lra). nra.
  - replace (fR s * fR i * fR c / fR c)%R with (fR s * fR i)%R by (field; auto). exact Ma.
  - apply rows_err; auto.
Qed.
End Solvers.
End Apply.

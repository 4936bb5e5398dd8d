(** The rounding theorems on the Hessenberg transform: P, and on the Go types. *)
From Coq Require Import ZArith List Reals Lia Lra Psatz Bool Floats.SpecFloat.
From Flocq Require Import Core.
From Verif Require Import Base BaseLemmas Scalar Vector VecSpec Matrix MatSpec Array2D BlockM Diagonal RealMatrixM MatFacts MatrixOps Float64 RealOps RSum House RealVec TabTac FSum CholFacts QRSpec QRFacts QRReal RndSpec FloatR RndSum RndTri RndHouse RndRefl RndApply RndQRSpec RndQR RndQR2 SVDSpecR RndFrob Hess HessSpec HessFacts HessReal RndBidiag RndBidiagU RndBidiag2 RndBidiagSpec RndBidiag3 RndQREx RndHess RndHess2 RndHess3 RndHess4 RndHessSpec.
Open Scope Z_scope.

(** Products with factors that are close to orthogonal. *)
Lemma prod_close n (A T : Z -> Z -> R) (Uf U : Z -> Z -> R) b e : orthogonal n U -> (0 <= e)%R ->
  (frob n n (fun i j => A i j - Rs 0 n (fun s => Rs 0 n (fun t => U i s * T s t * U j t))) <= b)%R -> (frob n n (fun i j => Uf i j - U i j) <= e)%R ->
  (frob n n (fun i j => A i j - Rs 0 n (fun s => Rs 0 n (fun t => Uf i s * T s t * Uf j t))) <= b + e * (2 + e) * frob n n T)%R.
Proof.
  intros OU He H KU. set (dU := fun i j => (Uf i j - U i j)%R) in *.
  rewrite (frob_eq n n _ (fun i j => (A i j - Rs 0 n (fun s => Rs 0 n (fun t => U i s * T s t * U j t))) -
     (mmul n (mmul n dU T) (trm U) i j + (mmul n (mmul n U T) (trm dU) i j + mmul n (mmul n dU T) (trm dU) i j)))%R).
  2:{ intros i j Hi Hj. rewrite !mul3. unfold Rminus. rewrite <- !Rs_plus, Rplus_assoc, <- Ropp_plus_distr, <- Rs_plus. f_equal. f_equal. apply Rs_ext. intros s Hs. rewrite <- !Rs_plus. apply Rs_ext. intros t Ht. unfold dU. ring. }
  match goal with |- (frob n n (fun i j => ?X - ?Y) <= _)%R => pose proof (frob_add n n (fun i j => X)%R (fun i j => - Y)%R) as FA end.
  eapply Rle_trans; [exact FA|]. clear FA. rewrite frob_opp. apply Rplus_le_compat; [exact H|]. pose proof (frob_pos n n T) as PT. pose proof (frob_pos n n dU) as PU.
  assert (B1 : (frob n n (mmul n (mmul n dU T) (trm U)) <= e * frob n n T)%R).
  { rewrite frob_orth_r by auto. eapply Rle_trans; [apply frob_mul|]. apply Rmult_le_compat_r; auto. }
  assert (B2 : (frob n n (mmul n (mmul n U T) (trm dU)) <= frob n n T * e)%R).
  { eapply Rle_trans; [apply frob_mul|]. rewrite frob_orth_l, frob_trm by auto. apply Rmult_le_compat_l; auto. }
  assert (B3 : (frob n n (mmul n (mmul n dU T) (trm dU)) <= e * frob n n T * e)%R).
  { eapply Rle_trans; [apply frob_mul|]. rewrite frob_trm. apply Rmult_le_compat; auto; [apply frob_pos|]. eapply Rle_trans; [apply frob_mul|]. apply Rmult_le_compat_r; auto. }
  eapply Rle_trans; [apply frob_add|]. eapply Rle_trans; [apply Rplus_le_compat_l, frob_add|]. lra.
Qed.

Section P.
Variables (pf n : Z).
Notation SO := (SFOps pf).
Hypothesis Hn : 1 <= n.
Hypothesis Hkap : (kap n <= / 1024)%R.
Variable A : Z -> Z -> sf.
Hypothesis VA : forall r j, 0 <= r < n -> 0 <= j < n -> sf_valid (A r j) = true.
Notation M k := (fst (hs_iter (O := SO) n A k%Z)).
Notation Mf := (fst (hs_iter (O := SO) n A (n - 2)%Z)).
Notation Df := (snd (hs_iter (O := SO) n A (n - 2)%Z)).
Notation xc t := (fun i : Z => fst (hs_iter (O := SO) n A t%Z) i t%Z).
Notation skip t := (equalsWithULP pf (c_s pf n (t + 1)%Z (xc t)) sf_zero 1%Z).
Hypothesis FH : forall i j, 0 <= i < n -> 0 <= j < n -> i <= j + 1 -> isfin (Mf i j) = true.
Hypothesis RH : forall t, 0 <= t -> t + 1 <= n - 2 -> fR (Mf (t + 1)%Z t) <> 0%R -> (b2 (-450) <= Rabs (fR (Mf (t + 1)%Z t)) <= b2 511)%R.
Notation T k := (hp_iter (O := SO) n Mf Df k%Z).

Lemma T_low k i j : 1 <= k <= n - 1 -> i < k \/ j < k -> T k i j = (if i =? j then @fone SO else sf_zero).
Proof.
  intros Hk. remember (n - 1 - k) as d eqn:Ed. assert (Hd : 0 <= d) by lia. revert d Hd k Hk Ed. refine (natlike_ind _ _ _).
  - intros k Hk Ed H. unfold hp_iter. replace (n - 1 - k) with 0 by lia. reflexivity.
  - intros d Hd IH k Hk Ed H. rewrite hp_iter_S by lia. unfold hp_step. rewrite IH by lia. destruct (feq _ _); auto.
    destruct (Z.leb_spec k i); destruct (Z.leb_spec k j); cbn [andb]; auto; lia.
Qed.
Lemma go_feq t : 0 <= t -> t + 1 <= n - 2 -> @feq SO (Mf (t + 1) t) (@fzero SO) = skip t.
Proof.
  intros Ht Ht2. pose proof (hM_valid pf n A VA (n - 2) ltac:(lia) ltac:(lia) (t + 1) t ltac:(lia) ltac:(lia)) as V. pose proof (FH (t + 1) t ltac:(lia) ltac:(lia) ltac:(lia)) as F.
  pose proof (skip_zero pf n Hkap A VA FH RH t Ht Ht2) as K. pose proof (go_T pf n Hkap A VA FH RH t Ht Ht2) as G. pose proof (hMf_sub pf n A t Ht Ht2) as E. pose proof (feq_zero pf (Mf (t + 1) t) (Logic.conj V F)) as Z0.
  destruct (skip t).
  - apply Z0. apply K. auto.
  - specialize (G eq_refl). specialize (E eq_refl). destruct (@feq SO (Mf (t + 1) t) (@fzero SO)) eqn:Q; auto. exfalso. apply G. rewrite <- E. apply Z0. auto.
Qed.
Lemma hp_go t i j : 0 <= t -> t + 1 <= n - 2 -> skip t = false -> t + 1 <= i -> t + 1 <= j ->
  T (t + 1) i j = sf_add (T (t + 2) i j) (sf_mul (sf_div (sf_div (fadds (O := SO) (sf_zero : @F SO) (t + 1) n (fun r => sf_mul (c_w pf n (t + 1) (xc t) r) (T (t + 2) r j))) (c_D pf n (t + 1) (xc t))) (c_T pf n (t + 1) (xc t))) (c_w pf n (t + 1) (xc t) i)).
Proof.
  intros Ht Ht2 S Hi Hj. rewrite hp_iter_S by lia. unfold hp_step. replace (t + 1 - 1) with t by lia. replace (t + 1 + 1) with (t + 2) by lia. rewrite go_feq by auto. rewrite S.
  rewrite (proj2 (Z.leb_le _ _)) by auto. rewrite (proj2 (Z.leb_le _ _)) by auto. cbn [andb]. rewrite (hw_eq pf n A t i Ht Ht2 S), (hDf pf n A t Ht Ht2 S), (hMf_sub pf n A t Ht Ht2 S).
  rewrite (fadds_ext (O := SO) _ _ _ (fun t0 => (hp_w (O := SO) Mf Df (t + 1) t0 * T (t + 2) t0 j)%f) (fun r => sf_mul (c_w pf n (t + 1) (xc t) r) (T (t + 2) r j))) by (intros; rewrite (hw_eq pf n A t _ Ht Ht2 S); reflexivity). reflexivity.
Qed.
Lemma hp_skip t i j : 0 <= t -> t + 1 <= n - 2 -> skip t = true -> T (t + 1) i j = T (t + 2) i j.
Proof. intros Ht Ht2 S. rewrite hp_iter_S by lia. unfold hp_step. replace (t + 1 - 1) with t by lia. replace (t + 1 + 1) with (t + 2) by lia. rewrite go_feq by auto. rewrite S. reflexivity. Qed.
Lemma w_valid t r : 0 <= t -> t + 1 <= n - 2 -> skip t = false -> t + 1 <= r < n -> sf_valid (c_w pf n (t + 1) (xc t) r) = true.
Proof.
  intros Ht Ht2 S Hr. pose proof (hM_valid pf n A VA t ltac:(lia) ltac:(lia)) as V. unfold c_w. destruct (Z.eqb_spec r (t + 1)); [|apply V; lia].
  destruct (step_valid pf n A t Ht Ht2 V) as (_ & _ & _ & V4). apply mul_valid; [apply cs_valid; auto; lia|apply V4; lia].
Qed.
Lemma T_valid k : 1 <= k <= n - 1 -> forall i j, 0 <= i < n -> 0 <= j < n -> sf_valid (T k i j) = true.
Proof.
  intros Hk. remember (n - 1 - k) as d eqn:Ed. assert (Hd : 0 <= d) by lia. revert d Hd k Hk Ed. refine (natlike_ind _ _ _).
  - intros k Hk Ed i j Hi Hj. unfold hp_iter. replace (n - 1 - k) with 0 by lia. cbn [Z.to_nat accum]. destruct (i =? j); reflexivity.
  - intros d Hd IH k Hk Ed i j Hi Hj. specialize (IH (k + 1) ltac:(lia) ltac:(lia)).
    destruct (Z_lt_ge_dec i k) as [L|L]; [rewrite T_low by lia; destruct (i =? j); reflexivity|]. destruct (Z_lt_ge_dec j k) as [L2|L2]; [rewrite T_low by lia; destruct (i =? j); reflexivity|].
    replace k with ((k - 1) + 1) in * by lia. set (t := k - 1) in *. assert (Ht : 0 <= t) by lia. assert (Ht2 : t + 1 <= n - 2) by lia. replace (t + 1 + 1) with (t + 2) in IH by lia.
    destruct (skip t) eqn:S; [rewrite hp_skip by auto; auto|]. rewrite hp_go by (auto; lia). pose proof (hM_valid pf n A VA t ltac:(lia) ltac:(lia)) as V. destruct (step_valid pf n A t Ht Ht2 V) as (_ & V2 & _ & V4).
    pose proof (cs_valid pf n A t ltac:(lia) V) as V1.
    apply add_valid; auto. apply mul_valid; [|apply w_valid; auto; lia]. apply div_valid; [apply div_valid|].
    + apply (fadds_valid pf n n). intros r Hr. apply mul_valid; [apply w_valid; auto|apply IH; lia].
    + apply mul_valid; auto. apply V4. lia.
    + apply mul_valid; auto.
Qed.
Lemma T_fin k : (forall i j, 0 <= i < n -> 0 <= j < n -> isfin (T 1 i j) = true) -> 1 <= k -> k <= Z.max 1 (n - 1) -> forall i j, 0 <= i < n -> 0 <= j < n -> isfin (T k i j) = true.
Proof.
  intros FP Hk. replace k with ((k - 1) + 1) by lia. set (t := k - 1). assert (Ht : 0 <= t) by lia. clearbody t. clear k Hk. revert t Ht. refine (natlike_ind _ _ _); [intros _; exact FP|].
  intros t Ht IH Ht2 i j Hi Hj. change (Z.succ t + 1) with (t + 1 + 1) in *. replace (t + 1 + 1) with (t + 2) in * by lia. pose proof (IH ltac:(lia) i j Hi Hj) as K.
  destruct (Z_lt_ge_dec i (t + 1)) as [L|L]; [rewrite T_low by lia; destruct (i =? j); reflexivity|]. destruct (Z_lt_ge_dec j (t + 1)) as [L2|L2]; [rewrite T_low by lia; destruct (i =? j); reflexivity|].
  destruct (skip t) eqn:S; [rewrite hp_skip in K by (auto; lia); auto|]. rewrite hp_go in K by (auto; lia). apply sf_add_fin in K. apply K.
Qed.
Definition hcol (j t r : Z) : R := fR (T (t + 1) r j).
Lemma hcol_step j t : 0 <= j < n -> 0 <= t < n - 2 -> (forall r, t + 1 <= r < n -> isfin (T (t + 1) r j) = true) -> (vlen n (fun r => hcol j t r - mvec n (Ph pf n A t) (hcol j (t + 1)%Z) r) <= 10 * kap n * vlen n (hcol j (t + 1)%Z) + omg n)%R.
Proof.
  intros Hj Ht FT1. pose proof (omg_pos n Hn) as Po. pose proof (vlen_pos n (hcol j (t + 1))) as PV. pose proof (kap_u n Hn) as Ku. pose proof ulp2_pos as Pu. assert (PK : (0 <= 10 * kap n * vlen n (hcol j (t + 1)%Z))%R) by (apply Rmult_le_pos; lra).
  assert (Z0 : (forall r, 0 <= r < n -> hcol j t r = mvec n (Ph pf n A t) (hcol j (t + 1)%Z) r) -> (vlen n (fun r => hcol j t r - mvec n (Ph pf n A t) (hcol j (t + 1)%Z) r) <= 10 * kap n * vlen n (hcol j (t + 1)%Z) + omg n)%R).
  { intros E. rewrite vlen_zero by (intros r Hr; rewrite E by auto; ring). lra. }
  assert (E2 : forall r, hcol j (t + 1) r = fR (T (t + 2) r j)) by (intros; unfold hcol; replace (t + 1 + 1) with (t + 2) by lia; auto).
  unfold Ph in *. destruct (skip t) eqn:S.
  - apply Z0. intros r Hr. rewrite mvec_idm by auto. rewrite E2. unfold hcol. rewrite hp_skip by (auto; lia). auto.
  - destruct (Z_lt_ge_dec j (t + 1)) as [L|L].
    + apply Z0. intros r Hr. rewrite rP_zero; [|auto|lia|].
      * rewrite E2. unfold hcol. rewrite !T_low by lia. auto.
      * intros k Hk. rewrite E2. rewrite T_low by lia. rewrite (proj2 (Z.eqb_neq k j)) by lia. reflexivity.
    + destruct (go_T pf n Hkap A VA FH RH t ltac:(lia) ltac:(lia) S) as (FT & NT & RT).
      apply (c_applyP pf n (t + 1) ltac:(lia) Hkap ltac:(lia) (xc t) (x_valid pf n A VA t ltac:(lia) ltac:(lia)) (cs_fin pf n A VA FH t ltac:(lia) ltac:(lia)) S FT RT (fun r => T (t + 2) r j) (fun r => T (t + 1) r j) _ _ (fadds (O := SO) (sf_zero : @F SO) (t + 1) n (fun r => sf_mul (c_w pf n (t + 1) (xc t) r) (T (t + 2) r j)))).
      * intros r Hr. apply T_valid; lia.
      * intros r Hr. apply FT1; lia.
      * intros r Hr. apply E2.
      * intros r Hr. reflexivity.
      * intros r Hr. rewrite E2. unfold hcol. rewrite !T_low by lia. auto.
      * reflexivity.
      * intros r Hr. apply hp_go; auto; lia.
Qed.
Lemma hcol_all j : (forall i j, 0 <= i < n -> 0 <= j < n -> isfin (T 1 i j) = true) -> 0 <= j < n -> let p := hs_steps n in (vlen n (fun r => fR (T 1 r j) - Qp n (Ph pf n A) p r j) <= (gr (10 * kap n) p - 1) + IZR p * gr (10 * kap n) p * omg n)%R.
Proof.
  intros FP Hj p. assert (Hp : 0 <= p /\ (p = n - 2 \/ p = 0 /\ n <= 2)) by (unfold p, hs_steps; lia).
  assert (E1 : vlen n (idm j) = 1%R).
  { unfold vlen, dot. rewrite (Rs_pick 0 n j) by (try lia; intros; unfold idm; rewrite (proj2 (Z.eqb_neq _ _)) by auto; ring). rewrite idm_same, Rmult_1_l. apply sqrt_1. }
  assert (Eta : (0 <= 10 * kap n)%R) by (pose proof (kap_u n Hn); pose proof ulp2_pos; lra).
  pose proof (chain_down n (Ph pf n A) (10 * kap n) (omg n) (Ph_orth pf n A) Eta (Rlt_le _ _ (omg_pos n Hn)) (hcol j) (idm j) p 0 ltac:(lia)) as K.
  rewrite Z.sub_0_r, E1, Rmult_1_r in K. eapply Rle_trans; [|apply K].
  - right. apply vlen_ext. intros r Hr. rewrite Qp_0, mvec_1 by auto. f_equal.
    f_equal. unfold mvec. rewrite (Rs_pick 0 n j) by (try lia; intros; unfold idm; rewrite (proj2 (Z.eqb_neq _ _)) by auto; ring). rewrite idm_same. ring.
  - intros r Hr. unfold hcol, hp_iter. replace (Z.to_nat (n - 1 - (p + 1))) with 0%nat by lia. cbn [accum]. unfold idm. rewrite (Z.eqb_sym j r). destruct (r =? j); [apply fR_one|reflexivity].
  - intros q Hq. apply hcol_step; auto; [lia|]. intros r Hr. apply T_fin; auto; lia.
Qed.
(** P is finite unless the matrix is very large. *)
Lemma T_finite t j : (10 * IZR (hs_steps n) * kap n <= / 16)%R -> 0 <= j < n -> 0 <= t <= n - 2 ->
  (forall r, 0 <= r < n -> isfin (T (t + 1) r j) = true) /\ (vlen n (hcol j t) <= gr (10 * kap n) (n - 2 - t) + IZR (n - 2 - t) * gr (10 * kap n) (n - 2 - t) * omg n)%R.
Proof.
  intros Hsz Hj Ht. pose proof (kap_u n Hn) as Ku. pose proof ulp2_pos as Pu. assert (Eta : (0 <= 10 * kap n)%R) by lra. pose proof (omg_pos n Hn) as Po.
  remember (n - 2 - t) as d eqn:Ed. assert (Hd : 0 <= d) by lia. revert d Hd t Ht Ed. refine (natlike_ind _ _ _).
  - intros t Ht Ed. assert (t = n - 2) by lia. subst t. unfold hcol, hp_iter. replace (n - 1 - (n - 2 + 1)) with 0 by lia. cbn [Z.to_nat accum]. split.
    + intros r Hr. destruct (r =? j); reflexivity.
    + unfold gr. cbn [Z.to_nat pow]. rewrite Rmult_0_l, Rmult_0_l, Rplus_0_r. right. rewrite (vlen_ext n _ (idm j)).
      * unfold vlen, dot. rewrite (Rs_pick 0 n j) by (try lia; intros; unfold idm; rewrite (proj2 (Z.eqb_neq _ _)) by auto; ring). rewrite idm_same, Rmult_1_l. apply sqrt_1.
      * intros r Hr. unfold idm. rewrite (Z.eqb_sym j r). destruct (r =? j); [apply fR_one|reflexivity].
  - intros d Hd IH t Ht Ed. change (Z.succ d) with (d + 1) in *. destruct (IH (t + 1) ltac:(lia) ltac:(lia)) as [F1 L1]. replace (t + 1 + 1) with (t + 2) in F1 by lia.
    assert (L2 : (vlen n (hcol j (t + 1)) <= 2)%R).
    { eapply Rle_trans; [exact L1|]. pose proof (q_bound n d (hs_steps n) Hn ltac:(unfold hs_steps; lia)) as QB. assert (1 <= hs_steps n) by (unfold hs_steps; lia).
      destruct (RndQREx.qr_bounds n (hs_steps n) Hn ltac:(auto) Hsz) as [[_ B1] [_ B2]]. change (IZR (n + 4) * ulp2)%R with (kap n) in B1.
      assert (S1 : (1 <= IZR (hs_steps n) <= IZR n)%R) by (split; apply IZR_le; unfold hs_steps; lia). pose proof (m_b43 n Hn Hkap) as M43.
      assert (SP : (IZR (hs_steps n) * IZR n * powerRZ 2 (-537) <= / 16)%R).
      { rewrite pz. apply Rle_trans with (b2 43 * b2 43 * b2 (-537))%R; [apply Rmult_le_compat_r; [apply bpow_ge_0|apply Rmult_le_compat; lra]|]. rewrite <- !bpow_plus. change (/ 16)%R with (b2 (-4)). apply bpow_le. lia. }
      lra. }
    assert (FS : forall r, 0 <= r < n -> isfin (T (t + 1) r j) = true).
    { intros r Hr. destruct (Z_lt_ge_dec r (t + 1)) as [L|L]; [rewrite T_low by lia; destruct (r =? j); reflexivity|]. destruct (Z_lt_ge_dec j (t + 1)) as [L0|L0]; [rewrite T_low by lia; destruct (r =? j); reflexivity|].
      destruct (skip t) eqn:S; [rewrite hp_skip by (auto; lia); auto|]. rewrite hp_go by (auto; lia). destruct (go_T pf n Hkap A VA FH RH t ltac:(lia) ltac:(lia) S) as (FT & NT & RT).
      apply (c_finP pf n (t + 1) ltac:(lia) Hkap ltac:(lia) (xc t) (x_valid pf n A VA t ltac:(lia) ltac:(lia)) (cs_fin pf n A VA FH t ltac:(lia) ltac:(lia)) S FT RT (fun r => T (t + 2) r j) (hcol j (t + 1))); auto; try lia.
      - intros q Hq. split; [apply T_valid; lia|apply F1; lia].
      - intros q Hq. unfold hcol. replace (t + 1 + 1) with (t + 2) by lia. auto. }
    split; [exact FS|]. pose proof (hcol_step j t Hj ltac:(lia) ltac:(intros; apply FS; lia)) as K.
    pose proof (vlen_diff n (mvec n (Ph pf n A t) (hcol j (t + 1))) (hcol j t)) as K2. rewrite vlen_sub in K2. rewrite (vlen_orth n (Ph pf n A t)) in K2 by apply Ph_orth.
    rewrite gr_S by auto. pose proof (gr_1 (10 * kap n) d Eta) as G1. set (gd := gr (10 * kap n) d) in *. rewrite plus_IZR. set (e := (10 * kap n)%R) in *. set (vv := vlen n (hcol j (t + 1)%Z)) in *.
    assert (Q1 : ((1 + e) * vv <= (1 + e) * (gd + IZR d * gd * omg n))%R) by (apply Rmult_le_compat_l; lra). assert (Q2 : (omg n <= (1 + e) * gd * omg n)%R) by (assert (1 <= (1 + e) * gd)%R by nra; nra).
    apply Rle_trans with ((1 + e) * (gd + IZR d * gd * omg n) + omg n)%R; [lra|]. replace ((1 + e) * gd + (IZR d + 1) * ((1 + e) * gd) * omg n)%R with ((1 + e) * (gd + IZR d * gd * omg n) + (1 + e) * gd * omg n)%R by ring. lra.
Qed.
Lemma P_finite : (10 * IZR (hs_steps n) * kap n <= / 16)%R -> forall i j, 0 <= i < n -> 0 <= j < n -> sf_valid (T 1 i j) = true /\ isfin (T 1 i j) = true.
Proof.
  intros Hsz i j Hi Hj. destruct (Z_le_gt_dec n 1) as [L|L].
  - unfold hp_iter. replace (Z.to_nat (n - 1 - 1)) with 0%nat by lia. cbn [accum]. destruct (i =? j); split; reflexivity.
  - split; [apply T_valid; auto; lia|]. apply (T_finite 0 j Hsz Hj); auto. lia.
Qed.
End P.

Section Tab.
Variables (pf n : Z).
Notation SO := (SFOps pf).
Hypothesis Hn : 1 <= n.
Hypothesis Hk : qr_size n.
Variable A : Z -> Z -> sf.
Hypothesis NA : nums2 n n A.
Lemma hs_tab : let M := fst (hs_iter (O := SO) n A (n - 2)) in let D := snd (hs_iter (O := SO) n A (n - 2)) in let T := hs_tabH (O := SO) M in let Pf := hs_tabP (O := SO) n M D in
  nums2 n n T -> sub_range n T -> ((10 * IZR (hs_steps n) * (IZR (n + 4) * ulp2) <= / 16)%R -> nums2 n n Pf) /\ exists Q, hs_backward n A T Q /\ (nums2 n n Pf -> q_close n (hs_steps n) Pf Q /\ q_orthonormal n (hs_steps n) Pf /\ hs_product n A Pf T).
Proof.
  cbn zeta. intros NT RT. assert (VA : forall r j, 0 <= r < n -> 0 <= j < n -> sf_valid (A r j) = true) by (intros; apply NA; auto).
  assert (ET : forall i j, i <= j + 1 -> hs_tabH (O := SO) (fst (hs_iter (O := SO) n A (n - 2))) i j = fst (hs_iter (O := SO) n A (n - 2)) i j).
  { intros i j H. unfold hs_tabH. destruct (Z.leb_spec i j); cbn [orb]; auto. destruct (Z.eqb_spec i (j + 1)); auto. lia. }
  assert (FH : forall i j, 0 <= i < n -> 0 <= j < n -> i <= j + 1 -> isfin (fst (hs_iter (O := SO) n A (n - 2)) i j) = true) by (intros i j Hi Hj H; rewrite <- ET by auto; apply NT; auto).
  assert (RH : forall t, 0 <= t -> t + 1 <= n - 2 -> fR (fst (hs_iter (O := SO) n A (n - 2)) (t + 1)%Z t) <> 0%R -> (b2 (-450) <= Rabs (fR (fst (hs_iter (O := SO) n A (n - 2)%Z) (t + 1)%Z t)) <= b2 511)%R).
  { intros t Ht Ht2. rewrite <- ET by lia. apply range_b2. specialize (RT (t + 1) ltac:(lia)). replace (t + 1 - 1) with t in RT by lia. exact RT. }
  split; [exact (P_finite pf n Hn Hk A VA FH RH)|]. set (p := hs_steps n). assert (Hp : 0 <= p /\ (p = n - 2 \/ p = 0 /\ n <= 2)) by (unfold p, hs_steps; lia).
  assert (EM : fst (hs_iter (O := SO) n A p) = fst (hs_iter (O := SO) n A (n - 2))) by (unfold hs_iter; replace (Z.to_nat p) with (Z.to_nat (n - 2)) by lia; reflexivity).
  exists (Qp n (Ph pf n A) p).
  assert (B : hs_backward n A (hs_tabH (O := SO) (fst (hs_iter (O := SO) n A (n - 2)))) (Qp n (Ph pf n A) p)).
  { assert (K : near (heta n) (hom n) n n (hst pf n A 0) (2 * p) (Qp n (Ph pf n A) p) (Qp n (Ph pf n A) p) (hst pf n A p)).
    { destruct Hp as [Hp0 [Hp|[Hp Hp2]]]; [apply hnear; auto; lia|]. rewrite Hp. apply near_0. }
    destruct K as (K1 & _ & K3). split; auto. unfold hs_rel, hs_abs. rewrite pz. fold p. change (hs_grow n) with (gr (heta n) (2 * p)). change (IZR n * b2 (-537))%R with (omg n). change (IZR n * omg n)%R with (hom n).
    assert (E0 : forall i j, 0 <= i < n -> 0 <= j < n -> fR (A i j) = hst pf n A 0 i j) by (intros i j Hi Hj; unfold hst; rewrite (proj2 (Z.ltb_ge j 0)) by lia; reflexivity).
    rewrite (frob_eq n n (fun i j => fR (A i j)) (hst pf n A 0)) by auto. eapply Rle_trans; [|exact K3]. right. apply frob_eq. intros i j Hi Hj. rewrite mul3, E0 by auto. f_equal. apply Rs_ext. intros s Hs. apply Rs_ext. intros t Ht.
    f_equal. f_equal. unfold hst. rewrite EM. destruct (Z_le_gt_dec s (t + 1)) as [L|L].
    - rewrite ET by auto. rewrite (proj2 (Z.ltb_ge (t + 1) s)), andb_false_r by lia. auto.
    - unfold hs_tabH. rewrite (proj2 (Z.leb_gt s t)), (proj2 (Z.eqb_neq s (t + 1))) by lia. rewrite (proj2 (Z.ltb_lt (t + 1) s)), (proj2 (Z.ltb_lt t p)) by lia. reflexivity. }
  split; [exact B|]. intros NP.
  assert (C : q_close n p (hs_tabP (O := SO) n (fst (hs_iter (O := SO) n A (n - 2))) (snd (hs_iter (O := SO) n A (n - 2)))) (Qp n (Ph pf n A) p)).
  { intros j Hj. eapply Rle_trans; [apply (hcol_all pf n Hn Hk A VA FH RH); auto|apply q_bound; lia]; auto. intros i k Hi Hk'. apply NP; auto. }
  split; [exact C|]. split; [apply (close_orthonormal n _ _ (Qp n (Ph pf n A) p)); auto; apply B|]. destruct B as (B1 & B2).
  apply (prod_close n (fun i j => fR (A i j)) (fun i j => fR (hs_tabH (O := SO) (fst (hs_iter (O := SO) n A (n - 2)%Z)) i j)) _ (Qp n (Ph pf n A) p)); auto.
  - apply Rmult_le_pos; [apply IZR_le; lia|apply qr_nn; lia].
  - apply (frob_close n p); auto; [lia|apply qr_nn; lia].
Qed.
End Tab.

Lemma hs_sf_backward : forall c (x : @RealMatrix (SFOps c)) n (A : Z -> Z -> sf) d, library x -> MatIs x n n A -> 1 <= n -> qr_size n -> nums2 n n A -> hs_of x d ->
  exists Hm Pm Pt (T Pf : Z -> Z -> sf) d1 d2 d3, hs_H d = Ok (Hm, d1) /\ hs_P d = Ok (Pm, d2) /\ hs_PT d = Ok (Pt, d3) /\
    MatIs Hm n n T /\ MatIs Pm n n Pf /\ MatIs Pt n n (fun i j => Pf j i) /\
    (nums2 n n T -> sub_range n T -> ((10 * IZR (hs_steps n) * (IZR (n + 4) * ulp2) <= / 16)%R -> nums2 n n Pf) /\ exists Q, hs_backward n A T Q /\
       (nums2 n n Pf -> q_close n (hs_steps n) Pf Q /\ q_orthonormal n (hs_steps n) Pf /\ hs_product n A Pf T)).
Proof.
  intros c x n A d Hl Hx Hn Hk NA Hd. pose proof (hs_state x n A d Hl Hx Hn Hd) as K. pose proof (hs_tab c n Hn Hk A NA) as I. cbn zeta in I.
  destruct (hs_H_ok _ _ _ _ Hn K) as ([a1 d1] & E1 & _ & H1 & _). destruct (hs_P_ok _ _ _ _ Hn K) as ([a2 d2] & E2 & _ & H2 & _). destruct (hs_PT_ok _ _ _ _ Hn K) as ([a3 d3] & E3 & _ & H3 & _).
  cbn [fst snd] in *. exists a1, a2, a3. eexists. eexists. exists d1, d2, d3. split; [exact E1|]. split; [exact E2|]. split; [exact E3|]. split; [exact H1|]. split; [exact H2|]. split; [exact H3|]. exact I.
Qed.

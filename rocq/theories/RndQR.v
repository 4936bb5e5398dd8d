(** The QR decomposition in float64: the computed R is, up to rounding, the
    image of A under an orthogonal matrix, and the computed Q is that matrix. *)
From Coq Require Import ZArith List Reals Lia Lra Psatz Bool Floats.SpecFloat.
From Flocq Require Import Core.
From Verif Require Import Base BaseLemmas Scalar Float64 VecSpec RealOps RSum House RealVec TabTac FSum QRSpec QRFacts QRReal RndSpec FloatR RndSum RndTri RndHouse RndRefl RndApply RndQRSpec.
Open Scope Z_scope.

(** ** Products of nearly orthogonal steps *)
Section Chain.
Variables (m : Z) (P : Z -> Z -> Z -> R) (eta om : R).
Hypothesis HP : forall k, orthogonal m (P k).
Hypothesis HS : forall k i j, P k i j = P k j i.
Hypothesis He : (0 <= eta)%R.
Hypothesis Ho : (0 <= om)%R.
Definition Qp (k : Z) : Z -> Z -> R := accum (fun k Q => mmul m Q (P k)) (Z.to_nat k) idm.
Lemma Qp_0 : Qp 0 = idm. Proof. reflexivity. Qed.
Lemma Qp_S k : 0 <= k -> Qp (k + 1) = mmul m (Qp k) (P k). Proof. intros. unfold Qp. rewrite accum_S by lia. auto. Qed.
Lemma Qp_orth k : orthogonal m (Qp k).
Proof.
  unfold Qp. generalize (Z.to_nat k). intros n. induction n as [|n IH]; cbn [accum]; [apply orth_id|apply orth_mmul; auto].
Qed.
Lemma P_P k z i : 0 <= i < m -> mvec m (P k) (mvec m (P k) z) i = z i.
Proof.
  intros Hi. rewrite <- mvec_mmul. rewrite <- (mvec_1 m z i Hi). apply mvec_ext; auto. intros j Hj. destruct (HP k) as [H _]. rewrite <- H by auto.
  apply mmul_ext; auto. intros. unfold trm. apply HS.
Qed.
Lemma vlen_sub n x y : vlen n (fun r => x r - y r)%R = vlen n (fun r => y r - x r)%R.
Proof. unfold vlen. f_equal. apply Rs_ext. intros. ring. Qed.
Lemma vlen_diff n x y : (vlen n y <= vlen n x + vlen n (fun r => x r - y r))%R.
Proof. rewrite vlen_sub. eapply Rle_trans; [|apply vlen_tri]. right. apply vlen_ext. intros. ring. Qed.
Definition gr (k : Z) : R := ((1 + eta) ^ Z.to_nat k)%R.
Lemma gr_S k : 0 <= k -> gr (k + 1) = ((1 + eta) * gr k)%R.
Proof. intros. unfold gr. replace (Z.to_nat (k + 1)) with (S (Z.to_nat k)) by lia. reflexivity. Qed.
Lemma gr_ge1 k : (1 <= gr k)%R. Proof. apply pow_R1_Rle. lra. Qed.
Lemma err_step k E L : 0 <= k -> (0 <= L)%R -> (E <= (gr k - 1) * L + IZR k * gr k * om)%R ->
  (E + (eta * (L + E) + om) <= (gr (k + 1) - 1) * L + IZR (k + 1) * gr (k + 1) * om)%R.
Proof.
  intros Hk HL H. rewrite gr_S, plus_IZR by auto. pose proof (gr_ge1 k) as G. set (g := gr k) in *.
  assert (eta * E <= eta * ((g - 1) * L + IZR k * g * om))%R by (apply Rmult_le_compat_l; auto).
  assert (0 <= IZR k)%R by (apply IZR_le; auto). assert (om <= (1 + eta) * g * om)%R; [|lra].
  assert (1 <= (1 + eta) * g)%R by nra. nra.
Qed.
(** Forwards. *)
Lemma chain (y : Z -> Z -> R) p : 0 <= p ->
  (forall k, 0 <= k < p -> (vlen m (fun r => y (k + 1)%Z r - mvec m (P k) (y k) r) <= eta * vlen m (y k) + om)%R) ->
  (vlen m (fun r => y 0%Z r - mvec m (Qp p) (y p) r) <= (gr p - 1) * vlen m (y 0%Z) + IZR p * gr p * om)%R.
Proof.
  intros Hp H. revert p Hp H. refine (natlike_ind _ _ _).
  - intros _. rewrite Qp_0. rewrite vlen_zero; [unfold gr; cbn; lra|]. intros i Hi. rewrite mvec_1 by auto. ring.
  - intros k Hk IH H. change (Z.succ k) with (k + 1) in *. specialize (IH ltac:(intros; apply H; lia)). pose proof (H k ltac:(lia)) as Hs.
    pose proof (vlen_pos m (y 0)) as P0. pose proof (err_step k _ _ Hk P0 IH) as K. eapply Rle_trans; [|exact K]. clear K.
    rewrite (vlen_ext m _ (fun r => (y 0%Z r - mvec m (Qp k) (y k) r) + mvec m (Qp k) (mvec m (P k) (fun r => mvec m (P k) (y k) r - y (k + 1)%Z r)) r)%R).
    2:{ intros r Hr. rewrite Qp_S by auto. rewrite mvec_mmul.
        rewrite (mvec_ext m (Qp k) (Qp k) (mvec m (P k) (fun r => mvec m (P k) (y k) r - y (k + 1)%Z r)%R) (fun r => y k r - mvec m (P k) (y (k + 1)%Z) r)%R) by (auto; intros; rewrite mvec_minus, P_P by auto; auto).
        rewrite mvec_minus. ring. }
    eapply Rle_trans; [apply vlen_tri|]. rewrite (vlen_orth m (Qp k)) by apply Qp_orth. rewrite (vlen_orth m (P k)) by auto. rewrite (vlen_sub m (mvec m (P k) (y k))).
    pose proof (vlen_diff m (y 0) (mvec m (Qp k) (y k))) as K. rewrite (vlen_orth m (Qp k)) in K by apply Qp_orth.
    assert (eta * vlen m (y k) <= eta * (vlen m (y 0%Z) + vlen m (fun r => y 0%Z r - mvec m (Qp k) (y k) r)))%R by (apply Rmult_le_compat_l; auto). lra.
Qed.
(** Backwards: from the vector [e] at step [p] down to step 0. *)
Lemma chain_down (U : Z -> Z -> R) e p k : 0 <= k <= p -> (forall r, 0 <= r < m -> U p r = e r) ->
  (forall k, 0 <= k < p -> (vlen m (fun r => U k r - mvec m (P k) (U (k + 1)%Z) r) <= eta * vlen m (U (k + 1)%Z) + om)%R) ->
  (vlen m (fun r => mvec m (Qp k) (U k) r - mvec m (Qp p) e r) <= (gr (p - k) - 1) * vlen m e + IZR (p - k) * gr (p - k) * om)%R.
Proof.
  intros Hk He0 H. remember (p - k) as t eqn:Et. assert (Ht : 0 <= t) by lia. revert t Ht k Hk Et. refine (natlike_ind _ _ _).
  - intros k Hk Et. assert (k = p) by lia. subst k. rewrite vlen_zero; [unfold gr; cbn; lra|]. intros i Hi. rewrite (mvec_ext m (Qp p) (Qp p) (U p) e); auto. ring.
  - intros t Ht IH k Hk Et. change (Z.succ t) with (t + 1) in *. specialize (IH (k + 1) ltac:(lia) ltac:(lia)). pose proof (H k ltac:(lia)) as Hs.
    pose proof (vlen_pos m e) as P0. pose proof (err_step t _ _ Ht P0 IH) as K. eapply Rle_trans; [|exact K]. clear K.
    rewrite (vlen_ext m _ (fun r => mvec m (Qp k) (fun r => U k r - mvec m (P k) (U (k + 1)%Z) r) r + (mvec m (Qp (k + 1)) (U (k + 1)%Z) r - mvec m (Qp p) e r))%R).
    2:{ intros r Hr. rewrite mvec_minus, Qp_S, mvec_mmul by lia. ring. }
    eapply Rle_trans; [apply vlen_tri|]. rewrite (vlen_orth m (Qp k)) by apply Qp_orth.
    pose proof (vlen_diff m (mvec m (Qp p) e) (mvec m (Qp (k + 1)) (U (k + 1)%Z))) as K. rewrite !vlen_orth in K by apply Qp_orth. rewrite vlen_sub in K.
    assert (eta * vlen m (U (k + 1)%Z) <= eta * (vlen m e + vlen m (fun r => mvec m (Qp (k + 1)) (U (k + 1)%Z) r - mvec m (Qp p) e r)))%R by (apply Rmult_le_compat_l; auto). lra.
Qed.
End Chain.

(** ** The decomposition *)
Section QR.
Variables (pf m n : Z).
Notation SO := (SFOps pf).
Hypothesis Hm : 1 <= m.
Hypothesis Hn : 1 <= n.
Hypothesis Hkap : (kap m <= / 1024)%R.
Variable A : Z -> Z -> sf.
Hypothesis VA : forall r j, 0 <= r < m -> 0 <= j < n -> sf_valid (A r j) = true.
Let p := Z.min m n.
Notation it k := (hh_iter (O := SO) m A k).
Notation M k := (fst (it k)).
Notation Df := (snd (it p)).
Notation Mf := (fst (it p)).
Notation ak k := (hh_a (O := SO) m (M k k) k).
Notation vk k := (hh_v (O := SO) m (M k k) k).

Lemma it_S k : 0 <= k -> it (k + 1) = hh_step (O := SO) m k (it k). Proof. intros. unfold hh_iter. rewrite accum_S by lia. auto. Qed.
Lemma M_S k j r : 0 <= k -> M (k + 1) j r = hh_M (O := SO) m (M k) k j r. Proof. intros. rewrite it_S by auto. auto. Qed.
Lemma M_low k j r : 0 <= k -> j < k -> M (k + 1) j r = M k j r.
Proof. intros. rewrite M_S by auto. unfold hh_M. rewrite (proj2 (Z.eqb_neq j k)), (proj2 (Z.ltb_ge k j)) by lia. destruct (feq _ _); auto. Qed.
Lemma M_top k j r : 0 <= k -> r < k -> M (k + 1) j r = M k j r.
Proof.
  intros. rewrite M_S by auto. unfold hh_M, hh_v. destruct (feq _ _); auto. destruct (Z.eqb_spec j k) as [->|].
  - rewrite (proj2 (Z.eqb_neq r k)) by lia. auto.
  - rewrite (proj2 (Z.leb_gt k r)), andb_false_r by lia. auto.
Qed.
Lemma M_own k r : 0 <= k -> M (k + 1) k r = vk k r.
Proof. intros. rewrite M_S by auto. unfold hh_M, hh_v. rewrite Z.eqb_refl. destruct (feq _ _); auto. Qed.
Lemma M_fin_low k j r : 0 <= j < k -> k <= p -> Mf j r = M k j r.
Proof.
  intros Hj Hk. assert (G : forall d, 0 <= d -> M (k + d) j r = M k j r); [|replace p with (k + (p - k)) by lia; apply G; lia].
  refine (natlike_ind _ _ _); [rewrite Z.add_0_r; auto|]. intros d Hd IH. replace (k + Z.succ d) with (k + d + 1) by lia. rewrite M_low by lia. auto.
Qed.
Lemma M_fin_top k j r : 0 <= r < k -> k <= p -> Mf j r = M k j r.
Proof.
  intros Hj Hk. assert (G : forall d, 0 <= d -> M (k + d) j r = M k j r); [|replace p with (k + (p - k)) by lia; apply G; lia].
  refine (natlike_ind _ _ _); [rewrite Z.add_0_r; auto|]. intros d Hd IH. replace (k + Z.succ d) with (k + d + 1) by lia. rewrite M_top by lia. auto.
Qed.
Lemma Mf_v k r : 0 <= k < p -> Mf k r = vk k r.
Proof. intros. rewrite (M_fin_low (k + 1)) by lia. apply M_own. lia. Qed.
Lemma Df_a k : 0 <= k < p -> Df k = ak k.
Proof.
  intros Hk. assert (G : forall d, 0 <= d -> snd (it (k + 1 + d)) k = ak k); [|replace p with (k + 1 + (p - k - 1)) by lia; apply G; lia].
  refine (natlike_ind _ _ _).
  - rewrite Z.add_0_r, it_S by lia. cbn [hh_step snd]. unfold hh_D. rewrite Z.eqb_refl. auto.
  - intros d Hd IH. replace (k + 1 + Z.succ d) with (k + 1 + d + 1) by lia. rewrite it_S by lia. cbn [hh_step snd]. unfold hh_D. rewrite (proj2 (Z.eqb_neq k (k + 1 + d))) by lia. auto.
Qed.
(** *** Validity *)
Lemma fadds_valid lo hi g : (forall i, lo <= i < hi -> sf_valid (g i) = true) -> sf_valid (fadds (O := SO) (sf_zero : @F SO) lo hi g) = true.
Proof.
  intros H. unfold fadds. assert (G : forall c, Z.of_nat c <= Z.max 0 (hi - lo) -> sf_valid (accum (fun t s => @fadd SO s (g (lo + t))) c (sf_zero : @F SO)) = true); [|apply G; lia].
  induction c as [|c IH]; intros Hc; [reflexivity|]. cbn [accum]. apply add_valid; [apply IH; lia|apply H; lia].
Qed.
Lemma fsubl_valid lo hi g : (forall i, lo <= i < hi -> sf_valid (g i) = true) -> sf_valid (fsubl (O := SO) (sf_zero : @F SO) lo hi g) = true.
Proof. intros H. rewrite fsubl_adds. apply fadds_valid. intros. rewrite opp_valid. auto. Qed.
Lemma fadds_fin lo hi g : isfin (fadds (O := SO) (sf_zero : @F SO) lo hi g) = true -> forall i, lo <= i < hi -> isfin (g i) = true.
Proof.
  unfold fadds. intros H i Hi. assert (G : forall c, isfin (accum (fun t s => @fadd SO s (g (lo + t))) c (sf_zero : @F SO)) = true -> forall i, lo <= i < lo + Z.of_nat c -> isfin (g i) = true); [|apply (G _ H); lia].
  clear. induction c as [|c IH]; intros H i Hi; [lia|]. cbn [accum] in H. apply sf_add_fin in H. destruct H as [H1 H2]. destruct (Z.eq_dec i (lo + Z.of_nat c)) as [->|]; auto. apply IH; auto. lia.
Qed.
Lemma ak_valid k : 0 <= k -> (forall r, k <= r < m -> sf_valid (M k k r) = true) -> sf_valid (ak k) = true.
Proof.
  intros Hk H. assert (V : sf_valid (hh_norm (O := SO) m (M k k) k) = true).
  { unfold hh_norm. apply sqrt_valid. apply fadds_valid. intros. apply mul_valid; auto. }
  unfold hh_a. destruct (fgt _ _); auto. apply mul_valid; auto.
Qed.
Lemma M_valid k : 0 <= k <= p -> forall j r, 0 <= j < n -> 0 <= r < m -> sf_valid (M k j r) = true.
Proof.
  intros Hk. assert (G : forall k, 0 <= k -> k <= p -> forall j r, 0 <= j < n -> 0 <= r < m -> sf_valid (M k j r) = true); [|apply G; lia]. clear k Hk.
  refine (natlike_ind _ _ _); [intros _ j r Hj Hr; apply VA; auto|]. intros k Hk IH Hp j r Hj Hr. change (Z.succ k) with (k + 1) in *. specialize (IH ltac:(lia)). rewrite M_S by auto.
  assert (Va : sf_valid (ak k) = true) by (apply ak_valid; auto; intros; apply IH; lia).
  assert (Vv : forall r, 0 <= r < m -> sf_valid (vk k r) = true).
  { intros r' Hr'. unfold hh_v. destruct (feq _ _); [apply IH; lia|]. destruct (r' =? k); [apply sub_valid; [apply IH; lia|exact Va]|apply IH; lia]. }
  unfold hh_M. destruct (feq _ _); [apply IH; lia|]. destruct (j =? k); [apply Vv; auto|]. destruct (_ && _); [|apply IH; lia].
  apply sub_valid; [apply IH; lia|]. apply mul_valid; [|apply Vv; auto]. unfold hh_alpha. apply div_valid.
  - apply fsubl_valid. intros. apply mul_valid; [apply IH; lia|apply Vv; lia].
  - apply mul_valid; [exact Va|apply Vv; lia].
Qed.
(** *** Finiteness *)
Notation T := (tabR (O := SO) m n Mf Df).
Hypothesis FT : nums2 m n T.
Hypothesis Rg : diag_range p T.
Lemma T_D k : 0 <= k < p -> T k k = Df k.
Proof. intros. unfold tabR. fold p. rewrite (proj2 (Z.ltb_lt k p)), Z.eqb_refl by lia. auto. Qed.
Lemma T_up k j : 0 <= k < p -> k < j -> T k j = Mf j k.
Proof. intros. unfold tabR. fold p. rewrite (proj2 (Z.ltb_lt k p)), (proj2 (Z.eqb_neq k j)), (proj2 (Z.ltb_lt k j)) by lia. auto. Qed.
Lemma T_low k j : 0 <= k -> j < k \/ p <= k -> T k j = sf_zero.
Proof.
  intros Hk Hj. unfold tabR. fold p. destruct (Z.ltb_spec k p); auto. rewrite (proj2 (Z.eqb_neq k j)), (proj2 (Z.ltb_ge k j)) by lia. auto.
Qed.
Lemma ak_fin k : 0 <= k < p -> isfin (ak k) = true.
Proof. intros Hk. rewrite <- Df_a, <- T_D by auto. apply FT; lia. Qed.
Lemma own_fin k r : 0 <= k < p -> k <= r < m -> isfin (M k k r) = true.
Proof.
  intros Hk Hr. pose proof (ak_fin k Hk) as H. apply a_fin_nh in H.
  assert (V : sf_valid (fadds (O := SO) (sf_zero : @F SO) k m (fun r => sf_mul (M k k r) (M k k r))) = true) by (apply fadds_valid; intros; apply mul_valid; apply M_valid; lia).
  pose proof (sqrt_fin_arg _ V H) as H1. pose proof (fadds_fin k m _ H1 r Hr) as H2. apply (sf_mul_fin _ _ H2).
Qed.
Lemma M_fin k : 0 <= k <= p -> forall j r, k <= j < n -> 0 <= r < m -> isfin (M k j r) = true.
Proof.
  intros Hk. remember (p - k) as d eqn:Ed. assert (Hd : 0 <= d) by lia. revert d Hd k Hk Ed. refine (natlike_ind _ _ _).
  - intros k Hk Ed j r Hj Hr. assert (k = p) by lia. subst k. rewrite <- T_up by lia. apply FT; lia.
  - intros d Hd IH k Hk Ed j r Hj Hr. specialize (IH (k + 1) ltac:(lia) ltac:(lia)). destruct (Z.eq_dec j k) as [->|].
    + destruct (Z_lt_ge_dec r k).
      * rewrite <- (M_fin_top k) by lia. rewrite <- T_up by lia. apply FT; lia.
      * apply own_fin; lia.
    + specialize (IH j r ltac:(lia) Hr). rewrite M_S in IH by lia. unfold hh_M in IH. destruct (feq _ _); auto. rewrite (proj2 (Z.eqb_neq j k)) in IH by auto.
      destruct (_ && _); auto. apply (sf_sub_fin _ _ IH).
Qed.
Lemma M_num k j r : 0 <= k <= p -> k <= j < n -> 0 <= r < m -> num (M k j r).
Proof. intros. split; [apply M_valid; lia|apply M_fin; auto]. Qed.
(** *** One step *)
Lemma ak_num k : 0 <= k < p -> num (ak k).
Proof. intros Hk. split; [apply ak_valid; [lia|]; intros; apply M_valid; lia|apply ak_fin; auto]. Qed.
Lemma ak_range k : 0 <= k < p -> fR (ak k) <> 0%R -> (b2 (-450) <= Rabs (fR (ak k)) <= b2 511)%R.
Proof. intros Hk N. rewrite <- !pz. rewrite <- Df_a in * by auto. rewrite <- T_D in * by auto. destruct (Rg k Hk); [contradiction|auto]. Qed.
Lemma ak_zero k : 0 <= k < p -> @feq SO (ak k) (@fzero SO) = true <-> fR (ak k) = 0%R.
Proof. intros Hk. apply (feq_zero pf). apply ak_num; auto. Qed.
(** The exact reflection of step [k]. *)
Definition Pq (k : Z) : Z -> Z -> R := if (k <? p) && negb (@feq SO (ak k) (@fzero SO)) then rP m k (vk k) else idm.
Lemma Pq_orth k : orthogonal m (Pq k). Proof. unfold Pq. destruct (_ && _); [apply rP_orth|apply orth_id]. Qed.
Lemma Pq_sym k i j : Pq k i j = Pq k j i.
Proof. unfold Pq. destruct (_ && _); [apply rP_sym|]. unfold idm. rewrite Z.eqb_sym. auto. Qed.
Lemma Pq_zero k : 0 <= k < p -> fR (ak k) = 0%R -> Pq k = idm.
Proof. intros Hk E. apply (ak_zero k Hk) in E. unfold Pq. rewrite E, andb_false_r. auto. Qed.
Lemma ak_nz k : 0 <= k < p -> fR (ak k) <> 0%R -> @feq SO (ak k) (@fzero SO) = false.
Proof. intros Hk E. apply not_true_is_false. intros H. apply (ak_zero k Hk) in H. auto. Qed.
Lemma Pq_nz k : 0 <= k < p -> fR (ak k) <> 0%R -> Pq k = rP m k (vk k).
Proof. intros Hk E. unfold Pq. rewrite (ak_nz k Hk E), (proj2 (Z.ltb_lt k p)) by lia. auto. Qed.
Lemma vk_good k : 0 <= k < p -> fR (ak k) <> 0%R -> good m k (vk k) (sf_mul (ak k) (vk k k)).
Proof.
  intros Hk E. apply hh_good; auto; [lia| |apply ak_fin; auto|apply ak_range; auto]. intros. apply M_num; lia.
Qed.
(** Columns of R before [k], of the working matrix from [k] on. *)
Definition yq (j k r : Z) : R := if j <? k then fR (T r j) else fR (M k j r).
Lemma yq_step k j : 0 <= k < p -> 0 <= j < n ->
  (vlen m (fun r => yq j (k + 1) r - mvec m (Pq k) (yq j k) r) <= 10 * kap m * vlen m (yq j k) + omg m)%R.
Proof.
  intros Hk Hj. pose proof (omg_pos m Hm) as Po. pose proof (vlen_pos m (yq j k)) as Py. pose proof (kap_u m Hm) as Ku. pose proof ulp2_pos as Pu.
  assert (Z0 : (0 <= 10 * kap m * vlen m (yq j k) + omg m)%R) by nra.
  assert (Hlow : forall r, 0 <= r < k -> yq j (k + 1) r = yq j k r).
  { intros r Hr. unfold yq. destruct (Z.ltb_spec j (k + 1)); destruct (Z.ltb_spec j k); auto; try lia.
    - assert (j = k) by lia. subst j. rewrite T_up by lia. rewrite (M_fin_top k) by lia. auto.
    - rewrite M_top by lia. auto. }
  destruct (Z_lt_ge_dec j k) as [L|L].
  - (* finished columns *)
    assert (E : forall r, yq j k r = fR (T r j)) by (intros; unfold yq; rewrite (proj2 (Z.ltb_lt j k)) by lia; auto).
    rewrite vlen_zero; auto. intros r Hr. replace (yq j (k + 1) r) with (yq j k r) by (unfold yq; rewrite !(proj2 (Z.ltb_lt _ _)) by lia; auto).
    assert (Ep : mvec m (Pq k) (yq j k) r = yq j k r); [|rewrite Ep; ring].
    destruct (Req_dec (fR (ak k)) 0) as [E0|E0]; [rewrite Pq_zero by auto; apply mvec_1; auto|]. rewrite Pq_nz by auto. unfold rP. rewrite refl_vec by auto.
    rewrite (Rs_zero 0 m); [unfold Rdiv; ring|]. intros i Hi. unfold cut. destruct (Z.ltb_spec i k); [ring|]. rewrite E, T_low by lia. cbn [fR sf_zero]. change (fR sf_zero) with 0%R. ring.
  - destruct (Z.eq_dec j k) as [->|Nj].
    + (* the pivot column *)
      assert (Ek : forall r, yq k k r = fR (M k k r)) by (intros; unfold yq; rewrite Z.ltb_irrefl; auto).
      assert (E1 : forall r, 0 <= r < m -> yq k (k + 1) r = (if r <? k then yq k k r else if r =? k then fR (ak k) else 0)%R).
      { intros r Hr. destruct (Z.ltb_spec r k); [apply Hlow; lia|]. unfold yq. rewrite (proj2 (Z.ltb_lt k (k + 1))) by lia. destruct (Z.eqb_spec r k) as [->|].
        - rewrite T_D, Df_a by auto. auto.
        - rewrite T_low by lia. auto. }
      destruct (Req_dec (fR (ak k)) 0) as [E0|E0].
      * rewrite Pq_zero by auto. pose proof (a_zero pf m Hm Hkap k ltac:(lia) (M k k) ltac:(intros; apply M_num; lia) (ak_fin k Hk) E0) as K. fold (omg m) in K.
        rewrite (vlen_ext m _ (fun r => - cut k (M k k) r)%R).
        2:{ intros r Hr. rewrite mvec_1, E1, Ek by auto. unfold cut. destruct (r <? k); [ring|]. destruct (r =? k); rewrite ?E0; ring. }
        replace (vlen m (fun r => - cut k (M k k) r)%R) with (vlen m (cut k (M k k))); [|unfold vlen; f_equal; apply Rs_ext; intros; ring].
        unfold vlen at 1. rewrite cut_dot by lia. rewrite (Rs_ext k m _ (fun r => fR (M k k r) * fR (M k k r))%R).
        2:{ intros r Hr. unfold cut. rewrite (proj2 (Z.ltb_ge r k)) by lia. auto. }
        eapply Rle_trans; [exact K|]. nra.
      * rewrite Pq_nz by auto. destruct (ak_range k Hk E0) as [La Ua].
        pose proof (own_column pf m Hm Hkap k ltac:(lia) (M k k) ltac:(intros; apply M_num; lia) (ak_fin k Hk) La Ua (yq k k) ltac:(intros; apply Ek)) as K.
        rewrite (vlen_ext m _ (fun r => (if r <? k then yq k k r else if r =? k then fR (ak k) else 0) - mvec m (rP m k (vk k)) (yq k k) r)%R) by (intros; rewrite E1 by auto; auto).
        eapply Rle_trans; [exact K|]. nra.
    + (* the columns to its right *)
      assert (Ek : forall r, yq j k r = fR (M k j r)) by (intros; unfold yq; rewrite (proj2 (Z.ltb_ge j k)) by lia; auto).
      assert (E1 : forall r, yq j (k + 1) r = fR (M (k + 1) j r)) by (intros; unfold yq; rewrite (proj2 (Z.ltb_ge j (k + 1))) by lia; auto).
      destruct (Req_dec (fR (ak k)) 0) as [E0|E0].
      * rewrite Pq_zero by auto. rewrite vlen_zero; auto. intros r Hr. rewrite mvec_1, E1, Ek by auto. rewrite M_S by lia. unfold hh_M. apply (ak_zero k Hk) in E0. rewrite E0. ring.
      * rewrite Pq_nz by auto. apply (form_sub pf m Hm Hkap k (vk k) _ (M k j) (M (k + 1) j) (yq j k) (yq j (k + 1)) ltac:(lia) (vk_good k Hk E0)).
        -- intros. apply M_valid; lia.
        -- intros. apply M_fin; lia.
        -- intros. apply Ek.
        -- intros. apply E1.
        -- exact Hlow.
        -- intros r Hr. rewrite M_S by lia. unfold hh_M. rewrite (ak_nz k Hk E0). rewrite (proj2 (Z.eqb_neq j k)), (proj2 (Z.ltb_lt k j)), (proj2 (Z.leb_le k r)) by lia. reflexivity.
Qed.
Notation Qq := (Qp m Pq p).
Lemma eta_pos : (0 <= 10 * kap m)%R. Proof. pose proof (kap_u m Hm). pose proof ulp2_pos. lra. Qed.
Lemma qr_columns j : 0 <= j < n ->
  (vlen m (fun r => fR (A r j) - mvec m Qq (fun t => fR (T t j)) r) <= (gr (10 * kap m) p - 1) * vlen m (fun r => fR (A r j)) + IZR p * gr (10 * kap m) p * omg m)%R.
Proof.
  intros Hj. pose proof (chain m Pq (10 * kap m) (omg m) Pq_orth Pq_sym eta_pos (Rlt_le _ _ (omg_pos m Hm)) (yq j) p ltac:(unfold p; lia) (fun k Hk => yq_step k j Hk Hj)) as K.
  rewrite (vlen_ext m (fun r => fR (A r j)) (yq j 0)) by (intros; unfold yq; rewrite (proj2 (Z.ltb_ge j 0)) by lia; auto).
  eapply Rle_trans; [|exact K]. right. apply vlen_ext. intros r Hr. f_equal.
  - unfold yq. rewrite (proj2 (Z.ltb_ge j 0)) by lia. auto.
  - apply mvec_ext; auto. intros t Ht. unfold yq. destruct (Z.ltb_spec j p); auto. rewrite T_up by lia. auto.
Qed.
(** ** The solvers *)
Lemma Df_valid k : 0 <= k < p -> sf_valid (Df k) = true. Proof. intros. rewrite Df_a by auto. apply ak_num. auto. Qed.
Lemma Mf_num k r : 0 <= k < p -> k <= r < m -> num (Mf k r).
Proof.
  intros Hk Hr. rewrite Mf_v by auto. destruct (Req_dec (fR (ak k)) 0) as [E|E].
  - unfold hh_v. apply (ak_zero k Hk) in E. rewrite E. apply M_num; lia.
  - apply (vk_good k Hk E). lia.
Qed.
Section Solver.
(** [al]: how the solver computes the coefficient of the reflection. *)
Variable al : Z -> (Z -> sf) -> sf.
Hypothesis Hal_v : forall k y, 0 <= k < p -> (forall r, k <= r < m -> sf_valid (y r) = true) -> sf_valid (al k y) = true.
Hypothesis Hal_f : forall k y, 0 <= k < p -> isfin (al k y) = true -> forall r, k <= r < m -> isfin (y r) = true.
Hypothesis Hal : forall k y zhr, 0 <= k < p -> fR (ak k) <> 0%R -> isfin (al k y) = true -> (forall r, k <= r < m -> num (y r)) ->
  (forall r, 0 <= r < k -> zhr r = fR (y r)) ->
  (forall r, k <= r < m -> (zhr r = fR (sf_add (y r) (sf_mul (al k y) (vk k r))) /\ isfin (sf_add (y r) (sf_mul (al k y) (vk k r))) = true) \/ zhr r = (fR (y r) + fR (al k y) * fR (vk k r))%R) ->
  (vlen m (fun r => zhr r - mvec m (rP m k (vk k)) (fun r => fR (y r)) r) <= 10 * kap m * vlen m (fun r => fR (y r)) + omg m)%R.
Definition so_step (k : Z) (y : Z -> sf) (i : Z) : sf := if k <=? i then sf_add (y i) (sf_mul (al k y) (Mf k i)) else y i.
Variables (b x : Z -> sf).
Hypothesis Nb : nums m b.
Hypothesis Nx : nums n x.
Notation Y k := (accum so_step (Z.to_nat k) b).
Lemma Y_S k : 0 <= k -> Y (k + 1) = so_step k (Y k). Proof. apply accum_S. Qed.
Lemma Y_valid k : 0 <= k <= p -> forall r, 0 <= r < m -> sf_valid (Y k r) = true.
Proof.
  assert (G : forall k, 0 <= k -> k <= p -> forall r, 0 <= r < m -> sf_valid (Y k r) = true); [|intros; apply G; lia]. clear k.
  refine (natlike_ind _ _ _); [intros _ r Hr; apply Nb; auto|]. intros k Hk IH Hp r Hr. change (Z.succ k) with (k + 1) in *. specialize (IH ltac:(lia)). rewrite Y_S by auto. unfold so_step.
  destruct (Z.leb_spec k r); [|auto]. apply add_valid; auto. apply mul_valid; [apply Hal_v; [lia|]; intros; apply IH; lia|apply Mf_num; lia].
Qed.
Lemma Y_low k r : 0 <= r < k -> k <= p -> Y p r = Y k r.
Proof.
  intros Hr Hk. assert (G : forall d, 0 <= d -> Y (k + d) r = Y k r); [|replace p with (k + (p - k)) by lia; apply G; lia].
  refine (natlike_ind _ _ _); [rewrite Z.add_0_r; auto|]. intros d Hd IH. replace (k + Z.succ d) with (k + d + 1) by lia. rewrite Y_S by lia. unfold so_step. rewrite (proj2 (Z.leb_gt _ _)) by lia. auto.
Qed.
(** The triangular part: finite rows, and the rounding of the substitution. *)
Hypothesis Hy : forall i, 0 <= i < p -> isfin (Y p i) = true /\ fR (ak i) <> 0%R.
Hypothesis Hs : forall i, 0 <= i < p ->
  (Rabs (fR (Y p i) - Rs i p (fun t => fR (T i t) * fR (x t))) <= gam (p + 1) * Rs i p (fun t => Rabs (fR (T i t)) * Rabs (fR (x t))) + (IZR p + Rabs (fR (T i i))) * grow (p + 1) * tiny)%R.
Hypothesis Hx0 : forall i, p <= i < n -> x i = sf_zero.
Lemma Y_al k : 0 <= k < p -> isfin (al k (Y k)) = true.
Proof.
  intros Hk. destruct (Hy k Hk) as [F _]. rewrite (Y_low (k + 1)) in F by lia. rewrite Y_S in F by lia. unfold so_step in F. rewrite Z.leb_refl in F.
  apply sf_add_fin in F. destruct F as [_ F]. apply (sf_mul_fin _ _ F).
Qed.
Lemma Y_num k r : 0 <= k < p -> k <= r < m -> num (Y k r).
Proof. intros Hk Hr. split; [apply Y_valid; lia|]. apply (Hal_f k (Y k) Hk (Y_al k Hk) r Hr). Qed.
Definition wq (k r : Z) : R := if (k =? p) && (p <=? r) then (fR (Y (p - 1) r) + fR (al (p - 1) (Y (p - 1))) * fR (vk (p - 1) r))%R else fR (Y k r).
Lemma wq_step k : 0 <= k < p -> (vlen m (fun r => wq (k + 1) r - mvec m (Pq k) (wq k) r) <= 10 * kap m * vlen m (wq k) + omg m)%R.
Proof.
  intros Hk. destruct (Hy k Hk) as [F E0]. rewrite Pq_nz by auto.
  assert (Ek : forall r, wq k r = fR (Y k r)) by (intros; unfold wq; rewrite (proj2 (Z.eqb_neq k p)) by lia; auto).
  rewrite (vlen_ext m (wq k) (fun r => fR (Y k r))) by (intros; apply Ek).
  rewrite (vlen_ext m _ (fun r => wq (k + 1) r - mvec m (rP m k (vk k)) (fun r => fR (Y k r)) r)%R).
  2:{ intros r Hr. f_equal. apply mvec_ext; auto. }
  apply Hal; auto.
  - apply Y_al; auto.
  - intros. apply Y_num; lia.
  - intros r Hr. unfold wq. rewrite (proj2 (Z.leb_gt p r)), andb_false_r by lia. rewrite Y_S by lia. unfold so_step. rewrite (proj2 (Z.leb_gt k r)) by lia. auto.
  - intros r Hr. rewrite <- Mf_v by auto.
    assert (Es : Y (k + 1) r = sf_add (Y k r) (sf_mul (al k (Y k)) (Mf k r))) by (rewrite Y_S by lia; unfold so_step; rewrite (proj2 (Z.leb_le k r)) by lia; auto).
    destruct (Z.eq_dec r k) as [->|Nr].
    + left. rewrite <- Es. unfold wq. rewrite (proj2 (Z.leb_gt p k)), andb_false_r by lia. split; auto. rewrite <- (Y_low (k + 1)) by lia. auto.
    + destruct (Z.eq_dec (k + 1) p) as [Ep|Np].
      * right. unfold wq. rewrite (proj2 (Z.eqb_eq (k + 1) p)), (proj2 (Z.leb_le p r)) by lia. cbn [andb]. replace (p - 1) with k by lia. rewrite Mf_v by auto. auto.
      * left. rewrite <- Es. unfold wq. rewrite (proj2 (Z.eqb_neq (k + 1) p)) by lia. split; auto. apply Y_num; lia.
Qed.
Lemma w_columns : (vlen m (fun r => fR (b r) - mvec m Qq (wq p) r) <= (gr (10 * kap m) p - 1) * vlen m (fun r => fR (b r)) + IZR p * gr (10 * kap m) p * omg m)%R.
Proof.
  pose proof (chain m Pq (10 * kap m) (omg m) Pq_orth Pq_sym eta_pos (Rlt_le _ _ (omg_pos m Hm)) wq p ltac:(unfold p; lia) (fun k Hk => wq_step k Hk)) as K.
  assert (E : forall r, wq 0 r = fR (b r)) by (intros; unfold wq; rewrite (proj2 (Z.eqb_neq 0 p)) by (unfold p; lia); auto).
  rewrite (vlen_ext m (fun r => fR (b r)) (wq 0)) by (intros; rewrite E; auto).
  eapply Rle_trans; [|exact K]. right. apply vlen_ext. intros r Hr. rewrite E. auto.
Qed.
(** Moving the rounding of the substitution into R and the right-hand side. *)
Let S_ i := Rs i p (fun t => Rabs (fR (T i t)) * Rabs (fR (x t)))%R.
Let eta_ i := ((IZR p + Rabs (fR (T i i))) * grow (p + 1) * tiny)%R.
Let B_ i := (gam (p + 1) * S_ i + eta_ i)%R.
Let th i := if Req_EM_T (B_ i) 0 then 0%R else ((fR (Y p i) - Rs i p (fun t => fR (T i t) * fR (x t))) / B_ i)%R.
Let sgn (y : R) := if Rlt_dec y 0 then (-1)%R else 1%R.
Definition dT (i t : Z) : R := if i <? p then (th i * gam (p + 1) * Rabs (fR (T i t)) * sgn (fR (x t)))%R else 0%R.
Definition df (i : Z) : R := if i <? p then (- (th i * eta_ i))%R else 0%R.
Lemma gam_p : (0 <= gam (p + 1) <= 1)%R.
Proof.
  unfold gam. pose proof (grow_ge1 (p + 1)). split; [lra|]. rewrite grow_gw in *.
  assert (E : (INR (Z.to_nat (p + 1)) * ulp2 <= / 1024)%R).
  { rewrite INR_IZR_INZ, Z2Nat.id by (unfold p; lia). eapply Rle_trans; [|exact Hkap]. unfold kap. apply Rmult_le_compat_r; [pose proof ulp2_pos; lra|]. apply IZR_le. unfold p. lia. }
  pose proof (gw_small _ E). lra.
Qed.
Lemma eta_le i : 0 <= i < p -> (0 <= eta_ i <= b2 (-561))%R.
Proof.
  intros Hi. destruct (Hy i Hi) as [_ E0]. pose proof (ak_range i Hi E0) as [_ U]. rewrite <- Df_a in U by auto. rewrite <- T_D in U by auto.
  unfold eta_. pose proof gam_p as G. unfold gam in G. pose proof tiny_pos as Pt. assert (Pp : (0 <= IZR p)%R) by (apply IZR_le; unfold p; lia). pose proof (Rabs_pos (fR (T i i))) as Pa.
  assert (Hp : (IZR p <= b2 511)%R). { eapply Rle_trans; [|apply (bpow_le radix2 43); lia]. eapply Rle_trans; [|apply (m_b43 m); auto]. apply IZR_le. unfold p. lia. }
  split; [repeat apply Rmult_le_pos; lra|]. change (-561) with (511 + 1 + 1 + 1 + -1075). rewrite !bpow_plus, <- tiny_b. change (b2 1) with 2%R. pose proof (bpow_gt_0 radix2 511).
  apply Rmult_le_compat_r; [lra|]. replace (b2 511 * 2 * 2 * 2)%R with ((b2 511 + b2 511) * 4)%R by ring. apply Rmult_le_compat; lra.
Qed.
Lemma B_nonneg i : 0 <= i < p -> (0 <= B_ i)%R.
Proof. intros Hi. unfold B_. pose proof gam_p. pose proof (eta_le i Hi). assert (0 <= S_ i)%R by apply absprod_nonneg. nra. Qed.
Lemma th_le i : 0 <= i < p -> (Rabs (th i) <= 1)%R.
Proof.
  intros Hi. unfold th. destruct (Req_EM_T (B_ i) 0) as [E|E]; [rewrite Rabs_R0; lra|]. pose proof (B_nonneg i Hi) as P. unfold Rdiv. rewrite Rabs_mult, Rabs_inv, (Rabs_pos_eq (B_ i)) by auto.
  assert (P' : (0 < B_ i)%R) by lra. apply (Rmult_le_reg_r (B_ i)); auto. rewrite Rmult_assoc, Rinv_l, Rmult_1_r, Rmult_1_l by auto. apply Hs. auto.
Qed.
Lemma th_eq i : 0 <= i < p -> (th i * B_ i = fR (Y p i) - Rs i p (fun t => fR (T i t) * fR (x t)))%R.
Proof.
  intros Hi. unfold th. destruct (Req_EM_T (B_ i) 0) as [E|E]; [|field; auto]. pose proof (Hs i Hi) as K. fold (S_ i) (eta_ i) (B_ i) in K. rewrite E in K. pose proof (abs_in _ _ K). lra.
Qed.
Lemma sgn_abs y : (sgn y * y = Rabs y)%R.
Proof. unfold sgn. destruct (Rlt_dec y 0); [rewrite Rabs_left|rewrite Rabs_pos_eq]; lra. Qed.
Lemma sgn_1 y : Rabs (sgn y) = 1%R.
Proof. unfold sgn. destruct (Rlt_dec y 0); [rewrite Rabs_left|rewrite Rabs_pos_eq]; lra. Qed.
Definition T' (i t : Z) : R := (fR (T i t) + dT i t)%R.
Lemma T'_x i : 0 <= i < m -> mvec n T' (fun t => fR (x t)) i = if i <? p then (wq p i + df i)%R else 0%R.
Proof.
  intros Hi. unfold mvec. destruct (Z.ltb_spec i p) as [L|L].
  - rewrite (Rs_split 0 i n) by (unfold p in L; lia). rewrite (Rs_zero 0 i).
    2:{ intros t Ht. unfold T', dT. rewrite T_low by lia. change (fR sf_zero) with 0%R. rewrite Rabs_R0. destruct (i <? p); ring. }
    rewrite (Rs_split i p n) by (unfold p in *; lia). rewrite (Rs_zero p n) by (intros t Ht; rewrite Hx0 by lia; change (fR sf_zero) with 0%R; ring).
    rewrite (Rs_ext i p _ (fun t => fR (T i t) * fR (x t) + th i * gam (p + 1) * (Rabs (fR (T i t)) * Rabs (fR (x t))))%R).
    2:{ intros t Ht. unfold T', dT. rewrite (proj2 (Z.ltb_lt i p)) by lia. rewrite <- (sgn_abs (fR (x t))). ring. }
    rewrite Rs_plus, Rs_scal_l. fold (S_ i). unfold wq, df. rewrite (proj2 (Z.leb_gt p i)), andb_false_r, (proj2 (Z.ltb_lt i p)) by lia.
    pose proof (th_eq i ltac:(lia)) as K. unfold B_ in K. lra.
  - apply Rs_zero. intros t Ht. unfold T', dT. rewrite (proj2 (Z.ltb_ge i p)), T_low by lia. change (fR sf_zero) with 0%R. ring.
Qed.
Lemma dT_len j : 0 <= j < n -> (vlen m (fun i => dT i j) <= gam (p + 1) * vlen m (fun i => fR (T i j)))%R.
Proof.
  intros Hj. pose proof gam_p as G. rewrite <- (Rabs_pos_eq (gam (p + 1))) by lra. rewrite <- vlen_scal. rewrite <- (vlen_abs m (fun r => gam (p + 1) * _)%R). apply vlen_le. intros i Hi.
  rewrite Rabs_mult, (Rabs_pos_eq (gam (p + 1))) by lra. unfold dT. destruct (Z.ltb_spec i p) as [L|L]; [|rewrite Rabs_R0; apply Rmult_le_pos; [lra|apply Rabs_pos]].
  rewrite !Rabs_mult, sgn_1, Rabs_Rabsolu, Rmult_1_r, (Rabs_pos_eq (gam (p + 1))) by lra. pose proof (th_le i ltac:(lia)). apply Rmult_le_compat_r; [apply Rabs_pos|]. pose proof (Rabs_pos (th i)). nra.
Qed.
Lemma df_len : (vlen m df <= qr_abs m p)%R.
Proof.
  apply Rle_trans with (vlen m (fun _ => b2 (-561))).
  - apply vlen_le. intros i Hi. unfold df. destruct (Z.ltb_spec i p) as [L|L]; [|rewrite Rabs_R0; apply bpow_ge_0].
    rewrite Rabs_Ropp, Rabs_mult. pose proof (th_le i ltac:(lia)). pose proof (eta_le i ltac:(lia)). rewrite (Rabs_pos_eq (eta_ i)) by lra. pose proof (Rabs_pos (th i)). nra.
  - eapply Rle_trans; [apply vlen_const; [lia|apply bpow_ge_0]|]. unfold qr_abs, refl_grow. rewrite pz. assert (1 <= IZR p)%R by (apply (IZR_le 1); unfold p; lia). assert (1 <= IZR m)%R by (apply (IZR_le 1); auto).
    pose proof (bpow_le radix2 (-561) (-537) ltac:(lia)). pose proof (bpow_gt_0 radix2 (-561)).
    assert (1 <= (1 + refl_unit m) ^ Z.to_nat p)%R by (apply pow_R1_Rle; pose proof eta_pos; unfold refl_unit; unfold kap in *; lra).
    apply Rle_trans with (1 * (IZR m * b2 (-537)))%R; [nra|]. apply Rmult_le_compat_r; nra.
Qed.
Lemma gr_grow : gr (10 * kap m) p = refl_grow m p. Proof. reflexivity. Qed.
Lemma om_abs : (IZR p * gr (10 * kap m) p * omg m = qr_abs m p)%R. Proof. unfold qr_abs, omg. rewrite pz. reflexivity. Qed.
Lemma solver_ok : ls_backward m n A b x.
Proof.
  exists (fun i j => mvec m Qq (fun t => T' t j) i - fR (A i j))%R, (fun i => mvec m Qq (fun t => wq p t + df t)%R i - fR (b i))%R. cbv zeta. fold p.
  pose proof gam_p as G. change (len2 m) with (vlen m). unfold qr_rel. pose proof (grow_ge1 (p + 1)) as G1. assert (G2 : (grow (p + 1) <= 2)%R) by (unfold gam in G; lra).
  assert (R1 : (1 <= refl_grow m p)%R) by (rewrite <- gr_grow; apply gr_ge1; apply eta_pos).
  assert (PA : (0 <= qr_abs m p)%R) by (eapply Rle_trans; [apply vlen_pos|apply df_len]).
  assert (EA : forall i j, (fR (A i j) + (mvec m Qq (fun t => T' t j) i - fR (A i j)) = mvec m Qq (fun t => T' t j) i)%R) by (intros; ring).
  assert (Eb : forall i, (fR (b i) + (mvec m Qq (fun t => wq p t + df t)%R i - fR (b i)) = mvec m Qq (fun t => wq p t + df t)%R i)%R) by (intros; ring).
  assert (Ez : forall z i, 0 <= i < m -> mvec n (fun i j => fR (A i j) + (mvec m Qq (fun t => T' t j) i - fR (A i j)))%R z i = mvec m Qq (mvec n T' z) i).
  { intros z i Hi. rewrite (mvec_ext n _ (fun i j => mvec m Qq (fun t => T' t j) i) z z) by (auto; intros; apply EA).
    unfold mvec. rewrite (Rs_ext 0 n _ (fun j => Rs 0 m (fun k => Qq i k * (T' k j * z j)))%R) by (intros; rewrite <- Rs_scal_r; apply Rs_ext; intros; ring).
    rewrite Rs_swap. apply Rs_ext. intros k Hk. rewrite Rs_scal_l. reflexivity. }
  split; [|split; [|split]].
  - intros j Hj. pose proof (qr_columns j Hj) as K. rewrite om_abs, gr_grow in K. set (a := vlen m (fun i => fR (A i j))) in *. assert (Pa : (0 <= a)%R) by apply vlen_pos.
    rewrite (vlen_ext m _ (fun i => (mvec m Qq (fun t => fR (T t j)) i - fR (A i j)) + mvec m Qq (fun t => dT t j) i)%R).
    2:{ intros i Hi. unfold T'. unfold mvec. rewrite (Rs_ext 0 m (fun k => Qq i k * (fR (T k j) + dT k j))%R (fun k => Qq i k * fR (T k j) + Qq i k * dT k j)%R) by (intros; ring). rewrite Rs_plus. ring. }
    eapply Rle_trans; [apply vlen_tri|]. rewrite (vlen_sub m (mvec m Qq (fun t => fR (T t j)))). rewrite (vlen_orth m Qq) by (apply Qp_orth, Pq_orth).
    pose proof (dT_len j Hj) as D. pose proof (vlen_diff m (fun i => fR (A i j)) (mvec m Qq (fun t => fR (T t j)))) as L. rewrite (vlen_orth m Qq) in L by (apply Qp_orth, Pq_orth). fold a in L.
    set (e := vlen m (fun r => fR (A r j) - mvec m Qq (fun t => fR (T t j)) r)%R) in *. set (tj := vlen m (fun t => fR (T t j))) in *.
    assert (gam (p + 1) * tj <= gam (p + 1) * (a + ((refl_grow m p - 1) * a + qr_abs m p)))%R by (apply Rmult_le_compat_l; lra). unfold gam in *.
    assert ((grow (p + 1) - 1) * qr_abs m p <= 1 * qr_abs m p)%R by (apply Rmult_le_compat_r; lra). lra.
  - pose proof w_columns as K. rewrite om_abs, gr_grow in K.
    rewrite (vlen_ext m _ (fun i => (mvec m Qq (wq p) i - fR (b i)) + mvec m Qq df i)%R).
    2:{ intros i Hi. unfold mvec. rewrite (Rs_ext 0 m (fun k => Qq i k * (wq p k + df k))%R (fun k => Qq i k * wq p k + Qq i k * df k)%R) by (intros; ring). rewrite Rs_plus. ring. }
    eapply Rle_trans; [apply vlen_tri|]. rewrite (vlen_sub m (mvec m Qq (wq p))). rewrite (vlen_orth m Qq) by (apply Qp_orth, Pq_orth). pose proof df_len. lra.
  - intros z. unfold residual2.
    assert (RR : forall z, Rs 0 m (fun i => (mvec n (fun i j => fR (A i j) + (mvec m Qq (fun t => T' t j) i - fR (A i j))) z i - (fR (b i) + (mvec m Qq (fun t => wq p t + df t) i - fR (b i)))) *
        (mvec n (fun i j => fR (A i j) + (mvec m Qq (fun t => T' t j) i - fR (A i j))) z i - (fR (b i) + (mvec m Qq (fun t => wq p t + df t) i - fR (b i)))))%R =
       Rs 0 m (fun i => (mvec n T' z i - (wq p i + df i)) * (mvec n T' z i - (wq p i + df i)))%R).
    { clear z. intros z. pose proof (orth_norm m Qq (fun i => mvec n T' z i - (wq p i + df i))%R ltac:(apply Qp_orth, Pq_orth)) as K. unfold House.norm2 in K. etransitivity; [|exact K]. apply Rs_ext. intros i Hi. rewrite Ez by auto. rewrite Eb. rewrite !mvec_minus. reflexivity. }
    rewrite !RR. apply Rs_le. intros i Hi. rewrite T'_x by auto. destruct (Z.ltb_spec i p) as [L|L].
    + unfold Rminus at 1 2. rewrite Rplus_opp_r, Rmult_0_l. apply Rle_0_sqr.
    + replace (mvec n T' z i) with 0%R; [lra|]. symmetry. apply Rs_zero. intros t Ht. unfold T', dT. rewrite (proj2 (Z.ltb_ge i p)), T_low by lia. change (fR sf_zero) with 0%R. ring.
  - intros Hmn i Hi. rewrite Ez, Eb by auto. apply mvec_ext; auto. intros t Ht. rewrite T'_x by auto. rewrite (proj2 (Z.ltb_lt t p)) by (unfold p; lia). reflexivity.
Qed.
End Solver.
(** The back substitution, with a division or with a rounded reciprocal. *)
Lemma tri_sum y (x : Z -> sf) i : 0 <= i < p -> nums n x -> sf_valid y = true ->
  let w := @fsubd SO y (i + 1) p (fun t => sf_mul (x t) (Mf t i)) in isfin w = true ->
  back (p - (i + 1)) y (Rs (i + 1) p (fun t => fR (T i t) * fR (x t))%R) (Rs (i + 1) p (fun t => Rabs (fR (T i t)) * Rabs (fR (x t)))%R) w.
Proof.
  intros Hi Nx Vy w Fw. pose proof (back_subd pf y p x (fun t => Mf t i) (p - (i + 1)) Vy ltac:(lia)) as K. replace (p - (p - (i + 1))) with (i + 1) in K by lia.
  assert (HT : forall t, i + 1 <= t < p -> T i t = Mf t i) by (intros; apply T_up; lia).
  specialize (K ltac:(intros t Ht; split; [apply Nx; unfold p in Ht; lia|rewrite <- HT by auto; apply FT; unfold p in Ht; lia]) Fw).
  rewrite (Rs_ext (i + 1) p _ (fun t => fR (T i t) * fR (x t))%R) in K by (intros; rewrite HT by auto; ring).
  rewrite (Rs_ext (i + 1) p (fun t => Rabs (fR (x t)) * Rabs (fR (Mf t i)))%R (fun t => Rabs (fR (T i t)) * Rabs (fR (x t)))%R) in K by (intros; rewrite HT by auto; ring). exact K.
Qed.
Lemma tri_fin i : 0 <= i < p -> num (Df i). Proof. intros Hi. rewrite <- T_D by auto. apply FT; unfold p in Hi; lia. Qed.
Lemma tri_mono i q k X B (x : Z -> sf) : 0 <= i < p -> 0 <= q < p -> k <= p + 1 ->
  (Rabs (X - (Rs (i + 1) p (fun t => fR (T i t) * fR (x t)) + fR (x i) * fR (Df i))) <=
   gam k * (Rs (i + 1) p (fun t => Rabs (fR (T i t)) * Rabs (fR (x t))) + Rabs (fR (x i)) * Rabs (fR (Df i))) + (IZR q + Rabs (fR (Df i))) * B * tiny)%R -> (B <= grow (p + 1))%R ->
  (Rabs (X - Rs i p (fun t => fR (T i t) * fR (x t))) <= gam (p + 1) * Rs i p (fun t => Rabs (fR (T i t)) * Rabs (fR (x t))) + (IZR p + Rabs (fR (T i i))) * grow (p + 1) * tiny)%R.
Proof.
  intros Hi Hq Hk H HB. rewrite !(Rs_first i p) by lia. rewrite (T_D i Hi). 
  rewrite (Rplus_comm (fR (Df i) * fR (x i))), (Rmult_comm (fR (Df i)) (fR (x i))), (Rplus_comm (Rabs (fR (Df i)) * _)), (Rmult_comm (Rabs (fR (Df i)))).
  eapply Rle_trans; [exact H|]. apply Rplus_le_compat.
  - apply Rmult_le_compat_r; [apply Rplus_le_le_0_compat; [apply absprod_nonneg|apply Rmult_le_pos; apply Rabs_pos]|]. unfold gam. pose proof (grow_le k (p + 1) Hk). lra.
  - apply Rmult_le_compat_r; [pose proof tiny_pos; lra|]. pose proof (Rabs_pos (fR (Df i))). assert (0 <= IZR q)%R by (apply IZR_le; lia). assert (IZR q <= IZR p)%R by (apply IZR_le; lia).
    eapply Rle_trans; [apply Rmult_le_compat_l; [lra|exact HB]|]. apply Rmult_le_compat_r; [pose proof (grow_ge1 (p + 1)); lra|lra].
Qed.
Lemma tri_div y (x : Z -> sf) i : 0 <= i < p -> nums n x -> sf_valid y = true -> x i = sf_div (@fsubd SO y (i + 1) p (fun t => sf_mul (x t) (Mf t i))) (Df i) ->
  (isfin y = true /\ fR (ak i) <> 0%R) /\
  (Rabs (fR y - Rs i p (fun t => fR (T i t) * fR (x t))) <= gam (p + 1) * Rs i p (fun t => Rabs (fR (T i t)) * Rabs (fR (x t))) + (IZR p + Rabs (fR (T i i))) * grow (p + 1) * tiny)%R.
Proof.
  intros Hi Nx Vy E. assert (F : isfin (x i) = true) by (apply Nx; unfold p in Hi; lia). rewrite E in F. pose proof (tri_sum y x i Hi Nx Vy (sf_div_fin _ _ F)) as K.
  split; [split; [apply K|rewrite <- Df_a by auto; apply (div_zero_fin _ _ F); apply tri_fin; auto]|].
  pose proof (back_div (p - (i + 1)) _ _ _ _ (Df i) ltac:(lia) (absprod_nonneg _ _ _ _) K (tri_fin i Hi) F) as D. rewrite <- E in D.
  apply (tri_mono i (p - (i + 1)) (p - (i + 1) + 1) _ (grow (p - (i + 1) + 1))); auto; try lia. apply grow_le. lia.
Qed.
Lemma tri_mul y (x : Z -> sf) i : 0 <= i < p -> nums n x -> sf_valid y = true -> x i = sf_mul (@fsubd SO y (i + 1) p (fun t => sf_mul (x t) (Mf t i))) (sf_div (sf_of_Z 1) (Df i)) ->
  (isfin y = true /\ fR (ak i) <> 0%R) /\
  (Rabs (fR y - Rs i p (fun t => fR (T i t) * fR (x t))) <= gam (p + 1) * Rs i p (fun t => Rabs (fR (T i t)) * Rabs (fR (x t))) + (IZR p + Rabs (fR (T i i))) * grow (p + 1) * tiny)%R.
Proof.
  intros Hi Nx Vy E. assert (F : isfin (x i) = true) by (apply Nx; unfold p in Hi; lia). rewrite E in F. destruct (sf_mul_fin _ _ F) as [Fs Fi]. pose proof (tri_sum y x i Hi Nx Vy Fs) as K.
  pose proof (div_zero_fin _ _ Fi (proj2 (tri_fin i Hi))) as ND. assert (Na : fR (ak i) <> 0%R) by (rewrite <- Df_a by auto; auto).
  split; [split; [apply K|auto]|]. destruct K as (Vw & _ & K). pose proof (ak_range i Hi Na) as [_ U]. rewrite <- Df_a in U by auto.
  pose proof (inv_step _ _ _ (IZR (p - (i + 1))) (grow (p - (i + 1))) _ (Df i) (grow_ge1 _) ltac:(apply IZR_le; lia) (absprod_nonneg _ _ _ _) Vw (tri_fin i Hi) ND ltac:(eapply Rle_trans; [exact U|apply bpow_le; lia]) K F) as D.
  rewrite <- E in D. rewrite <- !grow_S in D by lia.
  apply (tri_mono i (p - (i + 1)) (p - (i + 1) + 1 + 1) _ (grow (p - (i + 1) + 1 + 1))); auto; try lia. apply grow_le. lia.
Qed.
Lemma c_f k : 0 <= k < p -> @fmul SO (Df k) (Mf k k) = sf_mul (ak k) (vk k k). Proof. intros. rewrite Df_a, Mf_v by auto. reflexivity. Qed.
Lemma c_valid k : 0 <= k < p -> sf_valid (@fmul SO (Df k) (Mf k k)) = true. Proof. intros. apply mul_valid; [apply Df_valid; auto|apply Mf_num; lia]. Qed.
Lemma sv_back b x : nums m b -> nums n x -> sv_sol (O := SO) m n Mf Df b x -> ls_backward m n A b x.
Proof.
  intros Nb Nx [S1 S2]. set (al := sv_dot (O := SO) m Mf Df).
  assert (HV : forall k y, 0 <= k < p -> (forall r, k <= r < m -> sf_valid (y r) = true) -> sf_valid (al k y) = true).
  { intros k y Hk H. unfold al, sv_dot. apply div_valid; [|apply c_valid; auto]. apply fadds_valid. intros. apply mul_valid; [apply H; lia|apply Mf_num; lia]. }
  assert (Vy : forall i, 0 <= i < p -> sf_valid (sv_y (O := SO) m n Mf Df b i) = true) by (intros i Hi; apply (Y_valid al HV b Nb p ltac:(lia) i ltac:(unfold p in Hi; lia))).
  pose proof (fun i Hi => tri_div _ x i Hi Nx (Vy i Hi) (S1 i Hi)) as K.
  refine (solver_ok al HV _ _ b x Nb _ _ S2).
  - intros k y Hk F r Hr. unfold al, sv_dot in F. apply sf_div_fin in F. pose proof (fadds_fin k m _ F r Hr) as H. apply (sf_mul_fin _ _ H).
  - intros k y zhr Hk E0 F Ny Hlo Hhi.
    assert (Ea : al k y = al_add pf m k y (vk k) (sf_mul (ak k) (vk k k))).
    { unfold al, sv_dot, al_add. rewrite c_f by auto. change (@fdiv SO) with sf_div. f_equal. apply fadds_ext. intros r Hr. rewrite Mf_v by auto. reflexivity. }
    rewrite Ea in F, Hhi. apply (form_add pf m Hm Hkap k (vk k) _ y (fun r => fR (y r)) zhr ltac:(unfold p in Hk; lia) (vk_good k Hk E0)); auto.
  - intros i Hi. apply (K i Hi).
  - intros i Hi. apply (K i Hi).
Qed.
Lemma sm_back b x : nums m b -> nums n x -> sm_sol (O := SO) m n Mf Df b x -> ls_backward m n A b x.
Proof.
  intros Nb Nx [S1 S2]. set (al := sm_dot (O := SO) m Mf Df).
  assert (HV : forall k y, 0 <= k < p -> (forall r, k <= r < m -> sf_valid (y r) = true) -> sf_valid (al k y) = true).
  { intros k y Hk H. unfold al, sm_dot. apply mul_valid; [|apply div_valid; [apply num_one|apply c_valid; auto]]. apply fadds_valid. intros. apply mul_valid; [apply Mf_num; lia|apply H; lia]. }
  assert (Vy : forall i, 0 <= i < p -> sf_valid (sm_y (O := SO) m n Mf Df b i) = true) by (intros i Hi; apply (Y_valid al HV b Nb p ltac:(lia) i ltac:(unfold p in Hi; lia))).
  pose proof (fun i Hi => tri_mul _ x i Hi Nx (Vy i Hi) (S1 i Hi)) as K.
  refine (solver_ok al HV _ _ b x Nb _ _ S2).
  - intros k y Hk F r Hr. unfold al, sm_dot in F. apply sf_mul_fin in F. destruct F as [F _]. pose proof (fadds_fin k m _ F r Hr) as H. apply (sf_mul_fin _ _ H).
  - intros k y zhr Hk E0 F Ny Hlo Hhi.
    assert (Ea : al k y = al_mul pf m k (vk k) (sf_mul (ak k) (vk k k)) y).
    { unfold al, sm_dot, al_mul. rewrite c_f by auto. change (@fmul SO) with sf_mul. change (@fdiv SO) with sf_div. change (@fone SO) with (sf_of_Z 1). f_equal. apply fadds_ext. intros r Hr. rewrite Mf_v by auto. reflexivity. }
    rewrite Ea in F, Hhi. apply (form_mul pf m Hm Hkap k (vk k) _ y (fun r => fR (y r)) zhr ltac:(unfold p in Hk; lia) (vk_good k Hk E0)); auto.
  - intros i Hi. apply (K i Hi).
  - intros i Hi. apply (K i Hi).
Qed.
(** ** The orthogonal factor *)
Notation QT := (tabQT (O := SO) m n Mf Df).
Notation qi k := (qt_iter (O := SO) m n Mf Df k).
Lemma qi_S k : 0 <= k < p -> qi k = qt_step (O := SO) m Mf Df k (qi (k + 1)). Proof. apply qt_iter_S. Qed.
Lemma qi_p : qi p = qt_init (O := SO) n.
Proof. unfold qt_iter. fold p. rewrite Z.sub_diag. reflexivity. Qed.
Lemma qi_top k i r : 0 <= k <= p -> i < k -> qi k i r = qt_init (O := SO) n i r.
Proof.
  intros Hk. remember (p - k) as d eqn:Ed. assert (Hd : 0 <= d) by lia. revert d Hd k Hk Ed i. refine (natlike_ind _ _ _).
  - intros k Hk Ed i Hi. replace k with p by lia. rewrite qi_p. auto.
  - intros d Hd IH k Hk Ed i Hi. rewrite qi_S by lia. unfold qt_step, qt_unit. rewrite (proj2 (Z.eqb_neq i k)), (proj2 (Z.leb_gt k i)) by lia. cbn [andb]. destruct (feq _ _); apply IH; lia.
Qed.
Lemma init_zero i r : 0 <= i < p -> qt_init (O := SO) n i r = sf_zero.
Proof. intros Hi. unfold qt_init. rewrite (proj2 (Z.leb_gt n i)), andb_false_r by (unfold p in Hi; lia). auto. Qed.
Lemma one_valid : sf_valid (sf_of_Z 1) = true. Proof. apply num_one. Qed.
Lemma qi_valid k : 0 <= k <= p -> forall i r, 0 <= r < m -> sf_valid (qi k i r) = true.
Proof.
  intros Hk. remember (p - k) as d eqn:Ed. assert (Hd : 0 <= d) by lia. revert d Hd k Hk Ed. refine (natlike_ind _ _ _).
  - intros k Hk Ed i r Hr. replace k with p by lia. rewrite qi_p. unfold qt_init. destruct (_ && _); [apply one_valid|reflexivity].
  - intros d Hd IH k Hk Ed i r Hr. specialize (IH (k + 1) ltac:(lia) ltac:(lia)). rewrite qi_S by lia.
    assert (Vu : forall i r, 0 <= r < m -> sf_valid (qt_unit (O := SO) (qi (k + 1)) k i r) = true) by (intros; unfold qt_unit; destruct (_ && _); [apply one_valid|apply IH; auto]).
    unfold qt_step. destruct (feq _ _); [apply Vu; auto|]. destruct (_ && _) eqn:Eb; [|apply IH; auto]. apply andb_prop in Eb. destruct Eb as [_ Eb]. apply Z.leb_le in Eb.
    apply add_valid; [apply Vu; auto|]. apply mul_valid; [|apply Mf_num; lia]. rewrite opp_valid. unfold qt_alpha. apply div_valid.
    + apply fsubl_valid. intros. apply mul_valid; [apply Vu; lia|apply Mf_num; lia].
    + apply mul_valid; [apply Df_valid; lia|apply Mf_num; lia].
Qed.
Definition fin_q (k : Z) : Prop := forall i r, 0 <= i < m -> 0 <= r < m -> isfin (qi k i r) = true.
Lemma fin_q_up k : 0 <= k < p -> fin_q k -> fin_q (k + 1).
Proof.
  intros Hk IH i r Hi Hr. specialize (IH i r Hi Hr). rewrite qi_S in IH by lia.
  assert (Gu : isfin (qt_unit (O := SO) (qi (k + 1)) k i r) = true -> isfin (qi (k + 1) i r) = true).
  { unfold qt_unit. destruct (_ && _) eqn:E; auto. apply andb_prop in E. destruct E as [E _]. apply Z.eqb_eq in E. subst i. intros _. rewrite qi_top, init_zero by lia. reflexivity. }
  unfold qt_step in IH. destruct (feq _ _); auto. destruct (_ && _); auto. apply Gu. apply (sf_add_fin _ _ IH).
Qed.
Definition uq (i k r : Z) : R := if i <? k then idm i r else fR (qi k i r).
Lemma unit_row k i r : 0 <= k < p -> k <= i < m -> 0 <= r < m -> fR (qt_unit (O := SO) (qi (k + 1)) k i r) = uq i (k + 1) r.
Proof.
  intros Hk Hi Hr. unfold uq, qt_unit. destruct (Z.ltb_spec i (k + 1)) as [L|L].
  - assert (i = k) by lia. subst i. rewrite Z.eqb_refl. unfold idm. rewrite (Z.eqb_sym k r). cbn [andb]. destruct (r =? k); [apply fR_one|]. rewrite qi_top, init_zero by lia. auto.
  - rewrite (proj2 (Z.eqb_neq i k)) by lia. auto.
Qed.
Lemma fzero_zero (d : sf) : num d -> fR d = 0%R -> exists s, d = S754_zero s.
Proof.
  intros [_ F] E. destruct d as [s|s| |s q e]; try discriminate; eauto. exfalso. cbn in E. apply Rmult_integral in E. destruct E as [E|E].
  - apply eq_IZR in E. destruct s; discriminate.
  - pose proof (powerRZ_lt 2 e ltac:(lra)). lra.
Qed.
Lemma uq_step k i : 0 <= k < p -> 0 <= i < m -> fin_q k ->
  (vlen m (fun r => uq i k r - mvec m (Pq k) (uq i (k + 1)) r) <= 10 * kap m * vlen m (uq i (k + 1)) + omg m)%R.
Proof.
  intros Hk Hi Fk. pose proof (omg_pos m Hm) as Po. pose proof (vlen_pos m (uq i (k + 1))) as Py. pose proof (kap_u m Hm) as Ku. pose proof ulp2_pos as Pu.
  assert (Z0 : (0 <= 10 * kap m * vlen m (uq i (k + 1)) + omg m)%R) by nra.
  destruct (Z_lt_ge_dec i k) as [L|L].
  - (* rows not yet reached *)
    rewrite vlen_zero; auto. intros r Hr. assert (E : forall r, uq i (k + 1) r = idm i r) by (intros; unfold uq; rewrite (proj2 (Z.ltb_lt i (k + 1))) by lia; auto).
    replace (uq i k r) with (idm i r) by (unfold uq; rewrite (proj2 (Z.ltb_lt i k)) by lia; auto).
    assert (Ep : mvec m (Pq k) (uq i (k + 1)) r = idm i r); [|rewrite Ep; ring]. rewrite <- E.
    destruct (Req_dec (fR (ak k)) 0) as [E0|E0]; [rewrite Pq_zero by auto; apply mvec_1; auto|]. rewrite Pq_nz by auto. unfold rP. rewrite refl_vec by auto.
    rewrite (Rs_zero 0 m); [unfold Rdiv; ring|]. intros j Hj. unfold cut. destruct (Z.ltb_spec j k); [ring|]. rewrite E. unfold idm. rewrite (proj2 (Z.eqb_neq i j)) by lia. ring.
  - assert (Ek : forall r, uq i k r = fR (qi k i r)) by (intros; unfold uq; rewrite (proj2 (Z.ltb_ge i k)) by lia; auto).
    assert (Es : forall r, qi k i r = qt_step (O := SO) m Mf Df k (qi (k + 1)) i r) by (intros; rewrite qi_S by lia; auto).
    destruct (Req_dec (fR (ak k)) 0) as [E0|E0].
    + (* no reflection: Mf k k must be zero *)
      assert (Em : @feq SO (Mf k k) (@fzero SO) = true).
      { destruct (@feq SO (Mf k k) (@fzero SO)) eqn:Em; auto. exfalso. pose proof (Fk k k ltac:(lia) ltac:(lia)) as F. rewrite qi_S in F by lia. unfold qt_step in F. rewrite Em in F.
        rewrite Z.leb_refl in F. cbn [andb] in F. apply sf_add_fin in F. destruct F as [_ F]. apply sf_mul_fin in F. destruct F as [F _]. change (@fneg SO) with SFopp in F. rewrite opp_fin in F.
        unfold qt_alpha in F. assert (Ez : exists s, @fmul SO (Df k) (Mf k k) = S754_zero s).
        { destruct (fzero_zero (ak k) (ak_num k Hk) E0) as [s Es0]. rewrite Df_a, Es0 by auto. destruct (Mf_num k k Hk ltac:(lia)) as [_ Fm]. destruct (Mf k k) as [s'|s'| |s' q e]; try discriminate; cbn; eauto. }
        destruct Ez as [s Ez]. rewrite Ez in F. apply (div_zero_fin _ (S754_zero s)) in F; [|reflexivity]. apply F. reflexivity. }
      rewrite Pq_zero by auto. rewrite vlen_zero; auto. intros r Hr. rewrite mvec_1, Ek, Es by auto. unfold qt_step. rewrite Em. rewrite unit_row by lia. ring.
    + destruct (ak_range k Hk E0) as [La Ua].
      assert (Em : @feq SO (Mf k k) (@fzero SO) = false).
      { apply not_true_is_false. intros H. apply (feq_zero pf _ (Mf_num k k Hk ltac:(lia))) in H. rewrite Mf_v in H by auto.
        pose proof (av_bounds pf m Hm Hkap k ltac:(lia) (M k k) ltac:(intros; apply M_num; lia) (ak_fin k Hk) La Ua) as [B _]. rewrite H, Rmult_0_r, Rabs_R0 in B. pose proof (Rabs_pos_lt _ E0). nra. }
      rewrite Pq_nz by auto. apply (form_neg pf m Hm Hkap k (vk k) _ (qt_unit (O := SO) (qi (k + 1)) k i) (qi k i) (uq i (k + 1)) (uq i k) ltac:(lia) (vk_good k Hk E0)).
      * intros r Hr. unfold qt_unit. destruct (_ && _); [apply one_valid|apply qi_valid; lia].
      * intros. apply Fk; lia.
      * intros. symmetry. apply unit_row; lia.
      * intros. apply Ek.
      * intros r Hr. rewrite Ek, Es. unfold qt_step. rewrite Em. rewrite (proj2 (Z.leb_gt k r)), andb_false_r by lia.
        rewrite <- unit_row by lia. unfold qt_unit. rewrite (proj2 (Z.eqb_neq r k)), andb_false_r by lia. auto.
      * intros r Hr. rewrite Es. unfold qt_step. rewrite Em, (proj2 (Z.leb_le k i)), (proj2 (Z.leb_le k r)) by lia. cbn [andb].
        change (@fadd SO) with sf_add. change (@fmul SO) with sf_mul. change (@fneg SO) with SFopp. rewrite Mf_v by auto. f_equal. f_equal. f_equal. unfold qt_alpha, al_sub.
        rewrite Df_a, Mf_v by auto. change (@fdiv SO) with sf_div. change (@fmul SO) with sf_mul. f_equal. apply fsubl_ext. intros t Ht. rewrite Mf_v by auto. auto.
Qed.
Hypothesis FQ : nums2 m m QT.
Lemma qi_fin k : 0 <= k <= p -> fin_q k.
Proof.
  revert k. assert (G : forall k, 0 <= k -> k <= p -> fin_q k); [|intros; apply G; lia].
  refine (natlike_ind _ _ _); [intros _ i r Hi Hr; apply (FQ i r Hi Hr)|]. intros k Hk IH Hp. apply fin_q_up; [lia|]. apply IH. lia.
Qed.
Lemma q_columns i : 0 <= i < m -> (vlen m (fun r => fR (QT i r) - Qq r i) <= (gr (10 * kap m) p - 1) + IZR p * gr (10 * kap m) p * omg m)%R.
Proof.
  intros Hi. assert (E1 : vlen m (idm i) = 1%R).
  { unfold vlen, dot. rewrite (Rs_pick 0 m i) by (try lia; intros; unfold idm; rewrite (proj2 (Z.eqb_neq _ _)) by auto; ring). rewrite idm_same, Rmult_1_l. apply sqrt_1. }
  pose proof (chain_down m Pq (10 * kap m) (omg m) Pq_orth eta_pos (Rlt_le _ _ (omg_pos m Hm)) (uq i) (idm i) p 0 ltac:(unfold p; lia)) as K.
  rewrite Z.sub_0_r, E1, Rmult_1_r in K. eapply Rle_trans; [|apply K].
  - right. apply vlen_ext. intros r Hr. rewrite Qp_0, mvec_1 by auto. unfold uq at 1. rewrite (proj2 (Z.ltb_ge i 0)) by lia. f_equal. f_equal.
    unfold mvec. rewrite (Rs_pick 0 m i) by (try lia; intros; unfold idm; rewrite (proj2 (Z.eqb_neq _ _)) by auto; ring). rewrite idm_same. ring.
  - intros r Hr. unfold uq. destruct (Z.ltb_spec i p); auto. rewrite qi_p. unfold qt_init, idm. rewrite (proj2 (Z.leb_le n i)) by (unfold p in *; lia). rewrite andb_true_r. destruct (i =? r); [apply fR_one|reflexivity].
  - intros k Hk. apply uq_step; auto. apply qi_fin. lia.
Qed.
End QR.

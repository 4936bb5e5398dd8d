(** The Hessenberg transform in float64, step by step. *)
From Coq Require Import ZArith List Reals Lia Lra Psatz Bool Floats.SpecFloat.
From Flocq Require Import Core BinarySingleNaN.
From Verif Require Import Base BaseLemmas Scalar Float64 VecSpec RealOps RSum House RealVec TabTac FSum CholFacts QRSpec QRFacts QRReal RndSpec FloatR RndSum RndTri RndHouse RndRefl RndApply RndQRSpec RndQR SVDSpecR RndFrob HessFacts HessReal RndHess RndHess2 RndHess3.
Open Scope Z_scope.

Lemma rP_zero n k v z r : 0 <= r < n -> 0 <= k <= n -> (forall t, k <= t < n -> z t = 0%R) -> mvec n (rP n k v) z r = z r.
Proof.
  intros Hr Hk Hz. unfold rP. rewrite refl_vec by auto. assert (E : Rs 0 n (fun t => cut k v t * z t)%R = 0%R); [|rewrite E; unfold Rdiv; ring].
  apply Rs_zero. intros t Ht. unfold cut. destruct (Z.ltb_spec t k); [ring|rewrite Hz by lia; ring].
Qed.
Lemma mvec_idm n z r : 0 <= r < n -> mvec n idm z r = z r.
Proof. intros Hr. unfold mvec. rewrite (Rs_pick 0 n r) by (try lia; intros i _ Hi; unfold idm; rewrite (proj2 (Z.eqb_neq r i)) by lia; ring). unfold idm. rewrite Z.eqb_refl. ring. Qed.

Section Iter.
Variables (pf n : Z).
Notation SO := (SFOps pf).
Hypothesis Hn : 1 <= n.
Hypothesis Hkap : (kap n <= / 1024)%R.
Variable A : Z -> Z -> sf.
Hypothesis VA : forall r j, 0 <= r < n -> 0 <= j < n -> sf_valid (A r j) = true.
Notation M k := (fst (hs_iter (O := SO) n A k%Z)).
Notation D k := (snd (hs_iter (O := SO) n A k%Z)).
Notation Mf := (M (n - 2)%Z).
Notation Df := (D (n - 2)%Z).
(** The column of step m = t + 1. *)
Notation xc t := (fun i : Z => fst (hs_iter (O := SO) n A t%Z) i t%Z).
Notation skip t := (equalsWithULP pf (c_s pf n (t + 1)%Z (xc t)) sf_zero 1%Z).

Lemma hi_M t : 0 <= t -> M (t + 1) = hs_M (O := SO) n (M t) (t + 1).
Proof. intros. unfold hs_iter. rewrite accum_S by lia. auto. Qed.
Lemma hi_D t : 0 <= t -> D (t + 1) = hs_D (O := SO) n (M t) (t + 1) (D t).
Proof. intros. unfold hs_iter. rewrite accum_S by lia. auto. Qed.
Lemma h_eqs t : hs_scale (O := SO) n (M t) (t + 1) = c_s pf n (t + 1) (xc t) /\
  hs_g (O := SO) n (M t) (t + 1) = q_g pf n (t + 1) (c_o pf n (t + 1) (xc t)) /\ hs_h (O := SO) n (M t) (t + 1) = q_h pf n (t + 1) (c_o pf n (t + 1) (xc t)) /\
  (forall i, hs_u (O := SO) n (M t) (t + 1) i = q_u pf n (t + 1) (c_o pf n (t + 1) (xc t)) i).
Proof.
  assert (E : t + 1 - 1 = t) by lia. unfold hs_u, hs_h, hs_g, hs_h0, hs_o, hs_scale. rewrite !E. split; [reflexivity|]. split; [reflexivity|]. split; [reflexivity|]. intros i. reflexivity.
Qed.
Lemma hM_skip t : 0 <= t -> skip t = true -> M (t + 1) = M t.
Proof.
  intros Ht Hs. rewrite hi_M by auto. destruct (h_eqs t) as (E & _). unfold hs_M. rewrite E.
  change (@fulp1 SO (c_s pf n (t + 1) (xc t)) (@fzero SO)) with (skip t). rewrite Hs. reflexivity.
Qed.
Lemma hM_go t i j : 0 <= t -> skip t = false -> M (t + 1) i j = if (i =? t + 1) && (j =? t) then c_T pf n (t + 1) (xc t) else hs_r (O := SO) n (M t) (t + 1) i j.
Proof.
  intros Ht Hs. rewrite hi_M by auto. destruct (h_eqs t) as (E & E2 & _). unfold hs_M. rewrite E, E2.
  change (@fulp1 SO (c_s pf n (t + 1) (xc t)) (@fzero SO)) with (skip t). rewrite Hs. replace (t + 1 - 1) with t by lia. reflexivity.
Qed.
Lemma hl_low t i j : i < t + 1 \/ j < t + 1 -> hs_l (O := SO) n (M t) (t + 1) i j = M t i j.
Proof. intros H. unfold hs_l. destruct (Z.leb_spec (t + 1) i); destruct (Z.leb_spec (t + 1) j); cbn [andb]; auto; lia. Qed.
Lemma hr_low t i j : j < t + 1 -> hs_r (O := SO) n (M t) (t + 1) i j = M t i j.
Proof. intros H. unfold hs_r. rewrite (proj2 (Z.leb_gt _ _)) by lia. apply hl_low. auto. Qed.
Lemma hl_eq t i j : t + 1 <= i -> t + 1 <= j -> hs_l (O := SO) n (M t) (t + 1) i j =
  sf_sub (M t i j) (sf_mul (q_al pf n (t + 1) (q_u pf n (t + 1) (c_o pf n (t + 1) (xc t))) (q_h pf n (t + 1) (c_o pf n (t + 1) (xc t))) (fun r => M t r j)) (q_u pf n (t + 1) (c_o pf n (t + 1) (xc t)) i)).
Proof.
  intros Hi Hj. destruct (h_eqs t) as (_ & _ & Eh & Eu). unfold hs_l. rewrite (proj2 (Z.leb_le _ _)) by auto. rewrite (proj2 (Z.leb_le _ _)) by auto. cbn [andb]. rewrite Eh, Eu. unfold q_al. rewrite (faddd_ext (O := SO) _ _ _ (fun t0 => (hs_u (O := SO) n (M t) (t + 1) t0 * M t t0 j)%f) (fun t0 => sf_mul (q_u pf n (t + 1) (c_o pf n (t + 1) (xc t)) t0) (M t t0 j))) by (intros; rewrite Eu; reflexivity). reflexivity.
Qed.
Lemma hr_eq t i j : t + 1 <= j -> hs_r (O := SO) n (M t) (t + 1) i j =
  sf_sub (hs_l (O := SO) n (M t) (t + 1) i j) (sf_mul (q_al pf n (t + 1) (q_u pf n (t + 1) (c_o pf n (t + 1) (xc t))) (q_h pf n (t + 1) (c_o pf n (t + 1) (xc t))) (fun r => hs_l (O := SO) n (M t) (t + 1) i r)) (q_u pf n (t + 1) (c_o pf n (t + 1) (xc t)) j)).
Proof.
  intros Hj. destruct (h_eqs t) as (_ & _ & Eh & Eu). unfold hs_r. rewrite (proj2 (Z.leb_le _ _)) by auto. rewrite Eh, Eu. unfold q_al. rewrite (faddd_ext (O := SO) _ _ _ (fun t0 => (hs_u (O := SO) n (M t) (t + 1) t0 * hs_l (O := SO) n (M t) (t + 1) i t0)%f) (fun t0 => sf_mul (q_u pf n (t + 1) (c_o pf n (t + 1) (xc t)) t0) (hs_l (O := SO) n (M t) (t + 1) i t0))) by (intros; rewrite Eu; reflexivity). reflexivity.
Qed.
(** Entries that stay. *)
Lemma hM_keep t i j : 0 <= t -> j < t \/ j = t /\ i <> t + 1 -> M (t + 1) i j = M t i j.
Proof.
  intros Ht H. destruct (skip t) eqn:S; [rewrite hM_skip by auto; auto|]. rewrite hM_go by auto.
  destruct (Z.eqb_spec i (t + 1)); destruct (Z.eqb_spec j t); cbn [andb]; try (exfalso; lia); apply hr_low; lia.
Qed.
Lemma hM_stay t i j : 0 <= t <= n - 2 -> j < t -> Mf i j = M t i j.
Proof.
  intros Ht Hj. remember (n - 2 - t) as d eqn:Ed. assert (Hd : 0 <= d) by lia. revert d Hd t Ht Hj Ed. refine (natlike_ind _ _ _).
  - intros t Ht Hj Ed. replace (n - 2) with t by lia. auto.
  - intros d Hd IH t Ht Hj Ed. rewrite <- (hM_keep t i j) by lia. apply IH; lia.
Qed.
Lemma hMf_col t i : 0 <= t -> t + 1 <= n - 2 -> i <> t + 1 -> Mf i t = xc t i.
Proof. intros Ht H Hi. rewrite (hM_stay (t + 1)) by lia. apply hM_keep; lia. Qed.
Lemma hMf_sub t : 0 <= t -> t + 1 <= n - 2 -> skip t = false -> Mf (t + 1) t = c_T pf n (t + 1) (xc t).
Proof. intros Ht H S. rewrite (hM_stay (t + 1)) by lia. rewrite hM_go by auto. rewrite !Z.eqb_refl. reflexivity. Qed.
Lemma hMf_sub0 t : 0 <= t -> t + 1 <= n - 2 -> skip t = true -> Mf (t + 1) t = xc t (t + 1).
Proof. intros Ht H S. rewrite (hM_stay (t + 1)) by lia. rewrite hM_skip by auto. reflexivity. Qed.
Lemma hD_stay t i : 0 <= t <= n - 2 -> i <= t -> Df i = D t i.
Proof.
  intros Ht Hj. remember (n - 2 - t) as d eqn:Ed. assert (Hd : 0 <= d) by lia. revert d Hd t Ht Hj Ed. refine (natlike_ind _ _ _).
  - intros t Ht Hj Ed. replace (n - 2) with t by lia. auto.
  - intros d Hd IH t Ht Hj Ed. rewrite (IH (t + 1)) by lia. rewrite hi_D by lia. unfold hs_D. rewrite (proj2 (Z.ltb_lt i (t + 1))) by lia. destruct (fulp1 _ _); auto.
Qed.
Lemma hDf t : 0 <= t -> t + 1 <= n - 2 -> skip t = false -> Df (t + 1) = c_D pf n (t + 1) (xc t).
Proof.
  intros Ht H S. rewrite (hD_stay (t + 1)) by lia. rewrite hi_D by lia. destruct (h_eqs t) as (E & _ & _ & Eu). unfold hs_D. rewrite E, Eu.
  change (@fulp1 SO (c_s pf n (t + 1) (xc t)) (@fzero SO)) with (skip t). rewrite S. rewrite (proj2 (Z.ltb_ge _ _)) by lia. rewrite Z.eqb_refl. reflexivity.
Qed.
Lemma hw_eq t i : 0 <= t -> t + 1 <= n - 2 -> skip t = false -> hp_w (O := SO) Mf Df (t + 1) i = c_w pf n (t + 1) (xc t) i.
Proof.
  intros Ht H S. unfold hp_w, c_w. destruct (Z.eqb_spec i (t + 1)); [apply hDf; auto|]. replace (t + 1 - 1) with t by lia. apply hMf_col; auto.
Qed.
(** ** Validity *)
Lemma cs_valid t : 0 <= t < n -> (forall i j, 0 <= i < n -> 0 <= j < n -> sf_valid (M t i j) = true) -> sf_valid (c_s pf n (t + 1) (xc t)) = true.
Proof. intros Ht H. apply (fadds_valid pf n n). intros i Hi. pose proof (H i t ltac:(lia) ltac:(lia)) as K. destruct (fst (hs_iter (O := SO) n A t) i t); exact K. Qed.
Lemma step_valid t : 0 <= t -> t + 1 <= n - 2 -> (forall i j, 0 <= i < n -> 0 <= j < n -> sf_valid (M t i j) = true) ->
  let o := c_o pf n (t + 1) (xc t) in (forall i, 0 <= i < n -> sf_valid (o i) = true) /\ sf_valid (q_g pf n (t + 1) o) = true /\ sf_valid (q_h pf n (t + 1) o) = true /\ (forall i, 0 <= i < n -> sf_valid (q_u pf n (t + 1) o i) = true).
Proof.
  intros Ht Ht2 H o. pose proof (cs_valid t ltac:(lia) H) as V1.
  assert (V2 : forall i, 0 <= i < n -> sf_valid (o i) = true) by (intros i Hi; apply div_valid; auto; apply H; lia).
  assert (V3 : sf_valid (q_h0 pf n (t + 1) o) = true) by (apply faddd_valid; intros i Hi; apply mul_valid; apply V2; lia).
  assert (V4 : sf_valid (q_g pf n (t + 1) o) = true). { unfold q_g. destruct (fgt _ _); [apply mul_valid; [apply sqrt_valid; auto|reflexivity]|apply sqrt_valid; auto]. }
  split; auto. split; auto. split; [apply sub_valid; auto; apply mul_valid; auto; apply V2; lia|].
  intros i Hi. unfold q_u. destruct (i =? t + 1); [apply sub_valid; auto; apply V2; lia|auto].
Qed.
Lemma hl_valid t : 0 <= t -> t + 1 <= n - 2 -> (forall i j, 0 <= i < n -> 0 <= j < n -> sf_valid (M t i j) = true) -> forall i j, 0 <= i < n -> 0 <= j < n -> sf_valid (hs_l (O := SO) n (M t) (t + 1) i j) = true.
Proof.
  intros Ht Ht2 H i j Hi Hj. destruct (step_valid t Ht Ht2 H) as (V1 & V2 & V3 & V4). destruct (Z_lt_ge_dec i (t + 1)); [rewrite hl_low by lia; auto|]. destruct (Z_lt_ge_dec j (t + 1)); [rewrite hl_low by lia; auto|].
  rewrite hl_eq by lia. apply sub_valid; auto. apply mul_valid; auto. apply div_valid; auto. apply faddd_valid. intros r Hr. apply mul_valid; [apply V4; lia|apply H; lia].
Qed.
Lemma hM_valid t : 0 <= t -> t <= n - 2 -> forall i j, 0 <= i < n -> 0 <= j < n -> sf_valid (M t i j) = true.
Proof.
  revert t. refine (natlike_ind _ _ _); [intros _ i j Hi Hj; apply VA; auto|].
  intros t Ht IH Ht2 i j Hi Hj. change (Z.succ t) with (t + 1) in *. specialize (IH ltac:(lia)). destruct (skip t) eqn:S; [rewrite hM_skip by auto; auto|].
  rewrite hM_go by auto. destruct (step_valid t Ht ltac:(lia) IH) as (V1 & V2 & V3 & V4). destruct ((i =? t + 1) && (j =? t)).
  - apply mul_valid; auto. apply cs_valid; auto. lia.
  - destruct (Z_lt_ge_dec j (t + 1)); [rewrite hr_low by lia; auto|]. rewrite hr_eq by lia. apply sub_valid; [apply hl_valid; auto; lia|]. apply mul_valid; auto. apply div_valid; auto. apply faddd_valid. intros r Hr. apply mul_valid; [apply V4; lia|apply hl_valid; auto; lia].
Qed.
(** ** Finiteness, from the result *)
Hypothesis FH : forall i j, 0 <= i < n -> 0 <= j < n -> i <= j + 1 -> isfin (Mf i j) = true.
Lemma abs_fin y : isfin (SFabs y) = isfin y. Proof. destruct y; reflexivity. Qed.
Lemma hM_fin t : 0 <= t <= n - 2 -> forall i j, 0 <= i < n -> 0 <= j < n -> t <= j \/ i <= j + 1 -> isfin (M t i j) = true.
Proof.
  intros Ht. remember (n - 2 - t) as d eqn:Ed. assert (Hd : 0 <= d) by lia. revert d Hd t Ht Ed. refine (natlike_ind _ _ _).
  - intros t Ht Ed i j Hi Hj H. replace t with (n - 2) by lia. apply FH; lia.
  - intros d Hd IH t Ht Ed i j Hi Hj H. specialize (IH (t + 1) ltac:(lia) ltac:(lia)). pose proof (hM_valid t ltac:(lia) ltac:(lia)) as V.
    destruct (Z_lt_ge_dec j t) as [Hjt|Hjt]; [rewrite <- hM_keep by lia; apply IH; lia|].
    destruct (Z.eq_dec j t) as [->|Hne].
    + destruct (Z_lt_ge_dec i (t + 1)) as [Hit|Hit]; [rewrite <- hM_keep by lia; apply IH; lia|].
      assert (Fs : isfin (c_s pf n (t + 1) (xc t)) = true).
      { destruct (skip t) eqn:S; [apply (ulp1_zero pf _ (cs_valid t ltac:(lia) V) S)|]. pose proof (IH (t + 1) t ltac:(lia) ltac:(lia) ltac:(lia)) as K. rewrite hM_go in K by (auto; lia). rewrite !Z.eqb_refl in K. cbn [andb] in K. apply sf_mul_fin in K. apply K. }
      pose proof (fadds_fin pf n n (t + 1) n _ Fs i ltac:(lia)) as K. cbn beta in K. rewrite abs_fin in K. exact K.
    + destruct (skip t) eqn:S; [rewrite <- hM_skip by (auto; lia); apply IH; lia|].
      pose proof (IH i j Hi Hj ltac:(lia)) as K. rewrite hM_go in K by (auto; lia). rewrite (proj2 (Z.eqb_neq j t)) in K by auto. rewrite andb_false_r in K. rewrite hr_eq in K by lia. apply sf_sub_fin in K. destruct K as [K _].
      destruct (Z_lt_ge_dec i (t + 1)); [rewrite hl_low in K by lia; auto|]. rewrite hl_eq in K by lia. apply sf_sub_fin in K. apply K.
Qed.
Lemma cs_fin t : 0 <= t -> t + 1 <= n - 2 -> isfin (c_s pf n (t + 1) (xc t)) = true.
Proof.
  intros Ht Ht2. pose proof (hM_valid t ltac:(lia) ltac:(lia)) as V. destruct (skip t) eqn:S; [apply (ulp1_zero pf _ (cs_valid t ltac:(lia) V) S)|].
  pose proof (hM_fin (t + 1) ltac:(lia) (t + 1) t ltac:(lia) ltac:(lia) ltac:(lia)) as K. rewrite hM_go in K by auto. rewrite !Z.eqb_refl in K. cbn [andb] in K. apply sf_mul_fin in K. apply K.
Qed.
Lemma x_valid t : 0 <= t -> t + 1 <= n - 2 -> forall r, t + 1 <= r < n -> sf_valid (xc t r) = true.
Proof. intros Ht Ht2 r Hr. apply hM_valid; lia. Qed.
Hypothesis RH : forall t, 0 <= t -> t + 1 <= n - 2 -> fR (Mf (t + 1)%Z t) <> 0%R -> (b2 (-450) <= Rabs (fR (Mf (t + 1)%Z t)) <= b2 511)%R.
Lemma b450 : (4 * tiny < b2 (-450))%R. Proof. rewrite tiny_b. change 4%R with (b2 2). rewrite <- bpow_plus. apply bpow_lt. lia. Qed.
(** A skipped column is zero on the subdiagonal and tiny below it. *)
Lemma skip_small t : 0 <= t -> t + 1 <= n - 2 -> skip t = true -> forall r, t + 1 <= r < n -> (Rabs (fR (xc t r)) <= 3 * tiny)%R.
Proof.
  intros Ht Ht2 S r Hr. pose proof (hM_valid t ltac:(lia) ltac:(lia)) as V. destruct (ulp1_zero pf _ (cs_valid t ltac:(lia) V) S) as [_ K].
  pose proof (c_s_err pf n (t + 1) Hkap ltac:(lia) (xc t) (x_valid t Ht Ht2) (cs_fin t Ht Ht2)) as E.
  pose proof (Rs_term (t + 1) n (fun r => Rabs (fR (xc t r))) r Hr ltac:(intros; apply Rabs_pos)) as T. cbn beta in T. apply abs_in in E. apply abs_in in K. pose proof tiny_pos. lra.
Qed.
Lemma skip_zero t : 0 <= t -> t + 1 <= n - 2 -> skip t = true -> fR (Mf (t + 1)%Z t) = 0%R.
Proof.
  intros Ht Ht2 S. destruct (Req_dec (fR (Mf (t + 1)%Z t)) 0) as [E|E]; auto. exfalso. destruct (RH t Ht Ht2 E) as [R1 _]. rewrite hMf_sub0 in R1 by auto. pose proof (skip_small t Ht Ht2 S (t + 1) ltac:(lia)). pose proof b450. pose proof tiny_pos. lra.
Qed.
Lemma go_T t : 0 <= t -> t + 1 <= n - 2 -> skip t = false -> isfin (c_T pf n (t + 1) (xc t)) = true /\ fR (c_T pf n (t + 1)%Z (xc t)) <> 0%R /\ (b2 (-450) <= Rabs (fR (c_T pf n (t + 1)%Z (xc t))) <= b2 511)%R.
Proof.
  intros Ht Ht2 S. assert (F : isfin (c_T pf n (t + 1) (xc t)) = true) by (rewrite <- hMf_sub by auto; apply FH; lia). split; auto.
  assert (N : fR (c_T pf n (t + 1)%Z (xc t)) <> 0%R) by (apply (c_T_ne pf n (t + 1) ltac:(lia) Hkap ltac:(lia) (xc t) (x_valid t Ht Ht2) (cs_fin t Ht Ht2) S F)).
  split; auto. rewrite <- hMf_sub by auto. apply RH; auto. rewrite hMf_sub by auto. auto.
Qed.
(** The reflections. *)
Definition Ph (t : Z) : Z -> Z -> R := if skip t then idm else rP n (t + 1) (c_w pf n (t + 1) (xc t)).
Lemma Ph_orth t : orthogonal n (Ph t). Proof. unfold Ph. destruct (skip t); [apply orth_id|apply rP_orth; auto]. Qed.
Lemma Ph_sym t i j : Ph t i j = Ph t j i.
Proof. unfold Ph. destruct (skip t); [unfold idm; rewrite Z.eqb_sym; auto|apply rP_sym]. Qed.
Definition heta : R := (12 * kap n)%R.
Definition hom : R := (IZR n * omg n)%R.
Definition hst (t : Z) (i j : Z) : R := if (j <? t) && (j + 1 <? i) then 0%R else fR (M t i j).
(** Between the two sides of a step. *)
Definition hmid (t : Z) (i j : Z) : R := if skip t then hst (t + 1)%Z i j else
  if (j <? t + 1) && (j + 1 <? i) then 0%R else if (i =? t + 1) && (j =? t) then fR (c_T pf n (t + 1)%Z (xc t)) else fR (hs_l (O := SO) n (M t) (t + 1) i j).
Lemma heta_nn : (0 <= heta)%R. Proof. unfold heta. pose proof (kap_u n Hn). pose proof ulp2_pos. lra. Qed.
Lemma hl_fin t i j : 0 <= t -> t + 1 <= n - 2 -> skip t = false -> 0 <= i < n -> t + 1 <= j < n -> isfin (hs_l (O := SO) n (M t) (t + 1) i j) = true.
Proof.
  intros Ht Ht2 S Hi Hj. pose proof (hM_fin (t + 1) ltac:(lia) i j Hi ltac:(lia) ltac:(lia)) as K. rewrite hM_go in K by auto. rewrite (proj2 (Z.eqb_neq j t)) in K by lia. rewrite andb_false_r in K. rewrite hr_eq in K by lia. apply sf_sub_fin in K. apply K.
Qed.
Lemma hleft t j : 0 <= t -> t + 1 <= n - 2 -> 0 <= j < n -> (vlen n (fun r => hmid t r j - mvec n (Ph t) (fun r => hst t r j) r) <= heta * vlen n (fun r => hst t r j) + omg n)%R.
Proof.
  intros Ht Ht2 Hj. pose proof heta_nn as He. pose proof (omg_pos n Hn) as Po. pose proof (vlen_pos n (fun r => hst t r j)) as PV. pose proof (hM_valid t ltac:(lia) ltac:(lia)) as V.
  assert (Z0 : (forall r, 0 <= r < n -> hmid t r j = mvec n (Ph t) (fun r => hst t r j) r) -> (vlen n (fun r => hmid t r j - mvec n (Ph t) (fun r => hst t r j) r) <= heta * vlen n (fun r => hst t r j) + omg n)%R).
  { intros E. rewrite vlen_zero by (intros r Hr; rewrite E by auto; ring). nra. }
  unfold Ph in *. destruct (skip t) eqn:S.
  - (* skipped *)
    assert (E : forall r, 0 <= r < n -> mvec n idm (fun r => hst t r j) r = hst t r j) by (intros; apply (mvec_idm n (fun r => hst t r j)); auto).
    assert (Em : forall r, hmid t r j = hst (t + 1)%Z r j) by (intros; unfold hmid; rewrite S; auto).
    destruct (Z.eq_dec j t) as [->|Hne].
    + rewrite (vlen_ext n _ (fun r => hst (t + 1)%Z r t - hst t r t)%R) by (intros r Hr; rewrite E, Em by auto; auto).
      apply Rle_trans with (vlen n (fun _ => 3 * tiny)%R).
      * apply vlen_le. intros r Hr. unfold hst. rewrite hM_skip by auto. rewrite (proj2 (Z.ltb_lt t (t + 1))) by lia. rewrite Z.ltb_irrefl. cbn [andb]. pose proof tiny_pos. destruct (Z.ltb_spec (t + 1) r).
        -- rewrite Rminus_0_l, Rabs_Ropp. apply (skip_small t Ht Ht2 S r). lia.
        -- rewrite Rminus_diag_eq, Rabs_R0 by auto. lra.
      * pose proof tiny_pos as PT. eapply Rle_trans; [apply vlen_const; [lia|lra]|]. apply Rle_trans with (omg n); [|nra]. unfold omg. apply Rmult_le_compat_l; [apply IZR_le; lia|]. rewrite tiny_b. apply Rle_trans with (b2 2 * b2 (-1075))%R; [change (b2 2) with 4%R; pose proof (bpow_gt_0 radix2 (-1075)); lra|]. rewrite <- bpow_plus. apply bpow_le. lia.
    + apply Z0. intros r Hr. rewrite E, Em by auto. unfold hst. rewrite hM_skip by auto. destruct (Z.ltb_spec j t); destruct (Z.ltb_spec j (t + 1)); auto; lia.
  - (* a reflection *)
    destruct (go_T t Ht Ht2 S) as (FT & NT & RT). assert (Hn3 : 3 <= n) by lia. assert (Hm : 0 <= t + 1 < n) by lia.
    assert (Em : forall r, hmid t r j = if (j <? t + 1) && (j + 1 <? r) then 0%R else if (r =? t + 1) && (j =? t) then fR (c_T pf n (t + 1)%Z (xc t)) else fR (hs_l (O := SO) n (M t) (t + 1) r j)) by (intros; unfold hmid; rewrite S; auto).
    destruct (Z_lt_ge_dec j t) as [Hjt|Hjt]; [|destruct (Z.eq_dec j t) as [->|Hne]].
    + apply Z0. intros r Hr. rewrite (rP_zero n (t + 1) _ (fun r => hst t r j)); [|auto|lia|intros k Hk; unfold hst; rewrite (proj2 (Z.ltb_lt j t)), (proj2 (Z.ltb_lt (j + 1) k)) by lia; reflexivity].
      rewrite Em. unfold hst. rewrite (proj2 (Z.ltb_lt j t)), (proj2 (Z.ltb_lt j (t + 1))), (proj2 (Z.eqb_neq j t)) by lia. rewrite andb_false_r. rewrite hl_low by lia. auto.
    + pose proof (c_column pf n (t + 1) Hn3 Hkap Hm (xc t) (x_valid t Ht Ht2) (cs_fin t Ht Ht2) S FT RT (fun r => hst t r t)) as K.
      assert (K0 : forall r, t + 1 <= r < n -> hst t r t = fR (xc t r)) by (intros r Hr; unfold hst; rewrite Z.ltb_irrefl; reflexivity). specialize (K K0).
      eapply Rle_trans; [|exact K]. right. apply vlen_ext. intros r Hr. f_equal. rewrite Em. rewrite (proj2 (Z.ltb_lt t (t + 1))) by lia. rewrite Z.eqb_refl. rewrite andb_true_r. cbn [andb].
      destruct (Z.ltb_spec (t + 1) r); destruct (Z.ltb_spec r (t + 1)); destruct (Z.eqb_spec r (t + 1)); try (exfalso; lia); auto. rewrite hl_low by lia. unfold hst. rewrite Z.ltb_irrefl. auto.
    + apply (c_apply pf n (t + 1) Hn3 Hkap Hm (xc t) (x_valid t Ht Ht2) (cs_fin t Ht Ht2) S FT RT (fun r => M t r j) (fun r => hs_l (O := SO) n (M t) (t + 1) r j)).
      * intros r Hr. apply V; lia.
      * intros r Hr. apply hl_fin; auto; lia.
      * intros r Hr. unfold hst. rewrite (proj2 (Z.ltb_ge j t)) by lia. auto.
      * intros r Hr. rewrite Em. rewrite (proj2 (Z.ltb_ge j (t + 1))), (proj2 (Z.eqb_neq j t)) by lia. rewrite andb_false_r. auto.
      * intros r Hr. rewrite Em. rewrite (proj2 (Z.ltb_ge j (t + 1))), (proj2 (Z.eqb_neq j t)) by lia. rewrite andb_false_r. unfold hst. rewrite (proj2 (Z.ltb_ge j t)) by lia. cbn [andb]. rewrite hl_low by lia. auto.
      * intros r Hr. apply hl_eq; lia.
Qed.
Lemma hright t i : 0 <= t -> t + 1 <= n - 2 -> 0 <= i < n -> (vlen n (fun r => hst (t + 1)%Z i r - mvec n (Ph t) (fun r => hmid t i r) r) <= heta * vlen n (fun r => hmid t i r) + omg n)%R.
Proof.
  intros Ht Ht2 Hi. pose proof heta_nn as He. pose proof (omg_pos n Hn) as Po. pose proof (vlen_pos n (fun r => hmid t i r)) as PV. pose proof (hM_valid t ltac:(lia) ltac:(lia)) as V.
  unfold Ph in *. destruct (skip t) eqn:S.
  - rewrite vlen_zero; [nra|]. intros r Hr. rewrite (mvec_idm n (fun r => hmid t i r)) by auto. unfold hmid. rewrite S. ring.
  - destruct (go_T t Ht Ht2 S) as (FT & NT & RT). assert (Hn3 : 3 <= n) by lia. assert (Hm : 0 <= t + 1 < n) by lia.
    assert (Em : forall r, hmid t i r = if (r <? t + 1) && (r + 1 <? i) then 0%R else if (i =? t + 1) && (r =? t) then fR (c_T pf n (t + 1)%Z (xc t)) else fR (hs_l (O := SO) n (M t) (t + 1) i r)) by (intros; unfold hmid; rewrite S; auto).
    apply (c_apply pf n (t + 1) Hn3 Hkap Hm (xc t) (x_valid t Ht Ht2) (cs_fin t Ht Ht2) S FT RT (fun r => hs_l (O := SO) n (M t) (t + 1) i r) (fun r => hs_r (O := SO) n (M t) (t + 1) i r)).
    + intros r Hr. apply hl_valid; auto; lia.
    + intros r Hr. pose proof (hM_fin (t + 1) ltac:(lia) i r Hi ltac:(lia) ltac:(lia)) as K. rewrite hM_go in K by auto. rewrite (proj2 (Z.eqb_neq r t)) in K by lia. rewrite andb_false_r in K. exact K.
    + intros r Hr. rewrite Em. rewrite (proj2 (Z.ltb_ge r (t + 1))), (proj2 (Z.eqb_neq r t)) by lia. rewrite andb_false_r. auto.
    + intros r Hr. unfold hst. rewrite (proj2 (Z.ltb_ge r (t + 1))) by lia. cbn [andb]. rewrite hM_go by auto. rewrite (proj2 (Z.eqb_neq r t)) by lia. rewrite andb_false_r. auto.
    + intros r Hr. rewrite Em. unfold hst. rewrite hM_go by auto. rewrite (proj2 (Z.ltb_lt r (t + 1))) by lia. rewrite hr_low, hl_low by lia. destruct (r + 1 <? i); auto. destruct ((i =? t + 1) && (r =? t)); auto.
    + intros r Hr. apply hr_eq; lia.
Qed.
Lemma hom_nn : (0 <= hom)%R. Proof. unfold hom. pose proof (omg_pos n Hn). assert (0 <= IZR n)%R by (apply IZR_le; lia). nra. Qed.
Lemma hnear t : 0 <= t -> t <= n - 2 -> near heta hom n n (hst 0) (2 * t) (Qp n Ph t) (Qp n Ph t) (hst t).
Proof.
  pose proof heta_nn as He. pose proof hom_nn as Ho. revert t. refine (natlike_ind _ _ _); [intros _; apply near_0; auto|].
  intros t Ht IH Ht2. change (Z.succ t) with (t + 1) in *. specialize (IH ltac:(lia)). replace (2 * (t + 1)) with (2 * t + 1 + 1) by lia. rewrite Qp_S by auto.
  apply (near_right heta hom He Ho n n (hst 0) (2 * t + 1) _ _ (hmid t)); [lia| |apply Ph_orth|apply Ph_sym|].
  - apply (near_left heta hom He Ho n n (hst 0) (2 * t) _ _ (hst t)); [lia|exact IH|apply Ph_orth|apply Ph_sym|].
    apply (frob_col_le n n (fun i j => hmid t i j - mmul n (Ph t) (hst t) i j)%R (hst t) heta (omg n)); [lia|auto|left; apply omg_pos; auto|]. intros j Hj. apply hleft; lia.
  - rewrite <- (frob_trm n n (hmid t)), <- (frob_trm n n (fun i j => hst (t + 1)%Z i j - mmul n (hmid t) (Ph t) i j)%R).
    apply (frob_col_le n n (trm (fun i j => hst (t + 1)%Z i j - mmul n (hmid t) (Ph t) i j)%R) (trm (hmid t)) heta (omg n)); [lia|auto|left; apply omg_pos; auto|]. intros j Hj.
    eapply Rle_trans; [|apply (hright t j); lia]. right. apply vlen_ext. intros r Hr. unfold trm. f_equal. unfold mmul, mvec. apply Rs_ext. intros k Hk. rewrite Ph_sym. ring.
Qed.
End Iter.

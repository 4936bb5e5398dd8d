(** The orthogonal factors of the bidiagonal transform in float64: a product of
    reflections, accumulated backwards. *)
From Coq Require Import ZArith List Reals Lia Lra Psatz Bool Floats.SpecFloat FunctionalExtensionality.
From Flocq Require Import Core.
From Verif Require Import Base BaseLemmas Scalar Float64 VecSpec RealOps RSum House RealVec TabTac FSum QRSpec QRFacts QRReal RndSpec FloatR RndSum RndTri RndHouse RndRefl RndApply RndQRSpec RndQR SVDSpecR RndFrob CholFacts TridiagFacts BidiagFacts RndBidiag.
Open Scope Z_scope.

Section Acc.
Variables (pf N p off : Z).
Notation SO := (SFOps pf).
Hypothesis HN : 1 <= N.
Hypothesis Hkap : (kap N <= / 1024)%R.
Hypothesis Ho : 0 <= off <= 1.
Hypothesis Hp : 1 <= p <= N.
Variables (W : Z -> Z -> sf) (D : Z -> sf) (x : Z -> Z -> sf).
Notation a q := (hh_a (O := SO) N (x q) (q + off)).
Notation v q := (hh_v (O := SO) N (x q) (q + off)).
Hypothesis HW : forall q r, 0 <= q < p - off -> W q r = v q r.
Hypothesis HD : forall q, 0 <= q < p - off -> D q = a q.
Hypothesis Vx : forall q r, 0 <= q < p - off -> q + off <= r < N -> sf_valid (x q r) = true.
Hypothesis FD : forall q, 0 <= q < p - off -> isfin (D q) = true.
Hypothesis RD : forall q, 0 <= q < p - off -> fR (D q) <> 0%R -> (b2 (-450) <= Rabs (fR (D q)) <= b2 511)%R.
Definition Pu (q : Z) : Z -> Z -> R := Pa pf N (q + off) (x q).
Notation T k := (ba_iter (O := SO) N p off W D k).
Notation U := (ba_tab (O := SO) N p off W D).

Lemma u_fin q : 0 <= q < p - off -> isfin (a q) = true. Proof. intros Hq. rewrite <- HD by auto. auto. Qed.
Lemma u_x q r : 0 <= q < p - off -> q + off <= r < N -> num (x q r).
Proof. intros Hq Hr. apply (col_fin pf N (x q) (q + off)); auto. apply u_fin; auto. Qed.
Lemma u_a q : 0 <= q < p - off -> num (a q).
Proof. intros Hq. split; [apply hh_valid; auto|apply u_fin; auto]. Qed.
Lemma u_range q : 0 <= q < p - off -> fR (a q) <> 0%R -> (b2 (-450) <= Rabs (fR (a q)) <= b2 511)%R.
Proof. intros Hq. rewrite <- HD by auto. auto. Qed.
Lemma u_good q : 0 <= q < p - off -> fR (a q) <> 0%R -> good N (q + off) (v q) (sf_mul (a q) (v q (q + off)%Z)).
Proof. intros Hq E. apply hh_good; auto; [lia| |apply u_fin; auto|apply u_range; auto]. intros. apply u_x; auto. Qed.
Lemma u_W q r : 0 <= q < p - off -> q + off <= r < N -> num (W q r).
Proof.
  intros Hq Hr. rewrite HW by auto. destruct (Req_dec (fR (a q)) 0) as [E|E].
  - unfold hh_v. apply (feq_zero pf _ (u_a q Hq)) in E. rewrite E. apply u_x; auto.
  - apply (u_good q Hq E). auto.
Qed.
Lemma T_p : T p = ba_init (O := SO) p. Proof. unfold ba_iter. rewrite Z.sub_diag. reflexivity. Qed.
Lemma T_zero k i j : off <= k <= p -> i < k \/ j < k -> i < p \/ j <> i -> T k i j = sf_zero.
Proof.
  intros Hk. remember (p - k) as d eqn:Ed. assert (Hd : 0 <= d) by lia. revert d Hd k Hk Ed i j. refine (natlike_ind _ _ _).
  - intros k Hk Ed i j Hij Hn. replace k with p by lia. rewrite T_p. unfold ba_init. zbq; auto; lia.
  - intros d Hd IH k Hk Ed i j Hij Hn. rewrite ba_iter_S by lia. specialize (IH (k + 1) ltac:(lia) ltac:(lia) i j ltac:(lia) Hn).
    unfold ba_step, tq_unit. destruct (feq _ _); zbq; auto; lia.
Qed.
Lemma T_valid k : off <= k <= p -> forall i j, 0 <= i < N -> 0 <= j < N -> sf_valid (T k i j) = true.
Proof.
  intros Hk. remember (p - k) as d eqn:Ed. assert (Hd : 0 <= d) by lia. revert d Hd k Hk Ed. refine (natlike_ind _ _ _).
  - intros k Hk Ed i j Hi Hj. replace k with p by lia. rewrite T_p. unfold ba_init. destruct (_ && _); [apply one_valid|reflexivity].
  - intros d Hd IH k Hk Ed i j Hi Hj. specialize (IH (k + 1) ltac:(lia) ltac:(lia)). rewrite ba_iter_S by lia.
    assert (Vu : forall i j, 0 <= i < N -> 0 <= j < N -> sf_valid (tq_unit (O := SO) (T (k + 1)) k i j) = true) by (intros; unfold tq_unit; destruct (_ && _); [apply one_valid|apply IH; auto]).
    unfold ba_step. destruct (feq _ _); [apply Vu; auto|]. destruct (_ && _) eqn:Eb; [|apply IH; auto]. apply andb_prop in Eb. destruct Eb as [Eb _]. apply Z.leb_le in Eb.
    apply add_valid; [apply Vu; auto|]. apply mul_valid; [|apply u_W; lia]. rewrite opp_valid. unfold ba_alpha. apply div_valid.
    + apply (fsubl_valid pf N N). intros. apply mul_valid; [apply Vu; lia|apply u_W; lia].
    + apply mul_valid; [rewrite HD by lia; apply u_a; lia|apply u_W; lia].
Qed.
Definition fin_at (k : Z) : Prop := forall i j, 0 <= i < N -> 0 <= j < N -> isfin (T k i j) = true.
Lemma fin_up k : off <= k < p -> fin_at k -> fin_at (k + 1).
Proof.
  intros Hk IH i j Hi Hj. specialize (IH i j Hi Hj). rewrite ba_iter_S in IH by lia.
  assert (Gu : isfin (tq_unit (O := SO) (T (k + 1)) k i j) = true -> isfin (T (k + 1) i j) = true).
  { unfold tq_unit. destruct (_ && _) eqn:E; auto. apply andb_prop in E. destruct E as [E _]. apply Z.eqb_eq in E. subst i. intros _. rewrite T_zero by lia. reflexivity. }
  unfold ba_step in IH. destruct (feq _ _); auto. destruct (_ && _); auto. apply Gu. apply (sf_add_fin _ _ IH).
Qed.
(** The columns while the product is built, [q] reflections missing. *)
Definition uu (j q r : Z) : R := if j <? q + off then idm j r else fR (T (q + off) r j).
Lemma unit_col q j r : 0 <= q < p - off -> q + off <= j < N -> 0 <= r < N -> fR (tq_unit (O := SO) (T (q + off + 1)) (q + off) r j) = uu j (q + 1) r.
Proof.
  intros Hq Hj Hr. unfold uu, tq_unit. replace (q + 1 + off) with (q + off + 1) by lia. destruct (Z.ltb_spec j (q + off + 1)) as [L|L].
  - assert (j = q + off) by lia. subst j. unfold idm. rewrite Z.eqb_refl, andb_true_r, (Z.eqb_sym (q + off) r). destruct (Z.eqb_spec r (q + off)); [apply fR_one|]. rewrite T_zero by lia. auto.
  - rewrite (proj2 (Z.eqb_neq j (q + off))), andb_false_r by lia. auto.
Qed.
Lemma uu_step q j : 0 <= q < p - off -> 0 <= j < N -> fin_at (q + off) ->
  (vlen N (fun r => uu j q r - mvec N (Pu q) (uu j (q + 1)) r) <= 10 * kap N * vlen N (uu j (q + 1)) + omg N)%R.
Proof.
  intros Hq Hj Fk. pose proof (omg_pos N HN) as Po. pose proof (vlen_pos N (uu j (q + 1))) as Py. pose proof (kap_u N HN) as Ku. pose proof ulp2_pos as Pu'.
  assert (Z0 : (0 <= 10 * kap N * vlen N (uu j (q + 1)) + omg N)%R) by nra. set (k := q + off) in *. pose proof (feq_zero pf (a q) (u_a q Hq)) as Zq. fold k in Zq.
  assert (Eq : k - off = q) by lia.
  destruct (Z_lt_ge_dec j k) as [L|L].
  - (* columns not yet reached *)
    rewrite vlen_zero; auto. intros r Hr. assert (E : forall r, uu j (q + 1) r = idm j r) by (intros; unfold uu; rewrite (proj2 (Z.ltb_lt j (q + 1 + off))) by lia; auto).
    replace (uu j q r) with (idm j r) by (unfold uu; rewrite (proj2 (Z.ltb_lt j (q + off))) by lia; auto).
    assert (Ep : mvec N (Pu q) (uu j (q + 1)) r = idm j r); [|rewrite Ep; ring]. rewrite <- E. unfold Pu, Pa. fold k.
    destruct (feq _ _); [rewrite mvec_1 by auto; auto|]. unfold rP. rewrite refl_vec by auto.
    rewrite (Rs_zero 0 N); [unfold Rdiv; ring|]. intros i Hi. unfold cut. destruct (Z.ltb_spec i k); [ring|]. rewrite E. unfold idm. rewrite (proj2 (Z.eqb_neq j i)) by lia. ring.
  - assert (Ek : forall r, uu j q r = fR (T k r j)) by (intros; unfold uu; fold k; rewrite (proj2 (Z.ltb_ge j k)) by lia; auto).
    assert (Es : forall r, T k r j = ba_step (O := SO) N off W D k (T (k + 1)) r j) by (intros; rewrite ba_iter_S by lia; auto).
    assert (Uc : forall r, 0 <= r < N -> fR (tq_unit (O := SO) (T (k + 1)) k r j) = uu j (q + 1) r) by (intros; apply unit_col; auto; lia).
    unfold Pu, Pa. fold k. destruct (@feq SO (hh_a (O := SO) N (x q) k) (@fzero SO)) eqn:Ef.
    + (* no reflection: the pivot must be zero *)
      assert (E0 : fR (a q) = 0%R) by (apply Zq; auto).
      assert (Em : @feq SO (W q k) (@fzero SO) = true).
      { destruct (@feq SO (W q k) (@fzero SO)) eqn:Em; auto. exfalso. pose proof (Fk k k ltac:(lia) ltac:(lia)) as F. rewrite ba_iter_S in F by lia. unfold ba_step in F. rewrite Eq, Em in F.
        rewrite Z.leb_refl in F. cbn [andb] in F. apply sf_add_fin in F. destruct F as [_ F]. apply sf_mul_fin in F. destruct F as [F _]. change (@fneg SO) with SFopp in F. rewrite opp_fin in F.
        unfold ba_alpha in F. rewrite Eq in F. assert (Ez : exists s, @fmul SO (D q) (W q k) = S754_zero s).
        { destruct (fzero_zero (a q) (u_a q Hq) E0) as [s Es0]. rewrite HD, Es0 by auto. destruct (u_W q k Hq ltac:(lia)) as [_ Fm]. destruct (W q k) as [s'|s'| |s' q' e]; try discriminate; cbn; eauto. }
        destruct Ez as [s Ez]. rewrite Ez in F. apply (div_zero_fin _ (S754_zero s)) in F; [|reflexivity]. apply F. reflexivity. }
      rewrite vlen_zero; auto. intros r Hr. rewrite mvec_1, Ek, Es by auto. unfold ba_step. rewrite Eq, Em. rewrite Uc by lia. ring.
    + assert (E0 : fR (a q) <> 0%R) by (intros E; apply Zq in E; congruence). destruct (u_range q Hq E0) as [La Ua].
      assert (Em : @feq SO (W q k) (@fzero SO) = false).
      { apply not_true_is_false. intros H. apply (feq_zero pf _ (u_W q k Hq ltac:(lia))) in H. rewrite HW in H by auto.
        pose proof (av_bounds pf N HN Hkap k ltac:(lia) (x q) ltac:(intros; apply u_x; lia) (u_fin q Hq) La Ua) as [B _]. fold k in H. rewrite H, Rmult_0_r, Rabs_R0 in B. pose proof (Rabs_pos_lt _ E0) as B2. fold k in B2. nra. }
      apply (form_neg pf N HN Hkap k (v q) (sf_mul (a q) (v q k)) (fun r => tq_unit (O := SO) (T (k + 1)) k r j) (fun r => T k r j) (uu j (q + 1)) (uu j q) ltac:(lia) (u_good q Hq E0)).
      * intros r Hr. unfold tq_unit. destruct (_ && _); [apply one_valid|apply T_valid; lia].
      * intros. apply Fk; lia.
      * intros. symmetry. apply Uc; lia.
      * intros. apply Ek.
      * intros r Hr. rewrite Ek, Es. unfold ba_step. rewrite Eq, Em. rewrite (proj2 (Z.leb_gt k r)) by lia. cbn [andb].
        rewrite <- Uc by lia. unfold tq_unit. rewrite (proj2 (Z.eqb_neq r k)) by lia. auto.
      * intros r Hr. rewrite Es. unfold ba_step. rewrite Eq, Em, (proj2 (Z.leb_le k j)), (proj2 (Z.leb_le k r)) by lia. cbn [andb].
        change (@fadd SO) with sf_add. change (@fmul SO) with sf_mul. change (@fneg SO) with SFopp. rewrite HW by auto. f_equal. f_equal. f_equal. unfold ba_alpha, al_sub. rewrite Eq.
        rewrite HD, HW by auto. change (@fdiv SO) with sf_div. change (@fmul SO) with sf_mul. f_equal. apply fsubl_ext. intros t Ht. rewrite HW by auto. auto.
Qed.
Hypothesis FU : nums2 N N U.
Lemma T_fin k : off <= k <= p -> fin_at k.
Proof.
  assert (G : forall d, 0 <= d -> d <= p - off -> fin_at (off + d)); [|intros Hk; replace k with (off + (k - off)) by lia; apply G; lia]. clear k.
  refine (natlike_ind _ _ _).
  - intros _ i j Hi Hj. rewrite Z.add_0_r. destruct (FU i j Hi Hj) as [_ F]. unfold ba_tab in F. destruct (Z.ltb_spec 0 off); auto. unfold tq_unit in F. destruct (_ && _) eqn:E; auto.
    apply andb_prop in E. destruct E as [E1 E2]. apply Z.eqb_eq in E1, E2. subst. rewrite T_zero by lia. reflexivity.
  - intros d Hd IH Hdp. replace (off + Z.succ d) with (off + d + 1) by lia. apply fin_up; [lia|]. apply IH. lia.
Qed.
Lemma u_columns j : 0 <= j < N -> off <= p ->
  (vlen N (fun r => fR (U r j) - Qp N Pu (p - off) r j) <= (gr (10 * kap N) (p - off) - 1) + IZR (p - off) * gr (10 * kap N) (p - off) * omg N)%R.
Proof.
  intros Hj Hop. assert (E1 : vlen N (idm j) = 1%R).
  { unfold vlen, dot. rewrite (Rs_pick 0 N j) by (try lia; intros; unfold idm; rewrite (proj2 (Z.eqb_neq _ _)) by auto; ring). rewrite idm_same, Rmult_1_l. apply sqrt_1. }
  assert (Eta : (0 <= 10 * kap N)%R) by (pose proof (kap_u N HN); pose proof ulp2_pos; lra).
  pose proof (chain_down N Pu (10 * kap N) (omg N) (fun q => Pa_orth pf N (q + off) (x q)) Eta (Rlt_le _ _ (omg_pos N HN)) (uu j) (idm j) (p - off) 0 ltac:(lia)) as K.
  rewrite Z.sub_0_r, E1, Rmult_1_r in K. eapply Rle_trans; [|apply K].
  - right. apply vlen_ext. intros r Hr. rewrite Qp_0, mvec_1 by auto. f_equal.
    + unfold uu, ba_tab. rewrite Z.add_0_l. destruct (Z.ltb_spec 0 off) as [L|L].
      * assert (off = 1) by lia. unfold tq_unit. destruct (Z.ltb_spec j off); [|rewrite (proj2 (Z.eqb_neq j 0)), andb_false_r by lia; auto].
        assert (j = 0) by lia. subst j. unfold idm. rewrite Z.eqb_refl, andb_true_r, (Z.eqb_sym 0 r). destruct (Z.eqb_spec r 0); [apply fR_one|]. rewrite T_zero by lia. auto.
      * rewrite (proj2 (Z.ltb_ge j off)) by lia. auto.
    + f_equal. unfold mvec. rewrite (Rs_pick 0 N j) by (try lia; intros; unfold idm; rewrite (proj2 (Z.eqb_neq _ _)) by auto; ring). rewrite idm_same. ring.
  - intros r Hr. unfold uu. replace (p - off + off) with p by lia. destruct (Z.ltb_spec j p); auto. rewrite T_p. unfold ba_init, idm. rewrite (Z.eqb_sym j r). destruct (Z.eqb_spec r j); [|reflexivity]. subst. rewrite (proj2 (Z.leb_le p j)) by lia. apply fR_one.
  - intros q Hq. apply uu_step; auto. apply T_fin. lia.
Qed.
End Acc.

(** The orthogonal factor of the tridiagonal transform in float64. *)
From Coq Require Import ZArith List Reals Lia Lra Psatz Bool Floats.SpecFloat QArith FunctionalExtensionality.
From Flocq Require Import Core BinarySingleNaN.
From Verif Require Import Base BaseLemmas Scalar Float64 VecSpec RealOps RSum House RealVec TabTac FSum CholFacts QRSpec QRFacts QRReal RndSpec FloatR RndSum RndTri RndHouse RndRefl RndApply RndQRSpec RndQR SVDSpecR RndFrob TridiagFacts BidiagFacts RndBidiag RndFin.
Open Scope Z_scope.

Lemma sf_mul_comm x y : sf_mul x y = sf_mul y x.
Proof.
  destruct x as [sx|sx| |sx mx ex], y as [sy|sy| |sy my ey]; try reflexivity; try (unfold sf_mul, SFmul; rewrite xorb_comm; reflexivity).
  unfold sf_mul, SFmul. rewrite xorb_comm, Pos.mul_comm, Z.add_comm. reflexivity.
Qed.
Lemma zero_mul_zero y : isfin y = true -> sf_add sf_zero (sf_mul y sf_zero) = sf_zero.
Proof. destruct y as [[]|[]| |[] q e]; try discriminate; reflexivity. Qed.

Lemma fadds_first (pf k n : Z) (y : sf) (g : Z -> sf) : k < n -> fadds (O := SFOps pf) y k n g = fadds (O := SFOps pf) (sf_add y (g k)) (k + 1) n g.
Proof.
  intros H. replace n with (k + 1 + (n - (k + 1))) by lia. assert (Hd : 0 <= n - (k + 1)) by lia. revert Hd. generalize (n - (k + 1)). refine (natlike_ind _ _ _).
  - rewrite Z.add_0_r. rewrite fadds_S, !fadds_nil by lia. reflexivity.
  - intros d Hd IH. change (Z.succ d) with (d + 1). replace (k + 1 + (d + 1)) with (k + 1 + d + 1) by lia. rewrite !(@fadds_S (SFOps pf)) by lia. rewrite IH. reflexivity.
Qed.

Section Acc.
Variables (pf N : Z).
Notation SO := (SFOps pf).
Hypothesis HN : 1 <= N.
Hypothesis Hkap : (kap N <= / 1024)%R.
Variables (W : Z -> Z -> sf) (D : Z -> sf) (x : Z -> Z -> sf).
Notation a q := (hh_a (O := SO) N (x q) (q + 1)).
Notation v q := (hh_v (O := SO) N (x q) (q + 1)).
Hypothesis HW : forall q r, 0 <= q < N - 1 -> q + 1 <= r < N -> W q r = v q r.
Hypothesis HD : forall q, 0 <= q < N - 1 -> D q = a q.
Hypothesis Vx : forall q r, 0 <= q < N - 1 -> q + 1 <= r < N -> sf_valid (x q r) = true.
Hypothesis FD : forall q, 0 <= q < N - 1 -> isfin (D q) = true.
Hypothesis RD : forall q, 0 <= q < N - 1 -> fR (D q) <> 0%R -> (b2 (-450) <= Rabs (fR (D q)) <= b2 511)%R.
Definition Pu (q : Z) : Z -> Z -> R := Pa pf N (q + 1) (x q).
Notation T k := (tq_iter (O := SO) N W D k).
Notation U := (td_tabQT (O := SO) N W D).

Lemma u_fin q : 0 <= q < N - 1 -> isfin (a q) = true. Proof. intros Hq. rewrite <- HD by auto. auto. Qed.
Lemma u_x q r : 0 <= q < N - 1 -> q + 1 <= r < N -> num (x q r).
Proof. intros Hq Hr. apply (col_fin pf N (x q) (q + 1)); auto. apply u_fin; auto. Qed.
Lemma u_a q : 0 <= q < N - 1 -> num (a q).
Proof. intros Hq. split; [apply hh_valid; auto|apply u_fin; auto]. Qed.
Lemma u_range q : 0 <= q < N - 1 -> fR (a q) <> 0%R -> (b2 (-450) <= Rabs (fR (a q)) <= b2 511)%R.
Proof. intros Hq. rewrite <- HD by auto. auto. Qed.
Lemma u_good q : 0 <= q < N - 1 -> fR (a q) <> 0%R -> good N (q + 1) (v q) (sf_mul (a q) (v q (q + 1)%Z)).
Proof. intros Hq E. apply hh_good; auto; [lia| |apply u_fin; auto|apply u_range; auto]. intros. apply u_x; auto. Qed.
Lemma u_W q r : 0 <= q < N - 1 -> q + 1 <= r < N -> num (W q r).
Proof.
  intros Hq Hr. rewrite HW by auto. destruct (Req_dec (fR (a q)) 0) as [E|E].
  - unfold hh_v. apply (feq_zero pf _ (u_a q Hq)) in E. rewrite E. apply u_x; auto.
  - apply (u_good q Hq E). auto.
Qed.
Lemma T_N : T N = (fun _ _ => sf_zero). Proof. unfold tq_iter. rewrite Z.sub_diag. reflexivity. Qed.
Lemma T_zero k i j : 1 <= k <= N -> i < k \/ j < k -> T k i j = sf_zero.
Proof.
  intros Hk. remember (N - k) as d eqn:Ed. assert (Hd : 0 <= d) by lia. revert d Hd k Hk Ed i j. refine (natlike_ind _ _ _).
  - intros k Hk Ed i j Hij. replace k with N by lia. rewrite T_N. auto.
  - intros d Hd IH k Hk Ed i j Hij. rewrite tq_iter_S by lia. specialize (IH (k + 1) ltac:(lia) ltac:(lia) i j ltac:(lia)).
    unfold tq_step, tq_unit. destruct (feq _ _); zbq; auto; lia.
Qed.
Lemma T_valid k : 1 <= k <= N -> forall i j, 0 <= i < N -> 0 <= j < N -> sf_valid (T k i j) = true.
Proof.
  intros Hk. remember (N - k) as d eqn:Ed. assert (Hd : 0 <= d) by lia. revert d Hd k Hk Ed. refine (natlike_ind _ _ _).
  - intros k Hk Ed i j Hi Hj. replace k with N by lia. rewrite T_N. reflexivity.
  - intros d Hd IH k Hk Ed i j Hi Hj. specialize (IH (k + 1) ltac:(lia) ltac:(lia)). rewrite tq_iter_S by lia. assert (VD : sf_valid (D (k - 1)) = true) by (rewrite HD by lia; apply u_a; lia).
    assert (VW : forall r, k <= r < N -> sf_valid (W (k - 1) r) = true) by (intros; apply u_W; lia).
    assert (VB : forall i, 0 <= i < N -> sf_valid (tq_beta (O := SO) N W D k (T (k + 1)) i) = true).
    { intros i' Hi'. unfold tq_beta. apply mul_valid; [apply (fadds_valid pf N N); intros; apply mul_valid; [apply IH; lia|apply VW; lia]|]. apply div_valid; [apply one_valid|]. apply mul_valid; auto. apply VW; lia. }
    unfold tq_step. destruct (feq _ _); [unfold tq_unit; destruct (_ && _); [apply one_valid|apply IH; auto]|].
    destruct (Z.eqb_spec i k); [destruct (Z.eqb_spec j k); [|destruct (Z.ltb_spec k j); [|apply IH; auto]]|destruct (Z.ltb_spec k i); [|apply IH; auto]; destruct (Z.eqb_spec j k); [|destruct (Z.ltb_spec k j); [|apply IH; auto]]].
    + apply add_valid; [apply one_valid|]. apply mul_valid; [apply div_valid; [apply one_valid|auto]|apply VW; lia].
    + apply mul_valid; [apply div_valid; [apply one_valid|auto]|apply VW; lia].
    + apply mul_valid; [apply VB; auto|apply VW; lia].
    + apply add_valid; [apply IH; auto|]. apply mul_valid; [apply VB; auto|apply VW; lia].
Qed.
Definition fin_at (k : Z) : Prop := forall i j, 0 <= i < N -> 0 <= j < N -> isfin (T k i j) = true.
Lemma fin_up k : 1 <= k < N -> fin_at k -> fin_at (k + 1).
Proof.
  intros Hk IH i j Hi Hj. specialize (IH i j Hi Hj). rewrite tq_iter_S in IH by lia.
  destruct (Z_lt_ge_dec i (k + 1)) as [L|L]; [rewrite T_zero by lia; reflexivity|]. destruct (Z_lt_ge_dec j (k + 1)) as [L2|L2]; [rewrite T_zero by lia; reflexivity|].
  unfold tq_step, tq_unit in IH. rewrite (proj2 (Z.eqb_neq i k)), (proj2 (Z.eqb_neq j k)), (proj2 (Z.ltb_lt k i)), (proj2 (Z.ltb_lt k j)) in IH by lia. cbn [andb] in IH. destruct (feq _ _); auto. apply (sf_add_fin _ _ IH).
Qed.
Lemma fin_U : nums2 N N U -> fin_at 1.
Proof.
  intros FU i j Hi Hj. destruct (FU i j Hi Hj) as [_ F]. unfold td_tabQT, tq_unit in F. destruct (_ && _) eqn:E; auto.
  apply andb_prop in E. destruct E as [E1 E2]. apply Z.eqb_eq in E1, E2. subst. rewrite T_zero by lia. reflexivity.
Qed.
Lemma T_fin k : nums2 N N U -> 1 <= k <= N -> fin_at k.
Proof.
  intros FU. assert (G : forall d, 0 <= d -> d <= N - 1 -> fin_at (1 + d)); [|intros Hk; replace k with (1 + (k - 1)) by lia; apply G; lia]. clear k.
  refine (natlike_ind _ _ _).
  - intros _. rewrite Z.add_0_r. apply fin_U. auto.
  - intros d Hd IH Hdp. change (Z.succ d) with (d + 1) in *. replace (1 + (d + 1)) with (1 + d + 1) by lia. apply fin_up; [lia|]. apply IH. lia.
Qed.
(** The rows while the product is built, [q] reflections missing. *)
Definition uu (j q r : Z) : R := if j <? q + 1 then idm j r else fR (T (q + 1) j r).
Lemma unit_vlen j : 0 <= j < N -> vlen N (idm j) = 1%R.
Proof.
  intros Hj. unfold vlen, dot. rewrite (Rs_pick 0 N j) by (try lia; intros; unfold idm; rewrite (proj2 (Z.eqb_neq _ _)) by auto; ring). rewrite idm_same, Rmult_1_l. apply sqrt_1.
Qed.
Lemma beta_eq q j : 0 <= q < N - 1 -> q + 1 < j < N -> tq_beta (O := SO) N W D (q + 1) (T (q + 1 + 1)) j = al_mul pf N (q + 1) (v q) (sf_mul (a q) (v q (q + 1))) (fun r => T (q + 1 + 1) j r).
Proof.
  intros Hq Hj. assert (Eq : q + 1 - 1 = q) by lia. unfold tq_beta, al_mul. rewrite Eq. change (@fmul SO) with sf_mul. change (@fdiv SO) with sf_div. rewrite HD, (HW q (q + 1)) by lia. f_equal.
  rewrite (fadds_first pf (q + 1) N) by lia. rewrite (T_zero (q + 1 + 1) j (q + 1)) by lia. pose proof (u_W q (q + 1) Hq ltac:(lia)) as [_ Fw]. rewrite HW in Fw by lia. rewrite zero_mul_zero by auto.
  apply fadds_ext. intros t Ht. rewrite HW by lia. apply sf_mul_comm.
Qed.
Lemma uu_step q j : 0 <= q < N - 1 -> 0 <= j < N -> fin_at (q + 1) ->
  (vlen N (fun r => uu j q r - mvec N (Pu q) (uu j (q + 1)) r) <= 10 * kap N * vlen N (uu j (q + 1)) + omg N)%R.
Proof.
  intros Hq Hj HFk. pose proof (omg_pos N HN) as Po. pose proof (vlen_pos N (uu j (q + 1))) as Py. pose proof (kap_u N HN) as Ku. pose proof ulp2_pos as Pu'.
  assert (Z0 : (0 <= 10 * kap N * vlen N (uu j (q + 1)) + omg N)%R) by nra. pose proof (feq_zero pf (a q) (u_a q Hq)) as Zq.
  assert (Eq : (q + 1) - 1 = q) by lia.
  destruct (Z_lt_ge_dec j (q + 1)) as [L|L].
  - (* rows not yet reached *)
    rewrite vlen_zero; auto. intros r Hr. assert (E : forall r, uu j (q + 1) r = idm j r) by (intros; unfold uu; rewrite (proj2 (Z.ltb_lt j ((q + 1) + 1))) by lia; auto).
    replace (uu j q r) with (idm j r) by (unfold uu; rewrite (proj2 (Z.ltb_lt j (q + 1))) by lia; auto).
    assert (Ep : mvec N (Pu q) (uu j (q + 1)) r = idm j r); [|rewrite Ep; ring]. rewrite <- E. unfold Pu, Pa.
    destruct (feq _ _); [rewrite mvec_1 by auto; auto|]. unfold rP. rewrite refl_vec by auto.
    rewrite (Rs_zero 0 N); [unfold Rdiv; ring|]. intros i Hi. unfold cut. destruct (Z.ltb_spec i (q + 1)); [ring|]. rewrite E. unfold idm. rewrite (proj2 (Z.eqb_neq j i)) by lia. ring.
  - assert (Ek : forall r, uu j q r = fR (T (q + 1) j r)) by (intros; unfold uu; rewrite (proj2 (Z.ltb_ge j (q + 1))) by lia; auto).
    assert (Es : forall r, T (q + 1) j r = tq_step (O := SO) N W D (q + 1) (T ((q + 1) + 1)) j r) by (intros; rewrite tq_iter_S by lia; auto).
    assert (Uc : forall r, 0 <= r < N -> fR (tq_unit (O := SO) (T ((q + 1) + 1)) (q + 1) j r) = uu j (q + 1) r).
    { intros r Hr. unfold uu, tq_unit. destruct (Z.ltb_spec j ((q + 1) + 1)) as [Lj|Lj].
      - assert (j = (q + 1)) by lia. subst j. unfold idm. rewrite Z.eqb_refl. cbn [andb]. rewrite (Z.eqb_sym (q + 1) r). destruct (Z.eqb_spec r (q + 1)); [apply fR_one|]. rewrite T_zero by lia. auto.
      - rewrite (proj2 (Z.eqb_neq j (q + 1))) by lia. auto. }
    unfold Pu, Pa. destruct (@feq SO (hh_a (O := SO) N (x q) (q + 1)) (@fzero SO)) eqn:Ef.
    + (* no reflection: the pivot must be zero *)
      assert (E0 : fR (a q) = 0%R) by (apply Zq; auto).
      assert (Em : @feq SO (W q (q + 1)) (@fzero SO) = true).
      { destruct (@feq SO (W q (q + 1)) (@fzero SO)) eqn:Em; auto. exfalso. pose proof (HFk (q + 1) (q + 1) ltac:(lia) ltac:(lia)) as F. rewrite tq_iter_S in F by lia. unfold tq_step in F. rewrite Eq, Em in F.
        rewrite Z.eqb_refl in F. apply sf_add_fin in F. destruct F as [_ F]. apply sf_mul_fin in F. destruct F as [F _]. destruct (fzero_zero (a q) (u_a q Hq) E0) as [s Es0]. rewrite HD, Es0 in F by auto.
        apply (div_zero_fin _ (S754_zero s)) in F; [|reflexivity]. apply F. reflexivity. }
      rewrite vlen_zero; auto. intros r Hr. rewrite mvec_1, Ek, Es by auto. unfold tq_step. rewrite Eq, Em. rewrite Uc by lia. ring.
    + assert (E0 : fR (a q) <> 0%R) by (intros E; apply Zq in E; congruence). destruct (u_range q Hq E0) as [La Ua].
      assert (Em : @feq SO (W q (q + 1)) (@fzero SO) = false).
      { apply not_true_is_false. intros H. apply (feq_zero pf _ (u_W q (q + 1) Hq ltac:(lia))) in H. rewrite HW in H by lia.
        pose proof (av_bounds pf N HN Hkap (q + 1) ltac:(lia) (x q) ltac:(intros; apply u_x; lia) (u_fin q Hq) La Ua) as [B _]. rewrite H, Rmult_0_r, Rabs_R0 in B. pose proof (Rabs_pos_lt _ E0) as B2. nra. }
      pose proof (u_good q Hq E0) as G. set (c := sf_mul (a q) (v q (q + 1))) in *.
      destruct (Z.eq_dec j (q + 1)) as [->|Nj].
      * (* the new row *)
        assert (Ez : forall r, uu (q + 1) (q + 1) r = idm (q + 1) r) by (intros; unfold uu; rewrite (proj2 (Z.ltb_lt (q + 1) ((q + 1) + 1))) by lia; auto).
        assert (Ezh : forall r, (q + 1) <= r < N -> T (q + 1) (q + 1) r = (if r =? (q + 1) then sf_add (sf_of_Z 1) (sf_mul (sf_div (sf_of_Z 1) (a q)) (v q (q + 1))) else sf_mul (sf_div (sf_of_Z 1) (a q)) (v q r))).
        { intros r Hr. rewrite Es. unfold tq_step. rewrite Eq, Em, Z.eqb_refl. rewrite HD, !HW by lia. destruct (Z.eqb_spec r (q + 1)); [reflexivity|]. rewrite (proj2 (Z.ltb_lt (q + 1) r)) by lia. reflexivity. }
        set (b := sf_div (sf_of_Z 1) (a q)) in *. assert (Vb : sf_valid b = true) by (apply div_valid; [apply num_one|apply u_a; auto]).
        pose proof (HFk (q + 1) (q + 1) ltac:(lia) ltac:(lia)) as Fk. rewrite Ezh, Z.eqb_refl in Fk by lia. destruct (sf_add_fin _ _ Fk) as [_ Fp]. destruct (sf_mul_fin _ _ Fp) as [Fb _].
        destruct (div_ok (sf_of_Z 1) (a q) (proj1 num_one) (proj1 (u_a q Hq)) Fb E0) as [Db _]. fold b in Db. rewrite fR_one in Db.
        assert (Cn : fR c <> 0%R). { intros Ec. destruct G as (_ & _ & PV & _ & HcV & _). rewrite Ec in HcV. rewrite Rplus_0_l, Rabs_pos_eq in HcV by lra. nra. }
        pose proof (c_err pf N HN Hkap (q + 1) ltac:(lia) (x q) ltac:(intros; apply u_x; lia) (u_fin q Hq) La Ua) as Ce. change (hh_a (O := SO) N (x q) (q + 1)) with (a q) in Ce. fold c in Ce.
        apply (apply_real N HN Hkap (q + 1) (v q) c (uu (q + 1) (q + 1)) (uu (q + 1) q) (fR c / fR (a q))%R (fR b) ltac:(lia) G).
        -- assert (Ed : dot N (uu (q + 1) (q + 1)) (cut (q + 1) (v q)) = fR (v q (q + 1))). { unfold dot. rewrite (Rs_pick 0 N (q + 1)) by (try lia; intros i Hi Hn; rewrite Ez; unfold idm; rewrite (proj2 (Z.eqb_neq (q + 1) i)) by auto; ring). rewrite Ez, idm_same. unfold cut. rewrite Z.ltb_irrefl. ring. }
           rewrite Ed. rewrite (vlen_ext N (uu (q + 1) (q + 1)) (idm (q + 1))) by (intros; apply Ez). rewrite unit_vlen, Rmult_1_l by lia.
           replace (fR c / fR (a q) - fR (v q (q + 1)))%R with ((fR c - fR (a q) * fR (v q (q + 1))) * / fR (a q))%R by (field; exact E0). rewrite Rabs_mult, Rabs_inv.
           pose proof (vlen_entry N (cut (q + 1) (v q)) (q + 1) ltac:(lia)) as En. unfold cut at 1 in En. rewrite Z.ltb_irrefl in En.
           assert (PA : (0 < Rabs (fR (a q)))%R) by (apply Rabs_pos_lt; exact E0).
           apply Rle_trans with (ulp2 * Rabs (fR (v q (q + 1))))%R.
           { apply (Rmult_le_reg_r (Rabs (fR (a q)))); auto. rewrite Rmult_assoc, Rinv_l, Rmult_1_r by lra. rewrite Rabs_mult in Ce. eapply Rle_trans; [exact Ce|]. right. ring. }
           assert (ulp2 * Rabs (fR (v q (q + 1))) <= ulp2 * vlen N (cut (q + 1) (v q)))%R by (apply Rmult_le_compat_l; lra). assert (ulp2 * vlen N (cut (q + 1) (v q)) <= kap N * vlen N (cut (q + 1) (v q)))%R by (apply Rmult_le_compat_r; [apply vlen_pos|lra]).
           assert (0 <= kap N * vlen N (cut (q + 1) (v q)))%R by (apply Rmult_le_pos; [lra|apply vlen_pos]). assert (0 <= IZR N * tiny)%R by (apply Rmult_le_pos; [apply IZR_le; lia|pose proof tiny_pos; lra]). lra.
        -- replace (fR c / fR (a q) / fR c)%R with (1 / fR (a q))%R by (field; split; auto). exact Db.
        -- intros r Hr. rewrite Ez, Ek. rewrite T_zero by lia. unfold idm. rewrite (proj2 (Z.eqb_neq (q + 1) r)) by lia. reflexivity.
        -- intros r Hr. rewrite Ez, Ek. pose proof (HFk (q + 1) r ltac:(lia) ltac:(lia)) as Fr. rewrite Ezh in Fr |- * by lia. unfold idm. rewrite (Z.eqb_sym (q + 1) r). destruct (Z.eqb_spec r (q + 1)) as [->|Hn].
           ++ apply (entry_err (sf_of_Z 1) (sf_mul b (v q (q + 1))) _ 1%R (fR b) (fR (v q (q + 1))) (proj1 num_one) (mul_valid _ _ Vb (proj1 (proj1 G (q + 1) ltac:(lia)))) fR_one eq_refl Fr). apply (prod_err N (q + 1) (v q) c G b (q + 1)); auto; lia.
           ++ rewrite Rplus_0_l. pose proof (prod_err N (q + 1) (v q) c G b r Hr Vb Fr) as K. eapply Rle_trans; [exact K|]. rewrite Rabs_mult, Rabs_R0. pose proof tiny_pos. assert (0 <= ulp2 * (Rabs (fR b) * Rabs (fR (v q r))))%R by (apply Rmult_le_pos; [lra|apply Rmult_le_pos; apply Rabs_pos]). lra.
      * (* an old row *)
        assert (Ez : forall r, uu j (q + 1) r = fR (T ((q + 1) + 1) j r)) by (intros; unfold uu; rewrite (proj2 (Z.ltb_ge j ((q + 1) + 1))) by lia; auto).
        assert (NT : forall r, (q + 1) <= r < N -> num (T ((q + 1) + 1) j r)) by (intros; split; [apply T_valid; lia|apply (fin_up (q + 1)); auto; lia]).
        assert (Eb : tq_beta (O := SO) N W D (q + 1) (T ((q + 1) + 1)) j = al_mul pf N (q + 1) (v q) c (fun r => T ((q + 1) + 1) j r)).
        { unfold tq_beta, al_mul. rewrite Eq. change (@fmul SO) with sf_mul. change (@fdiv SO) with sf_div. rewrite HD, (HW q (q + 1)) by lia. f_equal.
          fold c. rewrite (fadds_first pf (q + 1) N) by lia. rewrite (T_zero (q + 1 + 1) j (q + 1)) by lia. rewrite zero_mul_zero by (apply G; lia).
          apply fadds_ext. intros t Ht. rewrite HW by lia. apply sf_mul_comm. }
        assert (Ezh : forall r, q + 1 <= r < N -> T (q + 1) j r = (if r =? q + 1 then sf_mul (al_mul pf N (q + 1) (v q) c (fun r => T (q + 1 + 1) j r)) (v q (q + 1)) else sf_add (T (q + 1 + 1) j r) (sf_mul (al_mul pf N (q + 1) (v q) c (fun r => T (q + 1 + 1) j r)) (v q r)))).
        { intros r Hr. rewrite Es. unfold tq_step. rewrite Eq, Em, Eb. rewrite (proj2 (Z.eqb_neq j (q + 1))), (proj2 (Z.ltb_lt (q + 1) j)) by lia. rewrite !HW by lia. destruct (Z.eqb_spec r (q + 1)); [reflexivity|]. rewrite (proj2 (Z.ltb_lt (q + 1) r)) by lia. reflexivity. }
        assert (Fz : forall r, q + 1 <= r < N -> isfin (sf_mul (al_mul pf N (q + 1) (v q) c (fun r => T (q + 1 + 1) j r)) (v q r)) = true).
        { intros r Hr. pose proof (HFk j r ltac:(lia) ltac:(lia)) as Fr. rewrite Ezh in Fr by lia. destruct (Z.eqb_spec r (q + 1)) as [->|Hn]; auto. apply (sf_add_fin _ _ Fr). }
        apply (form_mul pf N HN Hkap (q + 1) (v q) c (fun r => T (q + 1 + 1) j r)); try lia; auto.
        -- intros r Hr. rewrite Ez, Ek. rewrite !T_zero by lia. reflexivity.
        -- specialize (Fz (q + 1) ltac:(lia)). apply (sf_mul_fin _ _ Fz).
        -- intros r Hr. left. rewrite Ek, Ezh by lia. pose proof (HFk j r ltac:(lia) ltac:(lia)) as Fr. rewrite Ezh in Fr by lia. destruct (Z.eqb_spec r (q + 1)) as [->|Hn]; [|auto].
           rewrite (T_zero (q + 1 + 1)) by lia. destruct (zero_add_R (sf_mul (al_mul pf N (q + 1) (v q) c (fun r => T (q + 1 + 1) j r)) (v q (q + 1)))) as [Z1 Z2]. rewrite Z1, Z2. auto.
Qed.
Lemma uu_rows j : nums2 N N U -> 0 <= j < N ->
  (vlen N (fun r => fR (U j r) - Qp N Pu (N - 1) r j) <= (gr (10 * kap N) (N - 1) - 1) + IZR (N - 1) * gr (10 * kap N) (N - 1) * omg N)%R.
Proof.
  intros FU Hj. pose proof (unit_vlen j Hj) as E1.
  assert (Eta : (0 <= 10 * kap N)%R) by (pose proof (kap_u N HN); pose proof ulp2_pos; lra).
  pose proof (chain_down N Pu (10 * kap N) (omg N) (fun q => Pa_orth pf N (q + 1) (x q)) Eta (Rlt_le _ _ (omg_pos N HN)) (uu j) (idm j) (N - 1) 0 ltac:(lia)) as K.
  rewrite Z.sub_0_r, E1, Rmult_1_r in K. eapply Rle_trans; [|apply K].
  - right. apply vlen_ext. intros r Hr. rewrite Qp_0, mvec_1 by auto. f_equal.
    + unfold uu, td_tabQT. rewrite Z.add_0_l. unfold tq_unit. destruct (Z.ltb_spec j 1); [|rewrite (proj2 (Z.eqb_neq j 0)) by lia; auto].
      assert (j = 0) by lia. subst j. unfold idm. rewrite Z.eqb_refl, (Z.eqb_sym 0 r). cbn [andb]. destruct (Z.eqb_spec r 0); [apply fR_one|]. rewrite T_zero by lia. auto.
    + f_equal. unfold mvec. rewrite (Rs_pick 0 N j) by (try lia; intros; unfold idm; rewrite (proj2 (Z.eqb_neq _ _)) by auto; ring). rewrite idm_same. ring.
  - intros r Hr. unfold uu. rewrite (proj2 (Z.ltb_lt j (N - 1 + 1))) by lia. auto.
  - intros q Hq. apply uu_step; auto; try lia. apply T_fin; auto; lia.
Qed.
(** The factor is finite if no reflection is skipped, unless the matrix is very large. *)
Lemma U_finite : (forall q, 0 <= q < N - 1 -> fR (D q) <> 0%R) -> (10 * IZR (N - 1) * kap N <= / 16)%R -> nums2 N N U.
Proof.
  intros NZ Hsz. assert (F1 : fin_at 1).
  { apply (fin_down N (N - 1) Pu uu (fun q => fin_at (q + 1)) HN Hkap ltac:(lia) Hsz (fun q => Pa_orth pf N (q + 1) (x q))).
    - replace (N - 1 + 1) with N by lia. intros i j Hi Hj. rewrite T_N. reflexivity.
    - intros j Hj. rewrite (vlen_ext N (uu j (N - 1)) (idm j)); [rewrite unit_vlen by auto; lra|]. intros r Hr. unfold uu. rewrite (proj2 (Z.ltb_lt j (N - 1 + 1))) by lia. auto.
    - intros q Hq F Lz i r Hi Hr. rewrite tq_iter_S by lia. pose proof (NZ q ltac:(lia)) as E0. rewrite HD in E0 by lia. pose proof (u_good q ltac:(lia) E0) as G. destruct (u_range q ltac:(lia) E0) as [La Ua].
      set (c := sf_mul (a q) (v q (q + 1))) in *. unfold tq_step. assert (Eq : q + 1 - 1 = q) by lia. rewrite Eq.
      destruct (@feq SO (W q (q + 1)) (@fzero SO)); [unfold tq_unit; destruct (_ && _); [reflexivity|apply F; auto]|].
      pose proof (u_a q ltac:(lia)) as Na. pose proof ulp2_1024 as U1. pose proof ulp2_pos as U0.
      destruct (Z.eqb_spec i (q + 1)) as [->|Ni].
      + destruct (Z_lt_ge_dec r (q + 1)) as [Lr|Lr]; [rewrite (proj2 (Z.eqb_neq r (q + 1))), (proj2 (Z.ltb_ge (q + 1) r)) by lia; apply F; auto|].
        set (z := fun r => if r =? q + 1 then sf_of_Z 1 else sf_zero). assert (Nz : forall r, q + 1 <= r < N -> num (z r)) by (intros; unfold z; destruct (_ =? _); [apply num_one|split; reflexivity]).
        assert (Hz : forall r, q + 1 <= r < N -> uu (q + 1) (q + 1) r = fR (z r)).
        { intros t Ht. unfold uu, z. rewrite (proj2 (Z.ltb_lt _ _)) by lia. unfold idm. rewrite (Z.eqb_sym (q + 1) t). destruct (t =? q + 1); [symmetry; apply fR_one|reflexivity]. }
        rewrite HD, !HW by lia. change (@fone SO) with (sf_of_Z 1). change (@fdiv SO) with sf_div. change (@fmul SO) with sf_mul. change (@fadd SO) with sf_add.
        pose proof (f_c N (q + 1) Hkap (v q) c G) as C. pose proof (f_L0 N (q + 1) (v q) c G) as L0. pose proof (c_err pf N HN Hkap (q + 1) ltac:(lia) (x q) ltac:(intros; apply u_x; lia) (u_fin q ltac:(lia)) La Ua) as Ce. fold c in Ce.
        pose proof (av_bounds pf N HN Hkap (q + 1) ltac:(lia) (x q) ltac:(intros; apply u_x; lia) (u_fin q ltac:(lia)) La Ua) as [_ AV].
        set (A := Rabs (fR (a q))) in *. set (LL := vlen N (cut (q + 1) (v q))) in *. set (w := (fR (a q) * fR (v q (q + 1)%Z))%R) in *. pose proof (bpow_gt_0 radix2 (-450)) as P450. assert (PA : (0 < A)%R) by lra.
        assert (CL : (LL <= 22 / 10 * A)%R).
        { apply Rsqr_incr_0_var; [|lra]. unfold Rsqr. pose proof (Rabs_triang_inv (fR c) w). assert (ulp2 * Rabs w <= / 1024 * Rabs w)%R by (apply Rmult_le_compat_r; [apply Rabs_pos|lra]). nra. }
        assert (IA : (/ A <= 22 / 10 * / LL)%R). { apply (Rmult_le_reg_r (A * LL)); [nra|]. replace (/ A * (A * LL))%R with LL by (field; lra). replace (22 / 10 * / LL * (A * LL))%R with (22 / 10 * A)%R by (field; lra). auto. }
        pose proof (f_invL N (q + 1) (v q) c G) as IL. fold LL in IL. assert (PI : (0 < / LL)%R) by (apply Rinv_0_lt_compat; auto).
        assert (B1 : (Rabs (1 / fR (a q)) <= 22 / 10 * / LL)%R) by (unfold Rdiv; rewrite Rmult_1_l, Rabs_inv; exact IA).
        assert (Nb : num (sf_div (sf_of_Z 1) (a q))).
        { apply div_fin; auto; [apply num_one|]. rewrite fR_one. pose proof f_huge. pose proof (bpow_le radix2 453 1000 ltac:(lia)) as HH. pose proof (bpow_ge_0 radix2 450). assert (b2 453 = 8 * b2 450)%R by (change 453 with (3 + 450); rewrite bpow_plus; reflexivity). lra. }
        destruct (div_ok (sf_of_Z 1) (a q) (proj1 num_one) (proj1 Na) (proj2 Nb) E0) as [E1 _]. rewrite fR_one in E1. set (b := sf_div (sf_of_Z 1) (a q)) in *.
        assert (Bb : (Rabs (fR b) <= 5 / LL + b2 (-515))%R).
        { pose proof (Rabs_triang_inv (fR b) (1 / fR (a q))). assert (ulp2 * Rabs (1 / fR (a q)) <= / 1024 * (22 / 10 * / LL))%R by (apply Rmult_le_compat; [lra|apply Rabs_pos|lra|lra]). pose proof f_tiny. pose proof (bpow_le radix2 (-1000) (-515) ltac:(lia)). change (5 / LL)%R with (5 * / LL)%R. lra. }
        assert (Lu : (vlen N (uu (q + 1) (q + 1)) <= 2)%R) by (apply Lz; lia).
        destruct (f_entry N (q + 1) ltac:(lia) (v q) c z (uu (q + 1) (q + 1)) G Nz Hz Lu b Nb Bb r ltac:(lia)) as [R1 R2]. unfold z in R2. destruct (Z.eqb_spec r (q + 1)) as [->|Nr]; [exact R2|]. rewrite (proj2 (Z.ltb_lt (q + 1) r)) by lia. exact R1.
      + destruct (Z.ltb_spec (q + 1) i) as [Li|Li]; [|apply F; auto]. destruct (Z_lt_ge_dec r (q + 1)) as [Lr|Lr]; [rewrite (proj2 (Z.eqb_neq r (q + 1))), (proj2 (Z.ltb_ge (q + 1) r)) by lia; apply F; auto|].
        assert (NT : forall r, q + 1 <= r < N -> num (T (q + 1 + 1) i r)) by (intros; split; [apply T_valid; lia|apply F; lia]).
        rewrite (beta_eq q i) by lia. rewrite !HW by lia.
        assert (Hz : forall r, q + 1 <= r < N -> uu i (q + 1) r = fR (T (q + 1 + 1) i r)) by (intros; unfold uu; rewrite (proj2 (Z.ltb_ge _ _)) by lia; auto).
        destruct (fin_mul pf N (q + 1) HN Hkap ltac:(lia) (v q) c (fun r => T (q + 1 + 1) i r) (uu i (q + 1)) G NT Hz (Lz i Hi) r ltac:(lia)) as [R1 R2]. destruct (Z.eqb_spec r (q + 1)) as [->|Nr]; [exact R1|]. rewrite (proj2 (Z.ltb_lt (q + 1) r)) by lia. exact R2.
    - intros q j Hq Hj F. apply uu_step; auto. }
  intros i j Hi Hj. unfold td_tabQT, tq_unit. destruct (_ && _); [apply num_one|]. split; [apply T_valid; lia|apply F1; auto].
Qed.
End Acc.

(** The Schur transform in exact arithmetic: the error of one turn. *)
From Coq Require Import ZArith QArith List Lia Bool Reals Qreals Lra.
From Verif Require Import Base BaseLemmas Scalar Vector Matrix Diagonal MatSpec TabTac FSum RealOps RSum House Frob CholFacts Schur SchurFacts SchurFacts2 SchurReal SchurReal2.
Open Scope Z_scope.

Definition deps : R := @doubleeps ROps.
Lemma deps_eq : deps = (/ 9007199254740992)%R.
Proof. unfold deps, doubleeps. change (@flit ROps) with Q2R. unfold Q2R. cbn [Qnum Qden]. lra. Qed.
Lemma deps_pos : (0 < deps)%R.
Proof. rewrite deps_eq. lra. Qed.
Lemma ewe_R x e : equalsWithError (O := ROps) x fzero e = true -> (x = 0 \/ Rabs x <= e)%R.
Proof.
  unfold equalsWithError. intros H. apply orb_prop in H. destruct H as [H|H].
  - left. change (@fulp1 ROps) with Reqb in H. apply Reqb_true in H. auto.
  - right. rops. apply Rleb_true in H. replace (0 - x)%R with (- x)%R in H by ring. rewrite Rabs_Ropp in H. auto.
Qed.
Lemma ewe_R0 x e : equalsWithError (O := ROps) x fzero e = false -> x <> 0%R.
Proof. unfold equalsWithError. intros H E. apply orb_false_elim in H. destruct H as [H _]. change (@fulp1 ROps) with Reqb in H. apply Reqb_false in H. auto. Qed.

(** the first vector: the column is not the one annihilated *)
Lemma colerr_first k nl p q r T T1 c : let s := sgnroot (O := ROps) p q r in s <> 0%R -> (nl = false -> r = 0%R) -> T (k + 1) (k - 1) = 0%R -> (nl = true -> T (k + 2) (k - 1) = 0%R) ->
  T1 k (k - 1) = (c * T k (k - 1)%Z)%R -> colerr k nl p q r T T1 = (Rabs (T k (k - 1)%Z) * (Rabs (1 - c - (p + s) / s) + Rabs (q / s) + Rabs (r / s)))%R.
Proof.
  intros s Hs Hr H1 H2 HT1. unfold colerr. fold s. assert (Hp1 : (p + s)%R <> 0%R) by (apply p1_nz; auto). set (t := T k (k - 1)) in *. set (p1 := (p + s)%R) in *.
  assert (Ew : vsum k nl (fun a => hv k nl p q r a * T a (k - 1)%Z)%R = t).
  { unfold vsum, hv. rewrite vv_k, vv_k1, H1. fold t. destruct nl; [rewrite vv_k2, (H2 eq_refl)|]; ring. }
  rewrite Ew. unfold vsum, hv. rewrite vv_k, vv_k1. rewrite Z.eqb_refl. replace (k + 1 =? k) with false by (symmetry; apply Z.eqb_neq; lia). rewrite HT1, H1. fold s t p1.
  replace (t - p1 / s * t * 1 - c * t)%R with (t * (1 - c - p1 / s))%R by ring. replace (0 - p1 / s * t * (q / p1) - 0)%R with (- (t * (q / s)))%R by (field; auto).
  destruct nl.
  - rewrite vv_k2, (H2 eq_refl). replace (k + 2 =? k) with false by (symmetry; apply Z.eqb_neq; lia). replace (0 - p1 / s * t * (r / p1) - 0)%R with (- (t * (r / s)))%R by (field; auto).
    rewrite !Rabs_Ropp, !Rabs_mult. ring.
  - rewrite (Hr eq_refl). replace (0 / s)%R with 0%R by (field; auto). rewrite Rabs_R0, !Rabs_Ropp, !Rabs_mult. ring.
Qed.
Lemma colerr_next k nl p q r T T1 x : let s := sgnroot (O := ROps) p q r in s <> 0%R -> (nl = false -> r = 0%R) ->
  T k (k - 1) = (x * p)%R -> T (k + 1) (k - 1) = (x * q)%R -> (nl = true -> T (k + 2) (k - 1) = (x * r)%R) ->
  T1 k (k - 1) = (- s * x)%R -> colerr k nl p q r T T1 = 0%R.
Proof.
  intros s Hs Hr H0 H1 H2 HT1. unfold colerr. fold s. assert (Hp1 : (p + s)%R <> 0%R) by (apply p1_nz; auto). pose proof (s_sq p q r) as Hq. fold s in Hq.
  assert (Ew : vsum k nl (fun a => hv k nl p q r a * T a (k - 1)%Z)%R = (x * s)%R).
  { unfold vsum, hv. rewrite vv_k, vv_k1, H0, H1. fold s.
    assert (G : (1 * (x * p) + q / (p + s) * (x * q) + r / (p + s) * (x * r) = x * s)%R).
    { replace (1 * (x * p) + q / (p + s) * (x * q) + r / (p + s) * (x * r))%R with (x * ((p * p + q * q + r * r + p * s) / (p + s)))%R by (field; auto). rewrite <- Hq. field. auto. }
    destruct nl; [rewrite vv_k2, (H2 eq_refl); lra|rewrite (Hr eq_refl) in G; lra]. }
  rewrite Ew. unfold vsum, hv. rewrite vv_k, vv_k1. rewrite Z.eqb_refl. replace (k + 1 =? k) with false by (symmetry; apply Z.eqb_neq; lia). rewrite HT1, H0, H1. fold s.
  replace (x * p - (p + s) / s * (x * s) * 1 - - s * x)%R with 0%R by (field; auto). replace (x * q - (p + s) / s * (x * s) * (q / (p + s)) - 0)%R with 0%R by (field; auto).
  rewrite Rabs_R0. destruct nl; [|ring]. rewrite vv_k2, (H2 eq_refl). replace (k + 2 =? k) with false by (symmetry; apply Z.eqb_neq; lia).
  replace (x * r - (p + s) / s * (x * s) * (r / (p + s)) - 0)%R with 0%R by (field; auto). rewrite Rabs_R0. ring.
Qed.
Lemma abs_div a b : Rabs (a / b) = (Rabs a / Rabs b)%R.
Proof. unfold Rdiv. rewrite Rabs_mult, Rabs_inv. auto. Qed.
(** sizes in the first vector *)
Lemma first_small p q r t e : let s := sgnroot (O := ROps) p q r in s <> 0%R -> p <> 0%R -> (2 * (Rabs t * (Rabs q + Rabs r)) <= e * Rabs p)%R -> (0 <= e)%R ->
  (Rabs t * (Rabs (1 - -1 - (p + s) / s) + Rabs (q / s) + Rabs (r / s)) <= e)%R.
Proof.
  intros s Hs Hp H He. pose proof (abs_s_p p q r) as A1. pose proof (s_le_sum p q r) as A2. pose proof (ps_nonneg p q r) as A3. fold s in A1, A2, A3.
  replace (1 - -1 - (p + s) / s)%R with ((s - p) / s)%R by (field; auto). rewrite !abs_div. pose proof (Rabs_pos_lt s Hs) as S0. pose proof (Rabs_pos_lt p Hp) as P0.
  assert (E : Rabs (s - p) = (Rabs s - Rabs p)%R).
  { destruct (Rle_dec 0 s) as [C|C].
    - assert (0 <= p)%R. { destruct (Rle_dec 0 p); auto. assert (p * s < 0)%R; [|lra]. apply Ropp_lt_cancel. rewrite Ropp_0, Ropp_mult_distr_l. apply Rmult_lt_0_compat; lra. }
      rewrite (Rabs_right s), (Rabs_right p) in A1 by lra. rewrite !Rabs_right by lra. auto.
    - assert (p <= 0)%R. { destruct (Rle_dec p 0); auto. assert (p * s < 0)%R; [|lra]. apply Ropp_lt_cancel. rewrite Ropp_0, Ropp_mult_distr_r. apply Rmult_lt_0_compat; lra. }
      rewrite (Rabs_left1 s), (Rabs_left1 p) in A1 by lra. rewrite (Rabs_left1 s), (Rabs_left1 p), Rabs_left1 by lra. lra. }
  rewrite E. pose proof (Rabs_pos t) as T0.
  replace (Rabs t * ((Rabs s - Rabs p) / Rabs s + Rabs q / Rabs s + Rabs r / Rabs s))%R with (Rabs t * (Rabs s - Rabs p + Rabs q + Rabs r) / Rabs s)%R by (field; lra).
  apply (Rmult_le_reg_r (Rabs s)); auto. unfold Rdiv. rewrite Rmult_assoc, Rinv_l, Rmult_1_r by lra.
  apply Rle_trans with (Rabs t * (2 * (Rabs q + Rabs r)))%R; [apply Rmult_le_compat_l; lra|]. apply Rle_trans with (e * Rabs p)%R; [lra|]. apply Rmult_le_compat_l; lra.
Qed.
Lemma first_defl p q r t : let s := sgnroot (O := ROps) p q r in s <> 0%R -> (Rabs t * (Rabs (1 - 1 - (p + s) / s) + Rabs (q / s) + Rabs (r / s)) <= 4 * Rabs t)%R.
Proof.
  intros s Hs. pose proof (div_le1 p s Hs (abs_s_p p q r)). pose proof (div_le1 q s Hs (abs_s_q p q r)). pose proof (div_le1 r s Hs (abs_s_r p q r)).
  assert (Rabs (1 - 1 - (p + s) / s) <= 2)%R.
  { replace (1 - 1 - (p + s) / s)%R with (- (p / s + 1))%R by (field; auto). rewrite Rabs_Ropp. eapply Rle_trans; [apply Rabs_triang|]. rewrite Rabs_R1. lra. }
  pose proof (Rabs_pos t). apply Rle_trans with (Rabs t * 4)%R; [apply Rmult_le_compat_l; lra|lra].
Qed.

(** ** One turn of the inner loop *)
Definition ccost (im iu k : Z) (e1 er : R) : R := ((if k =? im then e1 else deps) + (if iu <=? k + 2 then er else 0))%R.
Definition first_ok (il im : Z) (h : R * R * R) (T : Z -> Z -> R) (e1 : R) : Prop :=
  let '(p, q, r) := h in 1 <= im -> (il = im -> (4 * Rabs (T im (im - 1)%Z) <= e1)%R) /\ (il <> im -> p <> 0%R /\ (2 * (Rabs (T im (im - 1)%Z) * (Rabs q + Rabs r)) <= e1 * Rabs p)%R).
Lemma skip_sim n im iu k T e : bul n im iu k T -> 0 <= k -> k < n -> (0 <= e)%R ->
  (1 <= k -> (Rabs (T (k + 1)%Z (k - 1)%Z) + (if (k + 2 <=? iu)%Z then Rabs (T (k + 2)%Z (k - 1)%Z) else 0) <= e)%R) -> sim n idm (lg k T) (lg (k + 1) T) e.
Proof.
  intros Hb Hk Hkn He H. apply sim_id. destruct (Z_le_dec 1 k) as [H1|H1].
  2:{ rewrite nF_0; auto. intros i j Hi Hj. unfold msub, lg. zb0; cbn [andb]; ring. }
  eapply Rle_trans; [apply (nF_col n (k - 1)); [lia|]|].
  - intros i j Hi Hj Hne. unfold msub, lg. zb0; cbn [andb]; ring.
  - eapply Rle_trans; [|apply H; auto].
    assert (E : forall i, 0 <= i < n -> Rabs (msub (lg k T) (lg (k + 1) T) i (k - 1)%Z) = ((if i =? k + 1 then Rabs (T (k + 1)%Z (k - 1)%Z) else 0) + (if i =? k + 2 then (if k + 2 <=? iu then Rabs (T (k + 2)%Z (k - 1)%Z) else 0) else 0))%R).
    { intros i Hi. unfold msub, lg. destruct (Z.leb_spec (k - 1) (k - 2)); [lia|]. destruct (Z.leb_spec (k - 1) (k + 1 - 2)); [|lia]. cbn [andb].
      destruct (Z.leb_spec (k - 1 + 2) i); [|rewrite Rminus_diag_eq, Rabs_R0 by auto; zb0; lra]. rewrite Rminus_0_r. destruct (Z.eqb_spec i (k + 1)) as [->|]; [zb0; lra|]. destruct (Z.eqb_spec i (k + 2)) as [->|].
      - destruct (Z.leb_spec (k + 2) iu); [lra|]. rewrite (Hb (k + 2) (k - 1)) by lia. rewrite Rabs_R0. lra.
      - rewrite (Hb i (k - 1)) by lia. rewrite Rabs_R0. lra. }
    rewrite (Rs_ext _ _ _ _ E), Rs_plus. apply Rplus_le_compat.
    + destruct (Z_lt_dec (k + 1) n); [rewrite (Rs_pick 0 n (k + 1)) by (try lia; intros; zb0; auto); rewrite Z.eqb_refl; lra|].
      rewrite Rs_zero by (intros; zb0; auto). apply Rabs_pos.
    + destruct (Z_lt_dec (k + 2) n); [rewrite (Rs_pick 0 n (k + 2)) by (try lia; intros; zb0; auto); rewrite Z.eqb_refl; lra|].
      rewrite Rs_zero by (intros; zb0; auto). destruct (k + 2 <=? iu); [apply Rabs_pos|lra].
Qed.
Lemma bul_skip n im iu k T : bul n im iu k T -> bul n im iu (k + 1) T.
Proof. intros H i j Hj0 Hj Hij Hc. apply H; lia. Qed.
Lemma chase_sim n il im iu h k T P e1 er : 0 <= il <= im -> im <= iu - 2 -> iu < n -> im <= k < iu -> bul n im iu k T -> (k = im -> first_ok il im h T e1) -> (0 <= e1)%R -> (0 <= er)%R ->
  (iu + 1 < n -> (3 * Rabs (T (iu + 1)%Z iu) <= er)%R) ->
  exists G, let S' := chaseF (O := ROps) n il im iu h k (T, P) in sim n G (lg k T) (lg (k + 1) (fst S')) (ccost im iu k e1 er) /\ fixes n G iu /\ meq n n (snd S') (mmul n P G) /\ bul n im iu (k + 1) (fst S') /\
    (forall i j, iu < i < n -> 0 <= j < n -> fst S' i j = T i j).
Proof.
  intros Hil Him Hiu Hk Hb Hf He1 Her Hrow. unfold chaseF. destruct h as [[h0 h1] h2].
  assert (IDP : meq n n P (mmul n P idm)) by (intros i j Hi Hj; symmetry; apply mmul_1_r; auto).
  assert (Cp : (0 <= ccost im iu k e1 er)%R). { unfold ccost. pose proof deps_pos. destruct (k =? im), (iu <=? k + 2); lra. }
  destruct (chaseV (O := ROps) im iu (h0, h1, h2) k T) as [[sk [[p q] r]] x] eqn:EV. destruct sk.
  { (* skipped *) exists idm. cbn [fst snd]. split; [|split; [apply fixes_id|split; [auto|split; [apply bul_skip; auto|auto]]]]. unfold chaseV in EV. destruct (Z.eqb_spec k im) as [E|E]; [discriminate|].
    destruct (equalsWithError _ _ _) eqn:Ee; [|discriminate]. apply ewe_R in Ee. rops. rewrite Rabs_Rabsolu in * || idtac.
    assert (Ks : (Rabs (T k (k - 1)%Z) + Rabs (T (k + 1)%Z (k - 1)%Z) + Rabs (if negb (k =? iu - 1) then T (k + 2)%Z (k - 1)%Z else 0) <= deps)%R).
    { pose proof deps_pos. match type of Ee with (?a = 0 \/ Rabs ?a <= _)%R => assert (Rabs a <= deps)%R by (destruct Ee as [Ee|Ee]; [rewrite Ee, Rabs_R0; lra|exact Ee]); pose proof (Rle_abs a); lra end. }
    apply (skip_sim n im iu); auto; try lia. intros _. apply Rle_trans with deps.
    - pose proof (Rabs_pos (T k (k - 1)%Z)). pose proof (Rabs_pos (T (k + 2)%Z (k - 1)%Z)). destruct (Z.eqb_spec k (iu - 1)); cbn [negb] in Ks; zb0; try lra. rewrite Rabs_R0 in Ks. lra.
    - unfold ccost. destruct (Z.eqb_spec k im); [contradiction|]. destruct (iu <=? k + 2); lra. }
  rops. destruct (Reqb (sgnroot (O := ROps) p q r) 0) eqn:Es.
  { (* nothing to reflect *) apply Reqb_true in Es. exists idm. cbn [fst snd]. split; [|split; [apply fixes_id|split; [auto|split; [apply bul_skip; auto|auto]]]].
    unfold chaseV in EV. destruct (Z.eqb_spec k im) as [E|E].
    - apply (skip_sim n im iu); auto; try lia. intros H1. rewrite !Hb by lia. rewrite Rabs_R0. destruct (_ <=? _); lra.
    - exfalso. destruct (equalsWithError _ _ _) eqn:Ee; [discriminate|]. apply ewe_R0 in Ee. rops. injection EV as E1 E2 E3 E4. pose proof (s_sq p q r) as Q. rewrite Es in Q.
      pose proof (Rle_0_sqr p). pose proof (Rle_0_sqr q). pose proof (Rle_0_sqr r). unfold Rsqr in *.
      assert (p = 0 /\ q = 0 /\ r = 0)%R as (Z1 & Z2 & Z3) by (repeat split; apply Rsqr_0_uniq; unfold Rsqr; lra).
      subst x. set (x := (Rabs (T k (k - 1)%Z) + Rabs (T (k + 1)%Z (k - 1)%Z) + Rabs (if negb (k =? iu - 1) then T (k + 2)%Z (k - 1)%Z else 0))%R) in *.
      apply Ee. subst p q r. unfold Rdiv in *. assert (D0 : forall a, (a * / x = 0 -> a = 0)%R) by (intros a Ha; apply Rmult_integral in Ha; destruct Ha as [Ha|Ha]; auto; apply Rinv_neq_0_compat in Ee; contradiction).
      apply D0 in Z1, Z2, Z3. unfold x. rewrite Z1, Z2, Z3, Rabs_R0. ring. }
  apply Reqb_false in Es. set (s := sgnroot (O := ROps) p q r) in *. set (nl := negb (k =? iu - 1)) in *. set (T1 := chaseT (O := ROps) il im k s x T).
  assert (HT1 : forall i j, ~ (i = k /\ j = k - 1) -> T1 i j = T i j). { intros i j Hn. unfold T1, chaseT, tset. zb0; cbn [negb andb]; auto; zb0; cbn [andb]; auto; exfalso; tauto. }
  assert (Hr : nl = false -> r = 0%R).
  { intros E. unfold nl in E. destruct (Z.eqb_spec k (iu - 1)) as [E2|]; [|discriminate]. unfold chaseV in EV. destruct (Z.eqb_spec k im) as [E3|E3]; [lia|].
    destruct (equalsWithError _ _ _); [discriminate|]. injection EV as _ _ <- _. rops. rewrite E2, Z.eqb_refl. cbn [negb]. unfold Rdiv. ring. }
  set (T2 := coreT iu k nl p q r T1).
  exists (hG k nl p q r). cbn zeta. cbn [fst snd]. fold T2.
  destruct (core_sim n im iu k nl p q r T T1 ltac:(lia) ltac:(lia) Hiu eq_refl Hr Es HT1 Hb (if k =? im then e1 else 0%R) (if iu <=? k + 2 then er else 0%R)) as [C1 C2].
  - destruct (k =? im); lra.
  - destruct (iu <=? k + 2); lra.
  - intros H1. unfold chaseV in EV. destruct (Z.eqb_spec k im) as [E|E].
    + specialize (Hf E). injection EV as -> -> -> <-. subst k. unfold first_ok in Hf. specialize (Hf H1). destruct Hf as [F1 F2]. destruct (Z.eq_dec il im) as [El|El].
      * specialize (F1 El). rewrite (colerr_first im nl p q r T T1 1 Es Hr); [|apply Hb; lia|intros; apply Hb; lia|unfold T1, chaseT; rewrite !Z.eqb_refl; cbn [negb]; rewrite El, Z.eqb_refl; cbn [negb]; ring].
        eapply Rle_trans; [apply (first_defl p q r _ Es)|exact F1].
      * destruct (F2 El) as [F3 F4]. rewrite (colerr_first im nl p q r T T1 (-1) Es Hr); [|apply Hb; lia|intros; apply Hb; lia|].
        -- apply (first_small p q r _ e1 Es F3 F4 He1).
        -- unfold T1, chaseT. rewrite !Z.eqb_refl. cbn [negb]. apply Z.eqb_neq in El. rewrite El. cbn [negb]. unfold tset. rewrite !Z.eqb_refl. cbn [andb]. rops. ring.
    + destruct (equalsWithError _ _ _) eqn:Ee; [discriminate|]. apply ewe_R0 in Ee. injection EV as E1 E2 E3 E4. rops. fold nl in E1, E2, E3, E4, Ee. rewrite E4 in *.
      rewrite (colerr_next k nl p q r T T1 x Es Hr); [lra| | | |].
      * rewrite <- E1. field. auto.
      * rewrite <- E2. field. auto.
      * intros En. rewrite <- E3, En. field. auto.
      * unfold T1, chaseT. apply Z.eqb_neq in E. rewrite E. cbn [negb]. unfold tset. rewrite !Z.eqb_refl. cbn [andb]. rops. auto.
  - intros H1 H2. destruct (Z.leb_spec iu (k + 2)); [|lia]. auto.
  - fold T2 in C1. split; [|split; [auto|split; [|split]]].
    + eapply sim_ext; [exact C1|apply meq_refl|apply meq_refl|apply meq_refl|]. unfold ccost. pose proof deps_pos. destruct (k =? im), (iu <=? k + 2); lra.
    + intros i j Hi Hj. pose proof (cols_G n k nl p q r ltac:(lia) ltac:(unfold nl; destruct (Z.eqb_spec k (iu - 1)); cbn [negb]; lia) Hr Es n P i j Hj) as C. fold s in C.
      destruct (Z.leb_spec n i); [lia|]. exact C.
    + apply (core_bul n im iu k nl p q r T T1); auto; lia.
    + intros i j Hi Hj. transitivity (T2 i j); [reflexivity|]. rewrite <- (HT1 i j) by lia. apply (core_low n im iu k nl p q r T1); auto; lia.
Qed.

(** Proofs about the bit-level comparison of floats. *)
From Coq Require Import ZArith QArith Floats.SpecFloat Bool Lia.
From Verif Require Import Base Scalar Float64.
Open Scope Z_scope.

(** ** float64 of a 64-bit integer *)
Lemma round53_small n : n < 2 ^ 53 -> round53 n = n.
Proof. intros. unfold round53. destruct (Z.ltb_spec n (2 ^ 53)); auto; lia. Qed.
Lemma round53_big n : 2 ^ 53 <= n < 2 ^ 64 -> 2 ^ 53 <= round53 n.
Proof.
  intros H. unfold round53. destruct (Z.ltb_spec n (2 ^ 53)); [lia|].
  set (k := Z.log2 n - 52).
  assert (Hl : 53 <= Z.log2 n) by (apply Z.log2_le_pow2; lia).
  pose proof (Z.log2_spec n ltac:(lia)) as [L1 L2].
  assert (Hq : 2 ^ 52 <= n / 2 ^ k).
  { apply Z.div_le_lower_bound; [apply Z.pow_pos_nonneg; unfold k; lia|].
    rewrite <- Z.pow_add_r by (unfold k; lia). replace (k + 52) with (Z.log2 n) by (unfold k; lia). lia. }
  assert (Hk : 2 <= 2 ^ k). { change 2 with (2 ^ 1) at 1. apply Z.pow_le_mono_r; unfold k; lia. }
  set (q := n / 2 ^ k) in *.
  destruct ((2 ^ (k - 1) <? n mod 2 ^ k) || ((n mod 2 ^ k =? 2 ^ (k - 1)) && Z.odd q)); nia.
Qed.
Lemma round53_le1 n : 0 <= n < 2 ^ 64 -> (round53 n <= 1 <-> n <= 1).
Proof.
  intros H. destruct (Z.ltb_spec n (2 ^ 53)).
  - rewrite round53_small by auto. tauto.
  - pose proof (round53_big n ltac:(lia)). lia.
Qed.
Lemma round53_top n : 0 <= n < 2 ^ 64 -> (round53 n = 2 ^ 64 <-> 2 ^ 64 - 1024 <= n).
Proof.
  intros H. unfold round53. destruct (Z.ltb_spec n (2 ^ 53)); [lia|].
  assert (Hl : 53 <= Z.log2 n) by (apply Z.log2_le_pow2; lia).
  assert (Hl2 : Z.log2 n < 64) by (apply Z.log2_lt_pow2; lia).
  pose proof (Z.log2_spec n ltac:(lia)) as [L1 L2].
  set (k := Z.log2 n - 52) in *. assert (Hk : 1 <= k <= 11) by lia.
  assert (Hn : 2 ^ 52 * 2 ^ k <= n < 2 ^ 53 * 2 ^ k).
  { rewrite <- !Z.pow_add_r by lia. replace (52 + k) with (Z.log2 n) by lia.
    replace (53 + k) with (Z.succ (Z.log2 n)) by lia. lia. }
  assert (H2 : 2 ^ k = 2 * 2 ^ (k - 1)).
  { change 2 with (2 ^ 1) at 2. rewrite <- Z.pow_add_r by lia. f_equal. lia. }
  assert (Hp : 0 < 2 ^ (k - 1)) by (apply Z.pow_pos_nonneg; lia).
  pose proof (Z.div_mod n (2 ^ k) ltac:(lia)) as Hd. pose proof (Z.mod_pos_bound n (2 ^ k) ltac:(lia)) as Hm.
  set (q := n / 2 ^ k) in *. set (r := n mod 2 ^ k) in *.
  assert (Hq : 2 ^ 52 <= q < 2 ^ 53) by nia.
  destruct (Z.eq_dec k 11) as [E|E].
  - rewrite E in *. clearbody q r. change (2 ^ 11) with 2048 in *. change (2 ^ (11 - 1)) with 1024 in *.
    change (2 ^ 64) with (2 ^ 53 * 2048) in *.
    destruct (Z.ltb_spec 1024 r) as [Hr|Hr]; cbn [orb].
    + split; intros; nia.
    + destruct (Z.eqb_spec r 1024) as [Hr2|Hr2]; cbn [andb].
      * destruct (Z.odd q) eqn:Eo.
        -- split; intros; nia.
        -- split; intros; [nia|]. assert (q = 2 ^ 53 - 1) by nia. subst q. discriminate.
      * split; intros; nia.
  - assert (Hb : 2 ^ k <= 2 ^ 10) by (apply Z.pow_le_mono_r; lia).
    change (2 ^ 10) with 1024 in Hb. assert (n < 2 ^ 53 * 1024) by nia. clearbody q r.
    split; intros; [|lia].
    destruct ((2 ^ (k - 1) <? r) || ((r =? 2 ^ (k - 1)) && Z.odd q)); nia.
Qed.

(** ** Bit 31 *)
Lemma land31 a b : 0 <= a -> 0 <= b ->
  (Z.land (Z.lxor a b) (2 ^ 31) = 0 <-> Z.testbit a 31 = Z.testbit b 31).
Proof.
  intros Ha Hb. split; intros H.
  - assert (Z.testbit (Z.land (Z.lxor a b) (2 ^ 31)) 31 = false) as E by (rewrite H; apply Z.testbit_0_l).
    rewrite Z.land_spec, Z.lxor_spec, Z.pow2_bits_true, andb_true_r in E by lia.
    destruct (Z.testbit a 31), (Z.testbit b 31); auto; discriminate.
  - apply Z.bits_inj'. intros n Hn. rewrite Z.testbit_0_l, Z.land_spec, Z.lxor_spec.
    destruct (Z.eq_dec n 31) as [->|E].
    + rewrite H, xorb_nilpotent. auto.
    + rewrite Z.pow2_bits_false by lia. apply andb_false_r.
Qed.
Lemma testbit31_big a : 0 <= a < 2 ^ 31 -> Z.testbit a 31 = false.
Proof.
  intros H. destruct (Z.eq_dec a 0) as [->|]; [apply Z.testbit_0_l|].
  apply Z.bits_above_log2; [lia|]. apply Z.log2_lt_pow2; lia.
Qed.

(** The exact meaning of the comparison with one ulp, on bit patterns. *)
Lemma equalsWithULP_bits_1 c x y : 0 <= x < 2 ^ 64 -> 0 <= y < 2 ^ 64 ->
  (equalsWithULP_bits c x y 1 = true <->
   Z.testbit x 31 = Z.testbit y 31 /\
   (x = y \/ x = y + 1 \/ (x = 0 /\ y = 2 ^ 64 - 1) \/ (c <= 1 /\ 2 ^ 64 - 1024 <= (x - y) mod 2 ^ 64))).
Proof.
  intros Hx Hy. unfold equalsWithULP_bits.
  pose proof (land31 x y ltac:(lia) ltac:(lia)) as L.
  destruct (Z.eqb_spec (Z.land (Z.lxor x y) (2 ^ 31)) 0) as [E|E].
  - apply L in E.
    pose proof (Z.mod_pos_bound (x - y) (2 ^ 64) ltac:(lia)) as Hm.
    assert (Hc : (x < y /\ (x - y) mod 2 ^ 64 = x - y + 2 ^ 64) \/ (y <= x /\ (x - y) mod 2 ^ 64 = x - y)).
    { destruct (Z.ltb_spec x y).
      - left. split; auto. symmetry. apply Z.mod_unique with (-1); lia.
      - right. split; auto. apply Z.mod_small. lia. }
    pose proof (round53_le1 _ Hm) as R1. pose proof (round53_top _ Hm) as R2.
    rewrite Z.leb_le. set (m := (x - y) mod 2 ^ 64) in *. clearbody m.
    destruct (Z.eqb_spec (round53 m) (2 ^ 64)) as [E2|E2].
    + apply R2 in E2. split.
      * intros. split; auto.
      * intros [_ H]. lia.
    + rewrite R1. split.
      * intros. split; auto. lia.
      * intros [_ H]. assert (m < 2 ^ 64 - 1024) by (destruct (Z.ltb_spec m (2 ^ 64 - 1024)); auto; exfalso; apply E2, R2; lia). lia.
  - split.
    2:{ intros [H _]. tauto. }
    assert (Hbig : 2 ^ 31 <= x \/ 2 ^ 31 <= y).
    { destruct (Z.ltb_spec x (2 ^ 31)); [|lia]. destruct (Z.ltb_spec y (2 ^ 31)); [|lia].
      exfalso. apply E, L. rewrite !testbit31_big by lia. auto. }
    destruct (Z.ltb_spec x y); rewrite !Z.sub_0_r; rewrite (Z.mod_small _ (2 ^ 64)) by lia.
    + destruct (Z.ltb_spec 1 y); [discriminate|lia].
    + destruct (Z.ltb_spec 1 x); [discriminate|lia].
Qed.

(** ** Valid floats and their patterns *)
Lemma digits2_pos_log2 p : Zpos (digits2_pos p) = Z.log2 (Zpos p) + 1.
Proof.
  induction p; cbn [digits2_pos]; rewrite ?Pos2Z.inj_succ, ?IHp; auto.
  - rewrite (Pos2Z.inj_xI p), Z.log2_succ_double by lia. lia.
  - rewrite (Pos2Z.inj_xO p), Z.log2_double by lia. lia.
Qed.
Lemma valid_finite s m e : sf_valid (S754_finite s m e) = true ->
  Zpos m < 2 ^ 53 /\ -1074 <= e <= 971 /\ (Zpos m < 2 ^ 52 -> e = -1074).
Proof.
  unfold sf_valid, valid_binary, bounded, canonical_mantissa. rewrite andb_true_iff. intros [H1 H2].
  apply Zeq_bool_eq in H1. apply Zle_bool_imp_le in H2. unfold fexp, emin, prec64, emax64 in *.
  rewrite digits2_pos_log2 in H1.
  pose proof (Z.log2_spec (Zpos m) ltac:(lia)) as [L1 L2].
  assert (Hd : Z.log2 (Zpos m) + 1 <= 53) by lia.
  assert (Zpos m < 2 ^ 53).
  { eapply Z.lt_le_trans; [apply L2|]. apply Z.pow_le_mono_r; lia. }
  split; auto. split; [lia|]. intros Hs.
  assert (Z.log2 (Zpos m) < 52) by (apply Z.log2_lt_pow2; lia). lia.
Qed.
Lemma bits64_range x : sf_valid x = true -> 0 <= bits64 x < 2 ^ 64.
Proof.
  destruct x as [s|s| |s m e]; intros H; unfold bits64; try (destruct s; lia); [lia|].
  apply valid_finite in H. destruct H as (H1 & H2 & H3).
  destruct s, (Z.ltb_spec (Zpos m) (2 ^ 52)); lia.
Qed.
(** The magnitude part lies below that of infinity for finite numbers. *)
Lemma finite_mag s m e : sf_valid (S754_finite s m e) = true ->
  let g := (if Zpos m <? 2 ^ 52 then Zpos m else (e + 1075) * 2 ^ 52 + (Zpos m - 2 ^ 52)) in
  0 < g < 2047 * 2 ^ 52.
Proof.
  intros H. apply valid_finite in H. destruct H as (H1 & H2 & H3). destruct (Z.ltb_spec (Zpos m) (2 ^ 52)); lia.
Qed.
Lemma bits64_inj x y : sf_valid x = true -> sf_valid y = true -> bits64 x = bits64 y -> x = y.
Proof.
  intros Hx Hy.
  destruct x as [s|s| |s m e]; destruct y as [s'|s'| |s' m' e'];
    try (pose proof (finite_mag _ _ _ Hx) as G; cbn zeta in G);
    try (pose proof (finite_mag _ _ _ Hy) as G'; cbn zeta in G'); unfold bits64.
  all: try (destruct s, s'; intros; try reflexivity; exfalso; lia).
  all: try (destruct s; intros; try reflexivity; exfalso; lia).
  all: try (destruct s'; intros; try reflexivity; exfalso; lia).
  1: reflexivity.
  apply valid_finite in Hx, Hy. destruct Hx as (X1 & X2 & X3), Hy as (Y1 & Y2 & Y3).
  intros E.
  assert (s = s') by (destruct s, s'; auto; exfalso; lia). subst s'. apply Z.add_reg_l in E.
  destruct (Z.ltb_spec (Zpos m) (2 ^ 52)), (Z.ltb_spec (Zpos m') (2 ^ 52)).
  - rewrite X3, Y3 by auto. f_equal. lia.
  - exfalso. lia.
  - exfalso. lia.
  - assert (e = e') by lia. subst. f_equal. lia.
Qed.
Lemma bits64_nonnan x : sf_valid x = true -> sf_isnan x = false -> bits64 x <= 2 ^ 63 + 2047 * 2 ^ 52.
Proof.
  destruct x as [s|s| |s m e]; intros H Hn; try discriminate; unfold bits64; try (destruct s; lia).
  pose proof (finite_mag _ _ _ H) as G. cbn zeta in G. destruct s; lia.
Qed.

(** What the comparison really does on floats, on platforms where
    uint64(2^64) is not 0 or 1. *)
Lemma equalsWithULP_1 c x y : 1 < c -> sf_valid x = true -> sf_valid y = true ->
  (equalsWithULP c x y 1 = true <->
   sf_isnan x = false /\ sf_isnan y = false /\
   (x = y \/ (bits64 x = bits64 y + 1 /\ Z.testbit (bits64 x) 31 = Z.testbit (bits64 y) 31))).
Proof.
  intros Hc Hx Hy. unfold equalsWithULP. rewrite !andb_true_iff, !negb_true_iff.
  rewrite equalsWithULP_bits_1 by (apply bits64_range; auto). split.
  - intros [[[Hb H] Hnx] Hny]. split; auto. split; auto. destruct H as [H|[H|[[H1 H2]|[H _]]]].
    + left. apply bits64_inj; auto.
    + right. auto.
    + pose proof (bits64_nonnan y Hy Hny). lia.
    + lia.
  - intros (Hnx & Hny & [->|[H Hb]]); (split; [split|]; auto; split; auto).
Qed.
Lemma ulp_zero c x : 1 < c -> sf_valid x = true ->
  (equalsWithULP c sf_zero x 1 = true <-> x = S754_zero false).
Proof.
  intros Hc Hx. rewrite equalsWithULP_1 by auto. split.
  - intros (_ & _ & [E|[E _]]); [symmetry; exact E|]. pose proof (bits64_range x Hx). cbn in E. lia.
  - intros ->. auto.
Qed.

(** ** The order on float64 *)
Definition k1 (x : sf) : Z :=
  match x with
  | S754_infinity s => if s then -2 else 2
  | S754_zero _ => 0
  | S754_finite s _ _ => if s then -1 else 1
  | S754_nan => 0
  end.
Definition k2 (x : sf) : Z := match x with S754_finite s _ e => if s then - e else e | _ => 0 end.
Definition k3 (x : sf) : Z := match x with S754_finite s m _ => if s then - Zpos m else Zpos m | _ => 0 end.
Definition sf_le_key (x y : sf) : Prop :=
  k1 x < k1 y \/ (k1 x = k1 y /\ (k2 x < k2 y \/ (k2 x = k2 y /\ k3 x <= k3 y))).
Lemma SFcompare_key x y : sf_isnan x = false -> sf_isnan y = false ->
  match SFcompare x y with
  | Some Lt => sf_le_key x y /\ ~ sf_le_key y x
  | Some Eq => sf_le_key x y /\ sf_le_key y x
  | Some Gt => ~ sf_le_key x y /\ sf_le_key y x
  | None => False
  end.
Proof.
  unfold sf_le_key.
  destruct x as [s|s| |s m e]; destruct y as [s'|s'| |s' m' e']; try discriminate; intros _ _;
    cbn [SFcompare k1 k2 k3]; destruct s; try destruct s'; try lia;
    (destruct (Z.compare_spec e e'); try lia; rewrite Pcompare_eq_Gt_fix || idtac;
     change (Pos.compare_cont Eq m m') with (Pos.compare m m'); destruct (Pos.compare_spec m m'); cbn [CompOpp]; lia).
Qed.
Lemma SFleb_key x y : SFleb x y = true <-> sf_isnan x = false /\ sf_isnan y = false /\ sf_le_key x y.
Proof.
  unfold SFleb. destruct (sf_isnan x) eqn:Ex; [destruct x; try discriminate; cbn; intuition discriminate|].
  destruct (sf_isnan y) eqn:Ey; [destruct y; try discriminate; destruct x; cbn; intuition discriminate|].
  pose proof (SFcompare_key x y Ex Ey). destruct (SFcompare x y) as [[]|]; intuition (auto || discriminate).
Qed.
Lemma SFeqb_key x y : SFeqb x y = true <-> SFleb x y = true /\ SFleb y x = true.
Proof.
  rewrite !SFleb_key. unfold SFeqb. destruct (sf_isnan x) eqn:Ex; [destruct x; try discriminate; cbn; intuition discriminate|].
  destruct (sf_isnan y) eqn:Ey; [destruct y; try discriminate; destruct x; cbn; intuition discriminate|].
  pose proof (SFcompare_key x y Ex Ey). destruct (SFcompare x y) as [[]|]; intuition (auto || discriminate).
Qed.
Lemma SFltb_key x y : SFltb x y = true <-> SFleb x y = true /\ SFleb y x = false.
Proof.
  rewrite <- not_true_iff_false, !SFleb_key. unfold SFltb.
  destruct (sf_isnan x) eqn:Ex; [destruct x; try discriminate; cbn; intuition discriminate|].
  destruct (sf_isnan y) eqn:Ey; [destruct y; try discriminate; destruct x; cbn; intuition discriminate|].
  pose proof (SFcompare_key x y Ex Ey). destruct (SFcompare x y) as [[]|]; intuition (auto || discriminate).
Qed.
Lemma SFleb_refl x : sf_isnan x = false -> SFleb x x = true.
Proof. intros. apply SFleb_key. unfold sf_le_key. split; auto. split; auto. lia. Qed.
Lemma SFleb_trans x y z : SFleb x y = true -> SFleb y z = true -> SFleb x z = true.
Proof. rewrite !SFleb_key. unfold sf_le_key. intros (H1 & _ & H2) (_ & H3 & H4). split; auto. split; auto. lia. Qed.
Lemma SFleb_total x y : sf_isnan x = false -> sf_isnan y = false -> SFleb x y = true \/ SFleb y x = true.
Proof.
  intros Hx Hy. pose proof (SFcompare_key x y Hx Hy). rewrite !SFleb_key.
  destruct (SFcompare x y) as [[]|]; tauto.
Qed.
Lemma SFleb_nan x y : SFleb x y = true -> sf_isnan x = false /\ sf_isnan y = false.
Proof. rewrite SFleb_key. tauto. Qed.
Lemma SFeqb_refl x : sf_isnan x = false -> SFeqb x x = true.
Proof. intros. apply SFeqb_key. split; apply SFleb_refl; auto. Qed.
Lemma SFeqb_sym x y : SFeqb x y = SFeqb y x.
Proof. apply eq_true_iff_eq. rewrite !SFeqb_key. tauto. Qed.
Lemma SFeqb_trans x y z : SFeqb x y = true -> SFeqb y z = true -> SFeqb x z = true.
Proof. rewrite !SFeqb_key. intros [] []. split; eauto using SFleb_trans. Qed.

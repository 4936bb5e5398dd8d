(** Adjacent floats. *)
From Coq Require Import ZArith Lia Bool Floats.SpecFloat.
From Verif Require Import Base Scalar Float64 Float64Facts.
Open Scope Z_scope.

(** Position of a float in the order of all floats. *)
Definition okey (x : sf) : Z :=
  match x with
  | S754_zero _ => 0
  | S754_infinity s => if s then - (2047 * 2 ^ 52) else 2047 * 2 ^ 52
  | S754_nan => 0
  | S754_finite s m e =>
      let g := if Zpos m <? 2 ^ 52 then Zpos m else (e + 1075) * 2 ^ 52 + (Zpos m - 2 ^ 52) in
      if s then - g else g
  end.
Lemma okey_bits x : sf_valid x = true -> sf_isnan x = false ->
  okey x = if sf_signbit x then 2 ^ 63 - bits64 x else bits64 x.
Proof.
  destruct x as [s|s| |s m e]; intros H Hn; try discriminate; unfold okey, bits64, sf_signbit; destruct s; try lia.
Qed.
Lemma sign_bits x : sf_valid x = true -> sf_isnan x = false -> sf_signbit x = (2 ^ 63 <=? bits64 x).
Proof.
  destruct x as [s|s| |s m e]; intros H Hn; try discriminate; unfold bits64, sf_signbit.
  1,2: destruct s; reflexivity.
  pose proof (finite_mag _ _ _ H) as G. cbn zeta in G. symmetry. destruct s; [apply Z.leb_le|apply Z.leb_gt]; lia.
Qed.
Lemma SFleb_okey x y : sf_valid x = true -> sf_valid y = true -> sf_isnan x = false -> sf_isnan y = false ->
  (SFleb x y = true <-> okey x <= okey y).
Proof.
  intros Hx Hy Nx Ny. rewrite SFleb_key.
  assert (K : sf_le_key x y <-> okey x <= okey y); [|tauto].
  unfold sf_le_key.
  destruct x as [s|s| |s m e]; destruct y as [s'|s'| |s' m' e']; try discriminate; cbn [k1 k2 k3 okey].
  1,2,4,5: destruct s, s'; lia.
  1,2: pose proof (finite_mag _ _ _ Hy) as G; cbn zeta in G; destruct s, s'; lia.
  1,2: pose proof (finite_mag _ _ _ Hx) as G; cbn zeta in G; destruct s, s'; lia.
  pose proof (finite_mag _ _ _ Hx) as G; pose proof (finite_mag _ _ _ Hy) as G'; cbn zeta in G, G'.
  apply valid_finite in Hx, Hy. destruct Hx as (X1 & X2 & X3), Hy as (Y1 & Y2 & Y3).
  destruct s, s'; try lia;
    (destruct (Z.ltb_spec (Zpos m) (2 ^ 52)), (Z.ltb_spec (Zpos m') (2 ^ 52)); try rewrite X3 in * by auto; try rewrite Y3 in * by auto; lia).
Qed.
Lemma SFltb_okey x y : sf_valid x = true -> sf_valid y = true -> sf_isnan x = false -> sf_isnan y = false ->
  (SFltb x y = true <-> okey x < okey y).
Proof.
  intros Hx Hy Nx Ny. rewrite SFltb_key, <- not_true_iff_false, !SFleb_okey by auto. lia.
Qed.
Lemma SFltb_nan x y : SFltb x y = true -> sf_isnan x = false /\ sf_isnan y = false.
Proof. rewrite SFltb_key. intros [H _]. apply SFleb_nan in H. auto. Qed.
Lemma SFeqb_okey x y : sf_valid x = true -> sf_valid y = true -> sf_isnan x = false -> sf_isnan y = false ->
  (SFeqb x y = true <-> okey x = okey y).
Proof.
  intros Hx Hy Nx Ny. rewrite SFeqb_key, !SFleb_okey by auto. lia.
Qed.

(** [y] is the next float above [x]. *)
Definition next (x y : sf) : Prop :=
  SFltb x y = true /\ forall z, sf_valid z = true -> ~ (SFltb x z = true /\ SFltb z y = true).
(** Equal or adjacent. *)
Definition near (x y : sf) : Prop := SFeqb x y = true \/ next x y \/ next y x.

Lemma next_okey x y : sf_valid x = true -> sf_valid y = true -> sf_isnan x = false -> sf_isnan y = false ->
  okey y = okey x + 1 -> next x y.
Proof.
  intros Hx Hy Nx Ny E. split; [apply SFltb_okey; auto; lia|].
  intros z Hz [H1 H2]. pose proof (SFltb_nan _ _ H1) as [_ Nz]. apply SFltb_okey in H1, H2; auto. lia.
Qed.
Lemma ulp_near c x y : 1 < c -> sf_valid x = true -> sf_valid y = true -> equalsWithULP c x y 1 = true ->
  sf_isnan x = false /\ sf_isnan y = false /\ near x y.
Proof.
  intros Hc Hx Hy H. apply equalsWithULP_1 in H; auto. destruct H as (Nx & Ny & H). split; auto. split; auto.
  destruct H as [->|[H _]]; [left; apply SFeqb_refl; auto|].
  pose proof (bits64_nonnan y Hy Ny). pose proof (sign_bits x Hx Nx) as Sx. pose proof (sign_bits y Hy Ny) as Sy.
  pose proof (okey_bits x Hx Nx) as Kx. pose proof (okey_bits y Hy Ny) as Ky.
  destruct (Z.leb_spec (2 ^ 63) (bits64 y)) as [G|G].
  - assert (Sx' : sf_signbit x = true) by (rewrite Sx; apply Z.leb_le; lia). rewrite Sx' in Kx. rewrite Sy in Ky.
    right. left. apply next_okey; auto. lia.
  - destruct (Z.leb_spec (2 ^ 63) (bits64 x)) as [G2|G2].
    + exfalso. assert (bits64 y = 2 ^ 63 - 1) by lia. revert H1. clear -Hy Ny G.
      destruct y as [s|s| |s m e]; try discriminate; unfold bits64 in *; try (destruct s; lia).
      pose proof (finite_mag _ _ _ Hy) as K. cbn zeta in K. destruct s; lia.
    + rewrite Sx in Kx. rewrite Sy in Ky. right. right. apply next_okey; auto. lia.
Qed.

Lemma ulp_false c x y : 1 < c -> sf_valid x = true -> sf_valid y = true ->
  x <> y -> (bits64 x <> bits64 y + 1 \/ Z.testbit (bits64 x) 31 <> Z.testbit (bits64 y) 31) -> equalsWithULP c x y 1 = false.
Proof.
  intros Hc Hx Hy N H. apply not_true_iff_false. rewrite equalsWithULP_1 by auto. intros (_ & _ & [E|[E1 E2]]); [auto|]. destruct H; auto.
Qed.
Lemma ulp_asymmetric : exists x y, sf_valid x = true /\ sf_valid y = true /\ next y x /\
  forall c, 1 < c -> equalsWithULP c x y 1 = true /\ equalsWithULP c y x 1 = false.
Proof.
  exists (S754_finite false 1 (-1074)), (S754_zero false). split; [reflexivity|]. split; [reflexivity|].
  split; [apply next_okey; reflexivity|]. intros c Hc. split.
  - apply equalsWithULP_1; auto.
  - apply ulp_false; auto; try discriminate; left; discriminate.
Qed.
Lemma ulp_zeros c : 1 < c ->
  SFeqb (S754_zero false) (S754_zero true) = true /\
  equalsWithULP c (S754_zero false) (S754_zero true) 1 = false /\ equalsWithULP c (S754_zero true) (S754_zero false) 1 = false.
Proof.
  intros Hc. split; [reflexivity|]. split; apply ulp_false; auto; try discriminate; left; discriminate.
Qed.
Lemma ulp_bit31 : exists x y, sf_valid x = true /\ sf_valid y = true /\ next x y /\
  forall c, 1 < c -> equalsWithULP c x y 1 = false /\ equalsWithULP c y x 1 = false.
Proof.
  exists (S754_finite false 2147483647 (-1074)), (S754_finite false 2147483648 (-1074)). split; [reflexivity|]. split; [reflexivity|].
  split; [apply next_okey; reflexivity|]. intros c Hc. split; apply ulp_false; auto; try discriminate; right; discriminate.
Qed.

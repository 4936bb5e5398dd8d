(** The comparison of float64 values that are not NaN is a total preorder. *)
From Coq Require Import ZArith Floats.SpecFloat Bool Lia.
From Verif Require Import Base Scalar Float64.
Open Scope Z_scope.

(** A key in Z^3, compared lexicographically. *)
Definition kcls (x : spec_float) : Z :=
  match x with S754_infinity true => -2 | S754_finite true _ _ => -1 | S754_infinity false => 2 | S754_finite false _ _ => 1 | _ => 0 end.
Definition kexp (x : spec_float) : Z := match x with S754_finite s m e => if s then - e else e | _ => 0 end.
Definition kman (x : spec_float) : Z := match x with S754_finite s m e => if s then Zneg m else Zpos m | _ => 0 end.
Definition klt (x y : spec_float) : Prop :=
  kcls x < kcls y \/ kcls x = kcls y /\ (kexp x < kexp y \/ kexp x = kexp y /\ kman x < kman y).
Lemma SFltb_key x y : sf_isnan x = false -> sf_isnan y = false -> SFltb x y = true <-> klt x y.
Proof.
  destruct x as [sx|sx| |sx mx ex]; destruct y as [sy|sy| |sy my ey]; intros H1 H2; try discriminate; unfold SFltb, SFcompare, klt; try destruct sx; try destruct sy; cbn [kcls kexp kman]; try (split; [intros; try discriminate; lia|intros; try reflexivity; lia]).
  - destruct (Z.compare_spec ex ey); cbn; [|split; [discriminate|lia]|split; [lia|auto]].
    change (Pcompare mx my Eq) with (Pos.compare mx my). destruct (Pos.compare_spec mx my); cbn; (split; [intros; try discriminate; lia|intros; try reflexivity; lia]).
  - destruct (Z.compare_spec ex ey); cbn; [|split; [lia|auto]|split; [discriminate|lia]].
    change (Pcompare mx my Eq) with (Pos.compare mx my). destruct (Pos.compare_spec mx my); cbn; (split; [intros; try discriminate; lia|intros; try reflexivity; lia]).
Qed.
Lemma SFltb_key_false x y : sf_isnan x = false -> sf_isnan y = false -> SFltb x y = false <-> ~ klt x y.
Proof. intros H1 H2. rewrite <- (SFltb_key x y H1 H2). destruct (SFltb x y); split; congruence. Qed.
Lemma SFltb_nan x y : SFltb x y = true -> sf_isnan x = false /\ sf_isnan y = false.
Proof. destruct x as [[]|[]| |[]], y as [[]|[]| |[]]; cbn; intros; try discriminate; auto. Qed.

Lemma SFltb_asym x y : SFltb x y = true -> SFltb y x = false.
Proof. intros H. destruct (SFltb_nan _ _ H) as [Hx Hy]. apply SFltb_key_false; auto. apply SFltb_key in H; auto. unfold klt in *. lia. Qed.
Lemma SFltb_irr x : SFltb x x = false.
Proof. destruct (SFltb x x) eqn:E; auto. rewrite <- (SFltb_asym _ _ E) at 1. auto. Qed.
Lemma SFltb_negtrans x y z : sf_isnan x = false -> sf_isnan y = false -> sf_isnan z = false -> SFltb x y = false -> SFltb y z = false -> SFltb x z = false.
Proof. intros Hx Hy Hz H1 H2. apply SFltb_key_false in H1; auto. apply SFltb_key_false in H2; auto. apply SFltb_key_false; auto. unfold klt in *. lia. Qed.

(** Replacing the values of small magnitude by zero keeps the order. *)
Lemma sf_null_mono t x y : sf_isnan x = false -> sf_isnan y = false -> SFltb x y = false ->
  SFltb (if SFltb (SFabs x) t then sf_zero else x) (if SFltb (SFabs y) t then sf_zero else y) = false.
Proof.
  intros Hx Hy H. destruct (SFltb (SFabs x) t) eqn:E1, (SFltb (SFabs y) t) eqn:E2; auto.
  - apply SFltb_key_false; auto. apply SFltb_key_false in H; auto. destruct (SFltb_nan _ _ E1) as [_ Ht].
    apply SFltb_key in E1; [|destruct x; auto|auto]. apply SFltb_key_false in E2; [|destruct y; auto|auto].
    unfold klt in *. destruct x as [[]|[]| |[] mx ex], y as [[]|[]| |[] my ey]; cbn [kcls kexp kman SFabs sf_zero] in *; try discriminate; try lia.
  - apply SFltb_key_false; auto. apply SFltb_key_false in H; auto. destruct (SFltb_nan _ _ E2) as [_ Ht].
    apply SFltb_key in E2; [|destruct y; auto|auto]. apply SFltb_key_false in E1; [|destruct x; auto|auto].
    unfold klt in *. destruct x as [[]|[]| |[] mx ex], y as [[]|[]| |[] my ey]; cbn [kcls kexp kman SFabs sf_zero] in *; try discriminate; try lia.
Qed.

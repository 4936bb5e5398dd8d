(** The operations of [SFOps] against the reals, through Flocq. *)
From Coq Require Import ZArith Reals Lia Lra Bool Floats.SpecFloat.
From Flocq.IEEE754 Require Import BinarySingleNaN.
From Flocq Require Import Core Relative Plus_error.
From Verif Require Import Base Scalar Float64 RSum RndSpec.
Open Scope Z_scope.

#[local] Instance Hprec : Prec_gt_0 53 := eq_refl.
#[local] Instance Hmax : Prec_lt_emax 53 1024 := eq_refl.
Notation bf := (binary_float 53 1024).
Notation rnd x := (round radix2 (fexp 53 1024) ZnearestE x).

(** The same functions on both sides. *)
Lemma rne_eq s m l : round_nearest_even m l = choice_mode mode_NE s m l.
Proof. case l; [reflexivity|intro c]. case c; [|reflexivity..]. now simpl; unfold Round.cond_incr; case Z.even. Qed.
Lemma round_aux_eq sx mx ex lx : SpecFloat.binary_round_aux 53 1024 sx mx ex lx = BinarySingleNaN.binary_round_aux 53 1024 mode_NE sx mx ex lx.
Proof.
  unfold SpecFloat.binary_round_aux, BinarySingleNaN.binary_round_aux. set (mrse' := shr_fexp _ _ _ _ _).
  case mrse'; intros mrs' e'; simpl. now rewrite (rne_eq sx).
Qed.
Lemma round_eq s m e : SpecFloat.binary_round 53 1024 s m e = BinarySingleNaN.binary_round 53 1024 mode_NE s m e.
Proof.
  unfold SpecFloat.binary_round, BinarySingleNaN.binary_round, shl_align_fexp.
  set (mez := shl_align _ _ _); case mez as [mz ez]. apply round_aux_eq.
Qed.
Lemma normalize_eq m e sz : SpecFloat.binary_normalize 53 1024 m e sz = B2SF (BinarySingleNaN.binary_normalize 53 1024 Hprec Hmax mode_NE m e sz).
Proof.
  case m as [|p|p].
  - now simpl.
  - simpl; rewrite B2SF_SF2B; apply round_eq.
  - simpl; rewrite B2SF_SF2B; apply round_eq.
Qed.
Lemma add_eq (x y : bf) : sf_add (B2SF x) (B2SF y) = B2SF (Bplus mode_NE x y).
Proof.
  unfold sf_add, prec64, emax64. case x as [sx|sx| |sx mx ex Bx]; case y as [sy|sy| |sy my ey By];
  [now (trivial || simpl; case Bool.eqb).. |]. apply normalize_eq.
Qed.
Lemma sub_eq (x y : bf) : sf_sub (B2SF x) (B2SF y) = B2SF (Bminus mode_NE x y).
Proof.
  unfold sf_sub, prec64, emax64. case x as [sx|sx| |sx mx ex Bx]; case y as [sy|sy| |sy my ey By];
  [now (trivial || simpl; case Bool.eqb).. |]. simpl. unfold Zminus. rewrite <- cond_Zopp_negb. apply normalize_eq.
Qed.
Lemma mul_eq (x y : bf) : sf_mul (B2SF x) (B2SF y) = B2SF (Bmult mode_NE x y).
Proof.
  unfold sf_mul, prec64, emax64. case x as [sx|sx| |sx mx ex Bx]; case y as [sy|sy| |sy my ey By]; [now trivial.. |].
  simpl. rewrite B2SF_SF2B. apply round_aux_eq.
Qed.
Lemma div_eq (x y : bf) : sf_div (B2SF x) (B2SF y) = B2SF (Bdiv mode_NE x y).
Proof.
  unfold sf_div, prec64, emax64. case x as [sx|sx| |sx mx ex Bx]; case y as [sy|sy| |sy my ey By];
  [now (trivial || simpl; case Bool.eqb).. |]. simpl. rewrite B2SF_SF2B.
  set (melz := SFdiv_core_binary _ _ _ _ _ _). case melz as [[mz ez] lz]. apply round_aux_eq.
Qed.
Lemma sqrt_eq (x : bf) : sf_sqrt (B2SF x) = B2SF (Bsqrt mode_NE x).
Proof.
  unfold sf_sqrt, prec64, emax64. case x as [sx|sx| |sx mx ex Bx]; [now (trivial || case sx).. |]. case sx; [reflexivity|].
  simpl. rewrite B2SF_SF2B. set (melz := SFsqrt_core_binary _ _ _ _). case melz as [[mz ez] lz]. apply round_aux_eq.
Qed.

(** From a valid pattern to Flocq's type and back. *)
Lemma to_bf (x : sf) : sf_valid x = true -> exists b : bf, B2SF b = x.
Proof. intros H. exists (SF2B x H). apply B2SF_SF2B. Qed.
Lemma of_bf_valid (b : bf) : sf_valid (B2SF b) = true. Proof. apply valid_binary_B2SF. Qed.
Lemma of_bf_fin (b : bf) : isfin (B2SF b) = is_finite b. Proof. destruct b; reflexivity. Qed.
Lemma of_bf_R (b : bf) : fR (B2SF b) = B2R b.
Proof.
  destruct b as [s|s| |s m e H]; auto. cbn. unfold F2R. cbn. rewrite bpow_powerRZ. destruct s; reflexivity.
Qed.
Ltac bfs := repeat match goal with
  | H : sf_valid ?x = true |- _ => is_var x; let b := fresh "b" in destruct (to_bf x H) as [b <-]; clear H end.

Lemma half_bpow e : bpow radix2 (e - 1) = (/ 2 * bpow radix2 e)%R.
Proof. unfold Z.sub. rewrite bpow_plus, Rmult_comm. reflexivity. Qed.
Lemma ulp2_bpow : ulp2 = (/ 2 * bpow radix2 (- 53 + 1))%R.
Proof. rewrite <- half_bpow. unfold ulp2. rewrite bpow_powerRZ. reflexivity. Qed.
Lemma ulp2_uro : ulp2 = u_ro radix2 53. Proof. rewrite ulp2_bpow. reflexivity. Qed.
Lemma tiny_bpow : tiny = (/ 2 * bpow radix2 (-1074))%R.
Proof. rewrite <- half_bpow. unfold tiny. rewrite bpow_powerRZ. reflexivity. Qed.
Lemma ulp2_pos : (0 < ulp2)%R. Proof. rewrite ulp2_bpow. pose proof (bpow_gt_0 radix2 (- 53 + 1)). lra. Qed.
Lemma ulp2_small : (ulp2 <= / 4)%R.
Proof. rewrite ulp2_bpow. pose proof (bpow_le radix2 (-53 + 1) (-1) ltac:(lia)) as H. change (bpow radix2 (-1)) with (/ 2)%R in H. lra. Qed.
Lemma tiny_pos : (0 < tiny)%R. Proof. rewrite tiny_bpow. pose proof (bpow_gt_0 radix2 (-1074)). lra. Qed.

(** Rounding to nearest, in the two usual forms. *)
Lemma rnd_ex x : exists e t, (Rabs e <= ulp2 /\ Rabs t <= tiny /\ rnd x = x * (1 + e) + t)%R.
Proof.
  destruct (error_N_FLT radix2 (-1074) 53 eq_refl (fun x => negb (Z.even x)) x) as (e & t & He & Ht & _ & E).
  exists e, t. rewrite ulp2_bpow, tiny_bpow. repeat split; assumption.
Qed.
Lemma rnd_err x : (Rabs (rnd x - x) <= ulp2 * Rabs x + tiny)%R.
Proof.
  destruct (rnd_ex x) as (e & t & He & Ht & ->).
  replace (x * (1 + e) + t - x)%R with (x * e + t)%R by ring. eapply Rle_trans; [apply Rabs_triang|].
  rewrite Rabs_mult. pose proof (Rabs_pos x). nra.
Qed.
Lemma rnd_err_inv x : (Rabs (rnd x - x) <= ulp2 * Rabs (rnd x) + tiny)%R.
Proof.
  pose proof tiny_pos. pose proof ulp2_pos. destruct (Rle_lt_dec (bpow radix2 (-1074 + 53 - 1)) (Rabs x)) as [Hx|Hx].
  - assert (K : (Rabs (rnd x - x) <= ulp2 * Rabs (rnd x))%R); [|lra]. rewrite ulp2_bpow.
    exact (relative_error_N_FLT_round radix2 (-1074) 53 eq_refl (fun x => negb (Z.even x)) x Hx).
  - assert (K : (Rabs (rnd x - x) <= tiny)%R); [|pose proof (Rabs_pos (rnd x)); nra]. rewrite tiny_bpow.
    rewrite <- (ulp_FLT_small radix2 (-1074) 53 x).
    + apply (error_le_half_ulp radix2 (FLT_exp (-1074) 53)).
    + eapply Rlt_le_trans; [exact Hx|]. apply bpow_le. lia.
Qed.
(** A sum of two floats has no underflow error. *)
Lemma rnd_plus (x y : bf) : exists e, (Rabs e <= ulp2 /\ rnd (B2R x + B2R y) = (B2R x + B2R y) * (1 + e))%R.
Proof.
  destruct (FLT_plus_error_N_ex radix2 (-1074) 53 (fun x => negb (Z.even x)) (B2R x) (B2R y)) as (e & He & E);
    try apply (generic_format_B2R 53 1024).
  exists e. split; auto. rewrite <- ulp2_uro in He. pose proof ulp2_pos. eapply Rle_trans; [exact He|].
  apply (Rmult_le_reg_r (1 + ulp2)); [lra|]. unfold Rdiv. rewrite Rmult_assoc, Rinv_l by lra. nra.
Qed.
Lemma rnd_plus_inv (x y : bf) : exists e, (Rabs e <= ulp2 /\ B2R x + B2R y = rnd (B2R x + B2R y) * (1 + e))%R.
Proof.
  rewrite ulp2_uro. apply (relative_error_N_round_ex_derive radix2 53 eq_refl).
  apply (FLT_plus_error_N_ex radix2 (-1074) 53 (fun x => negb (Z.even x))); apply (generic_format_B2R 53 1024).
Qed.
Lemma huge_bpow : huge = B2R (Bmax_float : bf).
Proof.
  rewrite <- of_bf_R. unfold huge. change (B2SF (Bmax_float : bf)) with (S754_finite false 9007199254740991 971). cbn [fR].
  change 1023 with (52 + 971). rewrite powerRZ_add by lra. rewrite <- Rmult_assoc. f_equal. rewrite Rmult_minus_distr_r.
  rewrite <- powerRZ_add by lra. change (-52 + 52) with 0. change (powerRZ 2 52) with (2 ^ 52)%R. change (powerRZ 2 0) with 1%R. rewrite pow_IZR. rewrite <- mult_IZR, <- minus_IZR. f_equal.
Qed.
Lemma rnd_huge x : (Rabs x <= huge)%R -> (Rabs (rnd x) < bpow radix2 1024)%R.
Proof.
  intros H. rewrite huge_bpow in H.
  assert (K : (Rabs (rnd x) <= B2R (Bmax_float : bf))%R).
  { apply abs_round_le_generic; auto; try apply generic_format_B2R; try apply fexp_correct; try exact Hprec; apply valid_rnd_N. }
  eapply Rle_lt_trans; [exact K|]. eapply Rle_lt_trans; [apply Rle_abs|]. apply abs_B2R_lt_emax.
Qed.

(** ** The operations *)
Definition near_rnd (x y : R) : Prop := (Rabs (y - x) <= ulp2 * Rabs x + tiny /\ Rabs (y - x) <= ulp2 * Rabs y + tiny)%R.
Lemma rnd_near x : near_rnd x (rnd x). Proof. split; [apply rnd_err|apply rnd_err_inv]. Qed.
(** One rounding without underflow. *)
Definition rel_rnd (x y : R) : Prop := (Rabs (y - x) <= ulp2 * Rabs x /\ Rabs (y - x) <= ulp2 * Rabs y)%R.
Lemma plus_rel (x y : bf) : rel_rnd (B2R x + B2R y) (rnd (B2R x + B2R y)).
Proof.
  split.
  - destruct (rnd_plus x y) as (e & He & ->). replace ((B2R x + B2R y) * (1 + e) - (B2R x + B2R y))%R with ((B2R x + B2R y) * e)%R by ring.
    rewrite Rabs_mult. pose proof (Rabs_pos (B2R x + B2R y)). nra.
  - destruct (rnd_plus_inv x y) as (e & He & E). set (r := rnd _) in *. rewrite E.
    replace (r - r * (1 + e))%R with (- (r * e))%R by ring. rewrite Rabs_Ropp, Rabs_mult. pose proof (Rabs_pos r). nra.
Qed.

Lemma sf_add_fin x y : isfin (sf_add x y) = true -> isfin x = true /\ isfin y = true.
Proof. destruct x as [|[]| |], y as [|[]| |]; cbn; auto; discriminate. Qed.
Lemma sf_sub_fin x y : isfin (sf_sub x y) = true -> isfin x = true /\ isfin y = true.
Proof. destruct x as [|[]| |], y as [|[]| |]; cbn; auto; discriminate. Qed.
Lemma sf_mul_fin x y : isfin (sf_mul x y) = true -> isfin x = true /\ isfin y = true.
Proof. destruct x as [|[]| |], y as [|[]| |]; cbn; auto; discriminate. Qed.
Lemma sf_div_fin x y : isfin (sf_div x y) = true -> isfin x = true.
Proof. destruct x as [|[]| |], y as [|[]| |]; cbn; auto; discriminate. Qed.

Lemma overflow_inf s : isfin (binary_overflow 53 1024 mode_NE s) = false. Proof. reflexivity. Qed.

Lemma add_valid x y : sf_valid x = true -> sf_valid y = true -> sf_valid (sf_add x y) = true.
Proof. intros. bfs. rewrite add_eq. apply of_bf_valid. Qed.
Lemma add_ok x y : sf_valid x = true -> sf_valid y = true -> isfin (sf_add x y) = true -> rel_rnd (fR x + fR y) (fR (sf_add x y)).
Proof.
  intros Hx Hy H. destruct (sf_add_fin _ _ H) as [Fx Fy]. bfs. rewrite add_eq in *. rewrite !of_bf_R in *. rewrite of_bf_fin in Fx, Fy.
  pose proof (Bplus_correct 53 1024 Hprec Hmax mode_NE b0 b Fx Fy) as K. destruct (Rlt_bool _ _).
  - destruct K as (-> & _). apply plus_rel.
  - destruct K as (K & _). rewrite K in H. discriminate.
Qed.
Lemma add_fin x y : num x -> num y -> (Rabs (fR x + fR y) <= huge)%R -> num (sf_add x y).
Proof.
  intros [Hx Fx] [Hy Fy] H. split; [apply add_valid; auto|]. bfs. rewrite add_eq. rewrite !of_bf_R in *. rewrite of_bf_fin in *.
  pose proof (Bplus_correct 53 1024 Hprec Hmax mode_NE b0 b Fx Fy) as K. destruct (Rlt_bool_spec (Rabs (rnd (B2R b0 + B2R b))) (bpow radix2 1024)) as [L|L].
  - rewrite Rlt_bool_true in K by exact L. apply K.
  - apply rnd_huge in H. lra.
Qed.
Lemma sub_valid x y : sf_valid x = true -> sf_valid y = true -> sf_valid (sf_sub x y) = true.
Proof. intros. bfs. rewrite sub_eq. apply of_bf_valid. Qed.
Lemma sub_ok x y : sf_valid x = true -> sf_valid y = true -> isfin (sf_sub x y) = true -> rel_rnd (fR x - fR y) (fR (sf_sub x y)).
Proof.
  intros Hx Hy H. destruct (sf_sub_fin _ _ H) as [Fx Fy]. bfs. rewrite sub_eq in *. rewrite !of_bf_R in *. rewrite of_bf_fin in Fx, Fy.
  pose proof (Bminus_correct 53 1024 Hprec Hmax mode_NE b0 b Fx Fy) as K. destruct (Rlt_bool _ _).
  - destruct K as (-> & _). unfold Rminus. rewrite <- (B2R_Bopp _ _ b). apply plus_rel.
  - destruct K as (K & _). rewrite K in H. discriminate.
Qed.
Lemma sub_fin x y : num x -> num y -> (Rabs (fR x - fR y) <= huge)%R -> num (sf_sub x y).
Proof.
  intros [Hx Fx] [Hy Fy] H. split; [apply sub_valid; auto|]. bfs. rewrite sub_eq. rewrite !of_bf_R in *. rewrite of_bf_fin in *.
  pose proof (Bminus_correct 53 1024 Hprec Hmax mode_NE b0 b Fx Fy) as K. destruct (Rlt_bool_spec (Rabs (rnd (B2R b0 - B2R b))) (bpow radix2 1024)) as [L|L].
  - rewrite Rlt_bool_true in K by exact L. apply K.
  - apply rnd_huge in H. lra.
Qed.
Lemma mul_valid x y : sf_valid x = true -> sf_valid y = true -> sf_valid (sf_mul x y) = true.
Proof. intros. bfs. rewrite mul_eq. apply of_bf_valid. Qed.
Lemma mul_ok x y : sf_valid x = true -> sf_valid y = true -> isfin (sf_mul x y) = true -> near_rnd (fR x * fR y) (fR (sf_mul x y)).
Proof.
  intros Hx Hy H. destruct (sf_mul_fin _ _ H) as [Fx Fy]. bfs. rewrite mul_eq in *. rewrite !of_bf_R in *.
  pose proof (Bmult_correct 53 1024 Hprec Hmax mode_NE b0 b) as K. destruct (Rlt_bool _ _).
  - destruct K as (-> & _). apply rnd_near.
  - rewrite K in H. discriminate.
Qed.
Lemma mul_fin x y : num x -> num y -> (Rabs (fR x * fR y) <= huge)%R -> num (sf_mul x y).
Proof.
  intros [Hx Fx] [Hy Fy] H. split; [apply mul_valid; auto|]. bfs. rewrite mul_eq. rewrite !of_bf_R in *. rewrite of_bf_fin in *.
  pose proof (Bmult_correct 53 1024 Hprec Hmax mode_NE b0 b) as K. destruct (Rlt_bool_spec (Rabs (rnd (B2R b0 * B2R b))) (bpow radix2 1024)) as [L|L].
  - rewrite Rlt_bool_true in K by exact L. destruct K as (_ & -> & _). rewrite Fx, Fy. reflexivity.
  - apply rnd_huge in H. lra.
Qed.
Lemma div_valid x y : sf_valid x = true -> sf_valid y = true -> sf_valid (sf_div x y) = true.
Proof. intros. bfs. rewrite div_eq. apply of_bf_valid. Qed.
Lemma div_ok x y : sf_valid x = true -> sf_valid y = true -> isfin (sf_div x y) = true -> fR y <> 0%R -> near_rnd (fR x / fR y) (fR (sf_div x y)).
Proof.
  intros Hx Hy H Ny. bfs. rewrite div_eq in *. rewrite !of_bf_R in *.
  pose proof (Bdiv_correct 53 1024 Hprec Hmax mode_NE b0 b Ny) as K. destruct (Rlt_bool _ _).
  - destruct K as (-> & _). apply rnd_near.
  - rewrite K in H. discriminate.
Qed.
Lemma div_fin x y : num x -> num y -> fR y <> 0%R -> (Rabs (fR x / fR y) <= huge)%R -> num (sf_div x y).
Proof.
  intros [Hx Fx] [Hy Fy] Ny H. split; [apply div_valid; auto|]. bfs. rewrite div_eq. rewrite !of_bf_R in *. rewrite of_bf_fin in *.
  pose proof (Bdiv_correct 53 1024 Hprec Hmax mode_NE b0 b Ny) as K. destruct (Rlt_bool_spec (Rabs (rnd (B2R b0 / B2R b))) (bpow radix2 1024)) as [L|L].
  - rewrite Rlt_bool_true in K by exact L. destruct K as (_ & -> & _). exact Fx.
  - apply rnd_huge in H. lra.
Qed.
Lemma sqrt_valid x : sf_valid x = true -> sf_valid (sf_sqrt x) = true.
Proof. intros. bfs. rewrite sqrt_eq. apply of_bf_valid. Qed.
Lemma sqrt_ok x : sf_valid x = true -> near_rnd (sqrt (fR x)) (fR (sf_sqrt x)).
Proof.
  intros H. bfs. rewrite sqrt_eq in *. rewrite !of_bf_R in *.
  destruct (Bsqrt_correct 53 1024 Hprec Hmax mode_NE b) as (-> & _). apply rnd_near.
Qed.
Lemma sqrt_isfin x : num x -> (0 <= fR x)%R -> num (sf_sqrt x).
Proof.
  intros [H F] P. split; [apply sqrt_valid; auto|]. bfs. rewrite sqrt_eq, of_bf_fin in *. rewrite of_bf_R in P.
  destruct (Bsqrt_correct 53 1024 Hprec Hmax mode_NE b) as (_ & -> & _). destruct b as [| | |[] m e Hb]; auto; try discriminate.
  exfalso. cbn in P. pose proof (F2R_lt_0 radix2 (Float radix2 (Z.neg m) e) ltac:(cbn; lia)). lra.
Qed.
Lemma sqrt_nonneg x : isfin (sf_sqrt x) = true -> (0 <= fR x)%R.
Proof.
  destruct x as [|[]| |[] m e]; cbn; intros; try discriminate; try lra. apply Rmult_le_pos; [apply IZR_le; lia|]. apply powerRZ_le. lra.
Qed.
Lemma opp_ok x : fR (SFopp x) = (- fR x)%R.
Proof. destruct x as [| | |[] m e]; cbn; try lra; rewrite <- Ropp_mult_distr_l_reverse, <- opp_IZR; reflexivity. Qed.
Lemma abs_ok x : fR (SFabs x) = Rabs (fR x).
Proof.
  destruct x as [| | |s m e]; cbn; try (rewrite Rabs_R0; reflexivity). rewrite Rabs_mult. 
  rewrite (Rabs_right (powerRZ 2 e)) by (apply Rle_ge, powerRZ_le; lra). f_equal. rewrite <- abs_IZR. destruct s; reflexivity.
Qed.
Lemma opp_num x : num x -> num (SFopp x). Proof. intros [H F]. split; [|destruct x; auto]. destruct x; exact H. Qed.
Lemma abs_num x : num x -> num (SFabs x). Proof. intros [H F]. split; [|destruct x; auto]. destruct x; exact H. Qed.
(** Comparison is that of the reals. *)
Lemma ltb_ok x y : num x -> num y -> SFltb x y = true <-> (fR x < fR y)%R.
Proof.
  intros [Hx Fx] [Hy Fy]. bfs. rewrite of_bf_fin in *. rewrite !of_bf_R. unfold SFltb.
  pose proof (Bcompare_correct 53 1024 b0 b Fx Fy) as K. change (Bcompare b0 b) with (SFcompare (B2SF b0) (B2SF b)) in K. rewrite K.
  destruct (Rcompare_spec (B2R b0) (B2R b)); split; intros; auto; try discriminate; lra.
Qed.
Lemma leb_ok x y : num x -> num y -> SFleb x y = true <-> (fR x <= fR y)%R.
Proof.
  intros [Hx Fx] [Hy Fy]. bfs. rewrite of_bf_fin in *. rewrite !of_bf_R. unfold SFleb.
  pose proof (Bcompare_correct 53 1024 b0 b Fx Fy) as K. change (Bcompare b0 b) with (SFcompare (B2SF b0) (B2SF b)) in K. rewrite K.
  destruct (Rcompare_spec (B2R b0) (B2R b)); split; intros; auto; try discriminate; lra.
Qed.
Lemma eqb_ok x y : num x -> num y -> SFeqb x y = true <-> (fR x = fR y)%R.
Proof.
  intros [Hx Fx] [Hy Fy]. bfs. rewrite of_bf_fin in *. rewrite !of_bf_R. unfold SFeqb.
  pose proof (Bcompare_correct 53 1024 b0 b Fx Fy) as K. change (Bcompare b0 b) with (SFcompare (B2SF b0) (B2SF b)) in K. rewrite K.
  destruct (Rcompare_spec (B2R b0) (B2R b)); split; intros; auto; try discriminate; lra.
Qed.
(** A square root never underflows. *)
Lemma rnd_rel x : (bpow radix2 (-1074 + 53 - 1) <= Rabs x)%R -> rel_rnd x (rnd x).
Proof.
  intros H. split; rewrite ulp2_bpow.
  - exact (relative_error_N_FLT radix2 (-1074) 53 eq_refl (fun x => negb (Z.even x)) x H).
  - exact (relative_error_N_FLT_round radix2 (-1074) 53 eq_refl (fun x => negb (Z.even x)) x H).
Qed.
Lemma sqrt_rel x : sf_valid x = true -> isfin (sf_sqrt x) = true -> rel_rnd (sqrt (fR x)) (fR (sf_sqrt x)).
Proof.
  intros Hx H. pose proof (sqrt_nonneg x H) as P. bfs. rewrite sqrt_eq in *. rewrite !of_bf_R in *.
  destruct (Bsqrt_correct 53 1024 Hprec Hmax mode_NE b) as (-> & _). destruct (Req_dec (B2R b) 0) as [E|E].
  - rewrite E, sqrt_0, round_0 by apply valid_rnd_N. split; rewrite Rminus_0_r, Rabs_R0; lra.
  - apply rnd_rel. rewrite Rabs_right by (apply Rle_ge, sqrt_pos).
    assert (K : (bpow radix2 (-1074) <= B2R b)%R).
    { replace (B2R b) with (Rabs (B2R b)) by (apply Rabs_right; lra). apply (abs_B2R_ge_emin 53 1024).
      destruct b; try (exfalso; apply E; reflexivity). reflexivity. }
    change (-1074) with (-537 + -537) in K at 1. rewrite bpow_plus in K.
    apply Rle_trans with (bpow radix2 (-537)); [apply bpow_le; lia|].
    rewrite <- (sqrt_square (bpow radix2 (-537))) by apply bpow_ge_0. apply sqrt_le_1_alt. exact K.
Qed.

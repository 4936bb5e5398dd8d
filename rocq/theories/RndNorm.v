(** Rounding errors of the distances and the matrix norms in float64. *)
From Coq Require Import ZArith List Reals Lia Lra Bool Permutation Floats.SpecFloat.
From Flocq.IEEE754 Require Import BinarySingleNaN.
From Flocq Require Import Core.
From Verif Require Import Base BaseLemmas Scalar Vector VecSpec VectorFacts Matrix Array2D BlockM Diagonal RealMatrixM MatSpec MatFacts Array2DFacts MatrixOps MatProps WalkFacts Float64 VecProps RealOps RSum RealMat RealMat3 RndSpec FloatR RndSum RndMat RndDetSpec.
Import ListNotations.
Open Scope Z_scope.

(** The square of a rounded square root. *)
Lemma sqrt_apx k s t z : apx k s s t z -> sf_valid (sf_sqrt z) = true /\
  (isfin (sf_sqrt z) = true -> (0 <= fR (sf_sqrt z) /\ Rabs (fR (sf_sqrt z) * fR (sf_sqrt z) - s) <= (gw (S (S k)) - 1) * s + gw (S (S k)) * t)%R).
Proof.
  intros (V & P & T & H3 & _). split; [apply sqrt_valid; auto|]. intros F.
  pose proof (sqrt_nonneg z F) as Z0. assert (Fz : isfin z = true). { clear - F. destruct z as [|[]| |[] ? ?]; auto; discriminate. }
  specialize (H3 Fz). destruct (sqrt_rel z V F) as [K _]. pose proof ulp2_pos as U. pose proof ulp2_small as U4. pose proof (sqrt_pos (fR z)) as Q. rewrite (Rabs_right (sqrt _)) in K by lra.
  assert (E : (sqrt (fR z) * sqrt (fR z) = fR z)%R) by (apply sqrt_sqrt; auto).
  set (q := sqrt (fR z)) in *. clearbody q. set (y := fR (sf_sqrt z)) in *. clearbody y. set (w := fR z) in *. clearbody w. clear F Fz V z. subst w.
  rewrite !gw_S. set (g := gw k) in *. pose proof (gw_ge1 k) as G. fold g in G. clearbody g.
  apply Rabs_le_inv in K. split; [nra|].
  assert (S0 : (0 <= s)%R) by (pose proof (Rabs_pos s); pose proof (Rle_abs s); assert (0 <= q * q)%R by nra; apply Rabs_le_inv in P; lra).
  apply Rabs_le_inv in H3. apply Rabs_le.
  assert (Y1 : (y * y <= (1 + ulp2) * ((1 + ulp2) * (q * q)))%R) by nra.
  assert (Y2 : ((1 - ulp2) * ((1 - ulp2) * (q * q)) <= y * y)%R).
  { assert (Y3 : ((1 - ulp2) * q <= y)%R) by lra. assert (Y4 : (0 <= (1 - ulp2) * q)%R) by (apply Rmult_le_pos; lra).
    pose proof (Rmult_le_compat _ _ _ _ Y4 Y4 Y3 Y3). lra. }
  assert (Gs : (0 <= g * s)%R) by (apply Rmult_le_pos; lra). assert (Gt : (0 <= g * t)%R) by (apply Rmult_le_pos; lra).
  assert (W : (q * q <= g * s + g * t)%R) by lra. assert (W2 : (2 * s - g * s - g * t <= q * q)%R) by lra. assert (gs1 : (s <= g * s)%R) by nra.
  set (gsv := (g * s)%R) in *. set (gtv := (g * t)%R) in *.
  replace (((1 + ulp2) * ((1 + ulp2) * g) - 1) * s)%R with ((1 + ulp2) * ((1 + ulp2) * gsv) - s)%R by (unfold gsv; ring).
  replace ((1 + ulp2) * ((1 + ulp2) * g) * t)%R with ((1 + ulp2) * ((1 + ulp2) * gtv))%R by (unfold gtv; ring).
  clearbody gsv gtv. set (a := (q * q)%R) in *. clearbody a. set (b := (y * y)%R) in *. clearbody b.
  assert (X : ((1 + ulp2) * ((1 + ulp2) * a) <= (1 + ulp2) * ((1 + ulp2) * (gsv + gtv)))%R) by (apply Rmult_le_compat_l; [lra|]; apply Rmult_le_compat_l; lra).
  split; [|lra].
  assert (X2 : (a - b <= (2 * ulp2 + ulp2 * ulp2) * (gsv + gtv))%R).
  { assert (X3 : (a - b <= 2 * ulp2 * a)%R) by nra. nra. }
  nra.
Qed.

(** A difference, its absolute value and its square. *)
Lemma apx_sub x y : num x -> num y -> apx 1 (fR x - fR y) (Rabs (fR x - fR y)) 0 (sf_sub x y).
Proof.
  intros N N'. pose proof N as [V F]. pose proof N' as [V' F']. pose proof ulp2_pos as U. pose proof (Rabs_pos (fR x - fR y)) as P.
  assert (G : gw 1 = (1 + ulp2)%R) by (unfold gw; cbn [pow]; lra). unfold apx. rewrite G.
  split; [apply sub_valid; auto|]. split; [lra|]. split; [lra|]. split.
  - intros Fz. destruct (sub_ok x y V V' Fz) as [K _]. lra.
  - intros R. apply sub_fin; auto. nra.
Qed.
Lemma apx_abs d s a t y : apx d s a t y -> apx d (Rabs s) a t (SFabs y).
Proof.
  intros (V & H1 & H2 & H3 & H4). split; [destruct y; exact V|]. split; [rewrite Rabs_Rabsolu; auto|]. split; [auto|].
  assert (E : isfin (SFabs y) = isfin y) by (destruct y; auto). rewrite E. split; [|auto]. intros F. specialize (H3 F). rewrite abs_ok.
  eapply Rle_trans; [apply Rabs_triang_inv2|]. exact H3.
Qed.
Lemma apx_dsqr x y : num x -> num y -> apx 3 ((fR x - fR y) * (fR x - fR y)) ((fR x - fR y) * (fR x - fR y)) tiny (sf_mul (sf_sub x y) (sf_sub x y)).
Proof.
  intros N N'. destruct (apx_sub x y N N') as (V & _ & _ & H3 & H4). pose proof ulp2_pos as U. pose proof ulp2_small as U4. pose proof tiny_pos as T.
  set (s := (fR x - fR y)%R) in *. assert (P : (0 <= s * s)%R) by nra. set (z := sf_sub x y) in *.
  assert (G3 : gw 3 = ((1 + ulp2) * ((1 + ulp2) * (1 + ulp2)))%R) by (unfold gw; cbn [pow]; ring). assert (G1 : gw 1 = (1 + ulp2)%R) by (unfold gw; cbn [pow]; lra).
  rewrite G1 in H3, H4. unfold apx. rewrite G3.
  assert (B : isfin z = true -> (Rabs (fR z * fR z - s * s) <= (2 * ulp2 + ulp2 * ulp2) * (s * s))%R).
  { intros F. specialize (H3 F). replace (fR z * fR z - s * s)%R with ((fR z - s) * (fR z - s) + 2 * (fR z - s) * s)%R by ring.
    eapply Rle_trans; [apply Rabs_triang|]. rewrite !Rabs_mult. rewrite (Rabs_right 2) by lra. replace (s * s)%R with (Rabs s * Rabs s)%R by (rewrite <- Rabs_mult; apply Rabs_right; lra).
    pose proof (Rabs_pos (fR z - s)) as D. pose proof (Rabs_pos s) as S0. assert (D1 : (Rabs (fR z - s) <= ulp2 * Rabs s)%R) by lra.
    assert (Rabs (fR z - s) * Rabs (fR z - s) <= ulp2 * Rabs s * (ulp2 * Rabs s))%R by (apply Rmult_le_compat; auto).
    assert (Rabs (fR z - s) * Rabs s <= ulp2 * Rabs s * Rabs s)%R by (apply Rmult_le_compat_r; auto). lra. }
  split; [apply mul_valid; auto|]. split; [rewrite Rabs_right; lra|]. split; [lra|]. split.
  - intros F. destruct (sf_mul_fin _ _ F) as [Fz _]. specialize (B Fz). destruct (mul_ok z z V V F) as [K _].
    assert (B2 : (Rabs (fR z * fR z) <= (1 + 2 * ulp2 + ulp2 * ulp2) * (s * s))%R).
    { replace (fR z * fR z)%R with ((fR z * fR z - s * s) + s * s)%R by ring. eapply Rle_trans; [apply Rabs_triang|]. rewrite (Rabs_right (s * s)) by lra. lra. }
    replace (fR (sf_mul z z) - s * s)%R with ((fR (sf_mul z z) - fR z * fR z) + (fR z * fR z - s * s))%R by ring. eapply Rle_trans; [apply Rabs_triang|].
    assert (ulp2 * Rabs (fR z * fR z) <= ulp2 * ((1 + 2 * ulp2 + ulp2 * ulp2) * (s * s)))%R by (apply Rmult_le_compat_l; lra).
    assert (tiny <= (1 + ulp2) * ((1 + ulp2) * (1 + ulp2)) * tiny)%R by (assert (1 <= (1 + ulp2) * ((1 + ulp2) * (1 + ulp2)))%R by nra; nra). lra.
  - intros R. assert (C : ((1 + ulp2) * ((1 + ulp2) * (s * s)) <= huge)%R).
    { eapply Rle_trans; [|exact R]. assert (0 <= ulp2 * ((1 + ulp2) * ((1 + ulp2) * (s * s))))%R by (apply Rmult_le_pos; [lra|]; apply Rmult_le_pos; [lra|]; apply Rmult_le_pos; lra).
      assert (0 <= (1 + ulp2) * ((1 + ulp2) * (1 + ulp2)) * tiny)%R by (repeat apply Rmult_le_pos; lra). lra. }
    assert (Fz : isfin z = true).
    { apply H4. rewrite Rplus_0_r. destruct (Rle_lt_dec (Rabs s) 1) as [L|L].
      - pose proof (Rabs_pos s). assert (2 <= huge)%R by (unfold huge; assert (powerRZ 2 (-52) <= 1)%R; [change (powerRZ 2 (-52)) with (/ (2 ^ 52))%R; rewrite <- Rinv_1; apply Rinv_le_contravar; [lra|]; apply pow_R1_Rle; lra|];
          assert (2 <= powerRZ 2 1023)%R; [change (2 <= 2 ^ (1 + 1022))%R; rewrite pow_add; assert (1 <= 2 ^ 1022)%R by (apply pow_R1_Rle; lra); lra|]; nra). nra.
      - assert (E : (s * s)%R = (Rabs s * Rabs s)%R) by (rewrite <- Rabs_mult; symmetry; apply Rabs_right; lra). rewrite E in C.
        eapply Rle_trans; [|exact C]. assert (Rabs s <= Rabs s * Rabs s)%R by nra. assert (Rabs s <= (1 + ulp2) * (Rabs s * Rabs s))%R by nra. nra. }
    apply mul_fin; [split; auto..|]. eapply Rle_trans; [|exact C]. specialize (B Fz).
    replace (fR z * fR z)%R with ((fR z * fR z - s * s) + s * s)%R by ring. eapply Rle_trans; [apply Rabs_triang|]. rewrite (Rabs_right (s * s)) by lra. nra.
Qed.

(** Floats that are not negative: what absolute values and their sums are. *)
Definition up0 (x : sf) : Prop := match x with S754_zero _ => True | S754_infinity s => s = false | S754_nan => False | S754_finite s _ _ => s = false end.
Lemma up0_abs x : sf_isnan x = false -> up0 (SFabs x). Proof. destruct x; cbn; auto; discriminate. Qed.
Lemma up0_num_abs x : num x -> up0 (SFabs x). Proof. intros [_ F]. destruct x; cbn in *; auto; discriminate. Qed.
Lemma up0_R x : up0 x -> (0 <= fR x)%R.
Proof. destruct x as [| | |s m e]; cbn; intros H; try lra. subst s. apply Rmult_le_pos; [apply (IZR_le 0); lia|apply powerRZ_le; lra]. Qed.
Lemma aux_up0 m e l : sf_valid (SpecFloat.binary_round_aux 53 1024 false m e l) = true -> 0 < m -> 
  SpecFloat.binary_round_aux 53 1024 false m e l <> S754_nan -> up0 (SpecFloat.binary_round_aux 53 1024 false m e l).
Proof.
  intros _ _. unfold SpecFloat.binary_round_aux. destruct (SpecFloat.shr_fexp 53 1024 m e l) as [mrs' e'].
  destruct (SpecFloat.shr_fexp 53 1024 _ e' loc_Exact) as [mrs'' e'']. destruct (shr_m mrs''); cbn; auto. destruct (Zle_bool _ _); cbn; auto.
Qed.
Lemma up0_add x y : sf_valid x = true -> sf_valid y = true -> up0 x -> up0 y -> up0 (sf_add x y).
Proof.
  intros Vx Vy Hx Hy. pose proof (add_valid x y Vx Vy) as V.
  destruct x as [sx|sx| |sx mx ex], y as [sy|sy| |sy my ey]; cbn in Hx, Hy; try contradiction; subst; try (destruct sx); try (destruct sy); cbn; auto.
  set (z := sf_add (S754_finite false mx ex) (S754_finite false my ey)) in *. change (up0 z).
  assert (NN : z <> S754_nan).
  { intros E. destruct (to_bf _ Vx) as [bx Ebx]. destruct (to_bf _ Vy) as [by_ Eby]. unfold z in E. rewrite <- Ebx, <- Eby, add_eq in E.
    assert (Fx : is_finite bx = true) by (rewrite <- of_bf_fin, Ebx; auto). assert (Fy : is_finite by_ = true) by (rewrite <- of_bf_fin, Eby; auto).
    pose proof (Bplus_correct 53 1024 Hprec Hmax mode_NE bx by_ Fx Fy) as K. destruct (Rlt_bool _ _).
    - destruct K as (_ & K & _). rewrite <- of_bf_fin, E in K. discriminate.
    - destruct K as (K & _). rewrite E in K. discriminate. }
  unfold z, sf_add, SFadd in *. unfold SpecFloat.binary_normalize in *. cbn [cond_Zopp] in *.
  set (ez := Z.min ex ey) in *. set (m1 := fst (shl_align mx ex ez)) in *. set (m2 := fst (shl_align my ey ez)) in *.
  change (Z.pos m1 + Z.pos m2) with (Z.pos (m1 + m2)) in *. cbv iota in *. clear z. clearbody m1 m2 ez. unfold SpecFloat.binary_round in *.
  destruct (shl_align (m1 + m2) ez _) as [mz ez']. apply aux_up0; auto. lia.
Qed.
Lemma up0_fsum c n (g : Z -> sf) : 0 <= n -> (forall k, 0 <= k < n -> sf_valid (g k) = true /\ up0 (g k)) -> up0 (fsum (O := SFOps c) n g).
Proof.
  intros Hn H. unfold fsum. assert (G : forall m, (m <= Z.to_nat n)%nat -> sf_valid (accum (fun k s => sf_add s (g k)) m sf_zero) = true /\ up0 (accum (fun k s => sf_add s (g k)) m sf_zero)).
  { induction m as [|m IH]; intros Hm; [split; [reflexivity|exact I]|]. cbn [accum]. destruct (IH ltac:(lia)) as [A B]. destruct (H (Z.of_nat m) ltac:(lia)) as [C D].
    split; [apply add_valid; auto|apply up0_add; auto]. }
  apply (G (Z.to_nat n)). lia.
Qed.
Lemma sub_notnan x y : num x -> num y -> sf_isnan (sf_sub x y) = false.
Proof.
  intros [Vx Fx] [Vy Fy]. destruct (to_bf _ Vx) as [bx <-]. destruct (to_bf _ Vy) as [by_ <-]. rewrite of_bf_fin in *. rewrite sub_eq.
  pose proof (Bminus_correct 53 1024 Hprec Hmax mode_NE bx by_ Fx Fy) as K. destruct (Rlt_bool _ _).
  - destruct K as (_ & K & _). destruct (Bminus mode_NE bx by_); auto; discriminate.
  - destruct K as (K & _). rewrite K. reflexivity.
Qed.
(** The larger of two such floats. *)
Lemma max_up0 x y : sf_valid x = true -> sf_valid y = true -> up0 x -> up0 y ->
  sf_valid (sf_max x y) = true /\ up0 (sf_max x y) /\ isfin (sf_max x y) = isfin x && isfin y /\ (isfin (sf_max x y) = true -> fR (sf_max x y) = Rmax (fR x) (fR y)).
Proof.
  intros Vx Vy Hx Hy. destruct (isfin x) eqn:Fx; [destruct (isfin y) eqn:Fy|].
  - destruct (max_ok x y (Logic.conj Vx Fx) (Logic.conj Vy Fy)) as [[V F] E]. split; [auto|]. split; [|split; auto].
    unfold sf_max. destruct (_ || _); [reflexivity|]. destruct (_ || _) eqn:N; [destruct x, y; discriminate|]. destruct (_ && _); [destruct (sf_signbit x); auto|]. destruct (SFltb y x); auto.
  - assert (sf_ispinf y = true) by (destruct y as [|s| |]; try discriminate; try contradiction; cbn in Hy; subst; auto).
    unfold sf_max. rewrite H, orb_true_r. repeat split; auto; discriminate.
  - assert (sf_ispinf x = true) by (destruct x as [|s| |]; try discriminate; try contradiction; cbn in Hx; subst; auto).
    unfold sf_max. rewrite H. cbn. repeat split; auto; discriminate.
Qed.

Section API.
Variable c : Z.
Notation SO := (SFOps c).
Lemma fsum_S k (g : Z -> sf) : 0 <= k -> fsum (O := SO) (k + 1) g = sf_add (fsum (O := SO) k g) (g k).
Proof. intros Hk. unfold fsum. replace (Z.to_nat (k + 1)) with (S (Z.to_nat k)) by lia. cbn [accum]. rewrite Z2Nat.id by lia. reflexivity. Qed.
Lemma fl_distance (v w : @RealVector SO) n (f g : Z -> sf) : VecIs v n f -> VecIs w n g -> nums n f -> nums n g -> exists y, VecDistance v w = Ok y /\ sf_valid y = true /\
  (isfin y = true -> (0 <= fR y /\ Rabs (fR y * fR y - sq_dist n f g) <= gam (n + 4) * sq_dist n f g + IZR n * grow (n + 4) * tiny)%R).
Proof.
  intros Hv Hw Nf Ng. exists (sf_sqrt (fsum (O := SO) n (fun k => sf_mul (sf_sub (f k) (g k)) (sf_sub (f k) (g k))))). split; [exact (VectorFacts.VecDistance_spec v w n f g Hv Hw)|]. pose proof (VecIs_len c _ _ _ Hv) as Hn.
  assert (HS : apx (Z.to_nat n + 2) (sq_dist n f g) (sq_dist n f g) (IZR n * tiny) (fsum (O := SO) n (fun k => sf_mul (sf_sub (f k) (g k)) (sf_sub (f k) (g k))))).
  { unfold sq_dist. destruct (Z.eq_dec n 0) as [->|].
    - rewrite !Rs_nil by lia. rewrite Rmult_0_l. apply apx_zero.
    - destruct (sums_Rs c n ltac:(lia) 3%nat _ _ _ (fun _ => tiny) (fun k Hk => apx_dsqr _ _ (Nf k Hk) (Ng k Hk))) as (HS & _).
      replace (3 + Z.to_nat n - 1)%nat with (Z.to_nat n + 2)%nat in HS by lia. rewrite (Rs_const 0 n) in HS by lia. rewrite Z.sub_0_r in HS. exact HS. }
  destruct (sqrt_apx _ _ _ _ HS) as (V & K). split; [exact V|]. intros F. specialize (K F). destruct K as [K1 K2]. split; [exact K1|].
  unfold gam. rewrite grow_gw. replace (Z.to_nat (n + 4)) with (S (S (Z.to_nat n + 2))) by lia. lra.
Qed.
Lemma fl_l1dist (v w : @RealVector SO) n (f g : Z -> sf) : VecIs v n f -> VecIs w n g -> nums n f -> nums n g -> exists y, VecL1Distance v w = Ok y /\ sf_valid y = true /\
  (isfin y = true -> (Rabs (fR y - l1_dist n f g) <= gam n * l1_dist n f g)%R) /\ ((grow n * l1_dist n f g <= huge)%R -> isfin y = true).
Proof.
  intros Hv Hw Nf Ng. exists (fsum (O := SO) n (fun k => SFabs (sf_sub (f k) (g k)))). split; [exact (VectorFacts.VecL1Distance_spec v w n f g Hv Hw)|]. pose proof (VecIs_len c _ _ _ Hv) as Hn.
  assert (HS : apx (Z.to_nat n) (l1_dist n f g) (l1_dist n f g) 0 (fsum (O := SO) n (fun k => SFabs (sf_sub (f k) (g k))))).
  { unfold l1_dist. destruct (Z.eq_dec n 0) as [->|].
    - rewrite !Rs_nil by lia. apply apx_zero.
    - destruct (sums_Rs c n ltac:(lia) 1%nat _ _ _ (fun _ => 0%R) (fun k Hk => apx_abs _ _ _ _ _ (apx_sub _ _ (Nf k Hk) (Ng k Hk)))) as (HS & _).
      replace (1 + Z.to_nat n - 1)%nat with (Z.to_nat n) in HS by lia. rewrite (Rs_const 0 n) in HS by lia. rewrite Rmult_0_r in HS. exact HS. }
  destruct HS as (V & _ & _ & H3 & H4). split; [exact V|]. unfold gam. rewrite grow_gw. split.
  - intros F. specialize (H3 F). lra.
  - intros R. apply H4. rewrite Rplus_0_r. exact R.
Qed.
(** The largest of the absolute differences. *)
Lemma fl_linfdist (v w : @RealVector SO) n (f g : Z -> sf) : VecIs v n f -> VecIs w n g -> nums n f -> nums n g -> exists y, VecLInfDistance v w = Ok y /\ sf_valid y = true /\
  (isfin y = true -> (forall k, 0 <= k < n -> ((1 - ulp2) * Rabs (fR (f k) - fR (g k)) <= fR y)%R) /\
     (fR y = 0%R \/ exists k, 0 <= k < n /\ (fR y <= (1 + ulp2) * Rabs (fR (f k) - fR (g k)))%R)) /\
  ((forall k, 0 <= k < n -> (Rabs (fR (f k) - fR (g k)) <= huge)%R) -> isfin y = true).
Proof.
  intros Hv Hw Nf Ng. set (t := fun k => SFabs (sf_sub (f k) (g k))). exists (accum (fun k s => sf_max (t k) s) (Z.to_nat n) sf_zero). split; [exact (VectorFacts.VecLInfDistance_spec v w n f g Hv Hw)|]. pose proof (VecIs_len c _ _ _ Hv) as Hn.
  assert (T : forall k, 0 <= k < n -> sf_valid (t k) = true /\ up0 (t k)).
  { intros k Hk. split; [|apply up0_abs, sub_notnan; auto]. assert (V : sf_valid (sf_sub (f k) (g k)) = true) by (apply sub_valid; [apply (Nf k Hk)|apply (Ng k Hk)]). unfold t. destruct (sf_sub (f k) (g k)); exact V. }
  assert (TE : forall k, 0 <= k < n -> isfin (t k) = true -> (Rabs (fR (t k) - Rabs (fR (f k) - fR (g k))) <= ulp2 * Rabs (fR (f k) - fR (g k)))%R).
  { intros k Hk F. destruct (apx_abs _ _ _ _ _ (apx_sub _ _ (Nf k Hk) (Ng k Hk))) as (_ & _ & _ & H3 & _). fold (t k) in H3. specialize (H3 F). assert (G : gw 1 = (1 + ulp2)%R) by (unfold gw; cbn [pow]; lra). rewrite G in H3. lra. }
  assert (G : forall m, Z.of_nat m <= n -> let y := accum (fun k s => sf_max (t k) s) m sf_zero in
    sf_valid y = true /\ up0 y /\ (isfin y = true -> (forall k, 0 <= k < Z.of_nat m -> isfin (t k) = true /\ (fR (t k) <= fR y)%R) /\ (fR y = 0%R \/ exists k, 0 <= k < Z.of_nat m /\ fR y = fR (t k))) /\
    ((forall k, 0 <= k < Z.of_nat m -> isfin (t k) = true) -> isfin y = true)).
  { induction m as [|m IH]; intros Hm y.
    - split; [reflexivity|]. split; [exact I|]. split; [|reflexivity]. intros _. split; [intros; lia|left; reflexivity].
    - cbn [accum] in y. specialize (IH ltac:(lia)). cbv zeta in IH. destruct IH as (V & P & B & A). destruct (T (Z.of_nat m) ltac:(lia)) as [Tv Tp].
      set (z := accum (fun k s => sf_max (t k) s) m sf_zero) in *. destruct (max_up0 (t (Z.of_nat m)) z Tv V Tp P) as (V' & P' & F' & E'). fold y in V', P', F', E'.
      split; [exact V'|]. split; [exact P'|]. split.
      + intros F. rewrite F in F'. symmetry in F'. apply andb_prop in F'. destruct F' as [F1 F2]. destruct (B F2) as [B1 B2]. specialize (E' F).
        pose proof (Rmax_l (fR (t (Z.of_nat m))) (fR z)). pose proof (Rmax_r (fR (t (Z.of_nat m))) (fR z)). split.
        * intros k Hk. destruct (Z.eq_dec k (Z.of_nat m)) as [->|]; [split; [auto|lra]|]. destruct (B1 k ltac:(lia)). split; [auto|lra].
        * unfold Rmax in E'. destruct (Rle_dec _ _) as [L|L].
          -- destruct B2 as [B2|(k & Hk & B2)]; [left; lra|right]. exists k. split; [lia|lra].
          -- right. exists (Z.of_nat m). split; [lia|lra].
      + intros Ht. rewrite F', Ht by lia. cbn. apply A. intros; apply Ht; lia. }
  destruct (G (Z.to_nat n) ltac:(lia)) as (V & _ & B & A). rewrite Z2Nat.id in B, A by lia. split; [exact V|]. split.
  - intros F. destruct (B F) as [B1 B2]. split.
    + intros k Hk. destruct (B1 k Hk) as [F1 L1]. specialize (TE k Hk F1). apply Rabs_le_inv in TE. lra.
    + destruct B2 as [B2|(k & Hk & B2)]; [left; auto|right]. exists k. split; [auto|]. destruct (B1 k Hk) as [F1 _]. specialize (TE k Hk F1). apply Rabs_le_inv in TE. lra.
  - intros R. apply A. intros k Hk. unfold t. assert (N : num (sf_sub (f k) (g k))) by (apply sub_fin; auto). apply (abs_num _ N).
Qed.

(** ** Matrices *)
Definition sqs (f : Z -> Z -> sf) (cs : list (Z * Z)) (s : sf) : sf := fold_left (fun s '(i, j) => sf_add s (sf_mul (f i j) (f i j))) cs s.
Lemma sqs_visits cs (f : Z -> Z -> sf) : forall s : sf, visits (O := SO) frobVisitor cs f s = Ok (sqs f cs s).
Proof. induction cs as [|[i j] cs IH]; intros s; cbn [visits frobVisitor mv_visit bind]; [reflexivity|]. rewrite IH. reflexivity. Qed.
Lemma sqs_apx (f : Z -> Z -> sf) cs : (forall i j, In (i, j) cs -> num (f i j)) -> forall e s t z, (1 <= e)%nat -> apx e s s t z ->
  apx (e + length cs) (s + lsum (fun '(i, j) => fR (f i j) * fR (f i j))%R cs) (s + lsum (fun '(i, j) => fR (f i j) * fR (f i j))%R cs) (t + IZR (Z.of_nat (length cs)) * tiny) (sqs f cs z).
Proof.
  induction cs as [|[i j] cs IH]; intros N e s t z He H; cbn [length lsum fold_right sqs fold_left].
  - rewrite Nat.add_0_r, Rmult_0_l, !Rplus_0_r. exact H.
  - fold (lsum (fun '(i, j) => fR (f i j) * fR (f i j))%R cs)%R. fold (sqs f cs (sf_add z (sf_mul (f i j) (f i j)))).
    assert (K : apx (S e) (s + fR (f i j) * fR (f i j)) (s + fR (f i j) * fR (f i j)) (t + tiny) (sf_add z (sf_mul (f i j) (f i j)))).
    { apply apx_add; [exact H|]. apply (apx_mono 1); [lia|]. apply apx_sqr. apply N. left; auto. }
    specialize (IH (fun i j Hij => N i j (or_intror Hij)) (S e) _ _ _ ltac:(lia) K). rewrite <- !Rplus_assoc. rewrite Nat2Z.inj_succ. unfold Z.succ. rewrite plus_IZR.
    replace (e + S (length cs))%nat with (S e + length cs)%nat by lia. replace (t + (IZR (Z.of_nat (length cs)) + 1) * tiny)%R with (t + tiny + IZR (Z.of_nat (length cs)) * tiny)%R by ring. exact IH.
Qed.
Lemma fl_frobenius (m : @RealMatrix SO) r q (f : Z -> Z -> sf) : library m -> MatIs m r q f -> 1 <= r -> 1 <= q -> nums2 r q f -> exists y, MatFrobeniusNorm m = Ok y /\ sf_valid y = true /\
  (isfin y = true -> (0 <= fR y /\ Rabs (fR y * fR y - sq_sum r q f) <= gam (r * q + 2) * sq_sum r q f + IZR (r * q) * grow (r * q + 2) * tiny)%R).
Proof.
  intros Hl H Hr Hq N. unfold MatFrobeniusNorm. rewrite (m_Walk_ok OptimizedOrder m r q f frobVisitor fzero Hl H). unfold read_result.
  cbn [mv_start frobVisitor]. rewrite sqs_visits. cbn [bind snd mv_end frobVisitor]. change (@fzero SO) with sf_zero. change (@fsqrt SO) with sf_sqrt.
  pose proof (walk_order_perm OptimizedOrder m 0 (r - 1) 0 (q - 1) ltac:(lia) ltac:(lia)) as P. set (cs := walk_order OptimizedOrder m 0 (r - 1) 0 (q - 1)) in *.
  assert (In1 : forall i j, In (i, j) cs -> num (f i j)).
  { intros i j Hij. apply (Permutation_in _ P) in Hij. apply in_row_order in Hij. apply N; lia. }
  assert (EL : lsum (fun '(i, j) => fR (f i j) * fR (f i j))%R cs = sq_sum r q f).
  { rewrite (lsum_perm _ _ _ P). rewrite (lsum_rows r q (fun i j => fR (f i j) * fR (f i j))%R). reflexivity. }
  assert (LN : Z.of_nat (length cs) = r * q).
  { rewrite (Permutation_length P). unfold row_order. replace (r - 1 + 1) with r by lia. replace (q - 1 + 1) with q by lia.
    assert (LR : forall lo hi, lo <= hi -> Z.of_nat (length (range lo hi)) = hi - lo) by
      (intros lo hi Hlh; unfold range; assert (GR : forall k a, length (range_nat a k) = k) by (induction k as [|k IHk]; intros a; cbn; auto); rewrite GR; lia).
    assert (G : forall l : list Z, Z.of_nat (length (flat_map (fun i => map (fun j => (i, j)) (range 0 q)) l)) = Z.of_nat (length l) * q).
    { induction l as [|a l IHl]; [reflexivity|]. cbn [flat_map length]. rewrite app_length, map_length, Nat2Z.inj_add, IHl, (LR 0 q) by lia. lia. }
    rewrite G, LR by lia. lia. }
  exists (sf_sqrt (sqs f cs sf_zero)). split; [reflexivity|].
  assert (K : apx (length cs) (sq_sum r q f) (sq_sum r q f) (IZR (r * q) * tiny) (sqs f cs sf_zero)).
  { rewrite <- EL, <- LN. clear EL LN P. destruct cs as [|[i j] cs]; [cbn [length lsum fold_right sqs fold_left]; rewrite Rmult_0_l; apply apx_zero|].
    cbn [length lsum fold_right sqs fold_left]. fold (lsum (fun '(i, j) => fR (f i j) * fR (f i j))%R cs)%R. fold (sqs f cs (sf_add sf_zero (sf_mul (f i j) (f i j)))).
    pose proof (sqs_apx f cs (fun i j Hij => In1 i j (or_intror Hij)) 1 _ _ _ ltac:(lia) (apx_zadd _ _ _ _ _ (apx_sqr _ (In1 i j (or_introl eq_refl))))) as K.
    cbn [Nat.add] in K. rewrite Nat2Z.inj_succ. unfold Z.succ. rewrite plus_IZR. replace ((IZR (Z.of_nat (length cs)) + 1) * tiny)%R with (tiny + IZR (Z.of_nat (length cs)) * tiny)%R by ring. exact K. }
  destruct (sqrt_apx _ _ _ _ K) as (V & K2). split; [exact V|]. intros F. destruct (K2 F) as [K3 K4]. split; [exact K3|].
  unfold gam. rewrite grow_gw. replace (Z.to_nat (r * q + 2)) with (S (S (length cs))) by lia. lra.
Qed.
(** The largest column sum. *)
Definition colS (f : Z -> Z -> sf) (r j : Z) : sf := fsum (O := SO) r (fun i => SFabs (f i j)).
Lemma norm_col_sf r (f : Z -> Z -> sf) j (mx : sf) : 1 <= r ->
  visits (O := SO) normVisitor (map (fun i => (i, j)) (range 0 r)) f (r - 1, sf_zero, mx) = Ok (r - 1, sf_zero, sf_max mx (colS f r j)).
Proof.
  intros Hr. assert (G : forall k, 0 <= k <= r - 1 -> visits (O := SO) normVisitor (map (fun i => (i, j)) (range 0 k)) f (r - 1, sf_zero, mx) = Ok (r - 1, fsum (O := SO) k (fun i => SFabs (f i j)), mx)).
  { intros k [Hk0 Hk]. revert Hk. apply (Rs_ind (fun k => k <= r - 1 -> visits (O := SO) normVisitor (map (fun i => (i, j)) (range 0 k)) f (r - 1, sf_zero, mx) = Ok (r - 1, fsum (O := SO) k (fun i => SFabs (f i j)), mx)) 0 k Hk0).
    - intros _. rewrite range_nil by lia. reflexivity.
    - intros k' Hk' IH Hle. rewrite (range_app 0 k' (k' + 1)), map_app, visits_app, IH by lia. rewrite range_step, range_nil by lia. cbn [map visits normVisitor mv_visit bind].
      destruct (Z.eqb_spec k' (r - 1)); [lia|]. cbn [bind]. rewrite (fsum_S k') by lia. reflexivity. }
  rewrite (range_app 0 (r - 1) r), map_app, visits_app, G by lia. rewrite range_step, range_nil by lia. cbn [map visits normVisitor mv_visit bind].
  rewrite Z.eqb_refl. cbn [bind]. unfold colS.
  replace (fsum (O := SO) r (fun i => SFabs (f i j))) with (sf_add (fsum (O := SO) (r - 1) (fun i => SFabs (f i j))) (SFabs (f (r - 1) j))) by (rewrite <- (fsum_S (r - 1) (fun i => SFabs (f i j))) by lia; f_equal; lia). reflexivity.
Qed.
Lemma fl_matlinf (m : @RealMatrix SO) r q (f : Z -> Z -> sf) : library m -> MatIs m r q f -> 1 <= r -> 1 <= q -> nums2 r q f -> exists y, MatLInfNorm m = Ok y /\ sf_valid y = true /\
  (isfin y = true -> (forall j, 0 <= j < q -> ((1 - gam r) * col_abs r f j <= fR y)%R) /\ exists j, 0 <= j < q /\ (fR y <= grow r * col_abs r f j)%R) /\
  ((forall j, 0 <= j < q -> (grow r * col_abs r f j <= huge)%R) -> isfin y = true).
Proof.
  intros Hl H Hr Hq N. unfold MatLInfNorm. rewrite (m_Walk_ok ColumnOrder m r q f normVisitor _ Hl H). unfold read_result. cbn [walk_order].
  change (mv_start normVisitor r q 0 (r - 1) 0 (q - 1) (0, @fzero SO, @fzero SO)) with (r - 1, sf_zero, sf_zero).
  unfold column_order. replace (r - 1 + 1) with r by lia. replace (q - 1 + 1) with q by lia.
  assert (T : forall j, 0 <= j < q -> sf_valid (colS f r j) = true /\ up0 (colS f r j) /\ (isfin (colS f r j) = true -> (Rabs (fR (colS f r j) - col_abs r f j) <= gam r * col_abs r f j)%R) /\
    ((grow r * col_abs r f j <= huge)%R -> isfin (colS f r j) = true)).
  { intros j Hj. destruct (fsum_close c r (fun i => SFabs (f i j)) ltac:(lia)) as (V & K1 & K2); [intros i Hi; apply abs_num, N; auto|]. fold (colS f r j) in *.
    assert (E1 : Rs 0 r (fun i => fR (SFabs (f i j))) = col_abs r f j) by (apply Rs_ext; intros; apply abs_ok).
    assert (E2 : Rs 0 r (fun i => Rabs (fR (SFabs (f i j)))) = col_abs r f j) by (apply Rs_ext; intros; rewrite abs_ok; apply Rabs_Rabsolu).
    unfold sum_close in K1. rewrite E1, E2 in K1. rewrite E2 in K2. split; [exact V|]. split; [|auto]. apply up0_fsum; [lia|]. intros i Hi. split; [apply (abs_num _ (N i j Hi Hj))|apply up0_num_abs; auto]. }
  assert (G : forall k, 0 <= k <= q -> exists mx, visits (O := SO) normVisitor (flat_map (fun j => map (fun i => (i, j)) (range 0 r)) (range 0 k)) f (r - 1, sf_zero, sf_zero) = Ok (r - 1, sf_zero, mx) /\
     sf_valid mx = true /\ up0 mx /\ (isfin mx = true -> (forall j, 0 <= j < k -> isfin (colS f r j) = true /\ (fR (colS f r j) <= fR mx)%R) /\ (k = 0 /\ fR mx = 0%R \/ exists j, 0 <= j < k /\ fR mx = fR (colS f r j))) /\
     ((forall j, 0 <= j < k -> isfin (colS f r j) = true) -> isfin mx = true)).
  { intros k [Hk0 Hk]. revert Hk. apply (Rs_ind (fun k => k <= q -> exists mx, visits (O := SO) normVisitor (flat_map (fun j => map (fun i => (i, j)) (range 0 r)) (range 0 k)) f (r - 1, sf_zero, sf_zero) = Ok (r - 1, sf_zero, mx) /\
     sf_valid mx = true /\ up0 mx /\ (isfin mx = true -> (forall j, 0 <= j < k -> isfin (colS f r j) = true /\ (fR (colS f r j) <= fR mx)%R) /\ (k = 0 /\ fR mx = 0%R \/ exists j, 0 <= j < k /\ fR mx = fR (colS f r j))) /\
     ((forall j, 0 <= j < k -> isfin (colS f r j) = true) -> isfin mx = true)) 0 k Hk0).
    - intros _. exists sf_zero. rewrite (range_nil 0 0) by lia. cbn [flat_map visits]. split; [auto|]. split; [reflexivity|]. split; [exact I|]. split; [|reflexivity]. intros _. split; [intros; lia|left; split; reflexivity].
    - intros k' Hk' IH Hle. destruct (IH ltac:(lia)) as (mx & E & V & P & B & A). rewrite (range_app 0 k' (k' + 1)), flat_map_app, visits_app, E by lia. cbn [bind].
      rewrite (range_step k' (k' + 1)), (range_nil (k' + 1) (k' + 1)) by lia. cbn [flat_map]. rewrite app_nil_r. rewrite norm_col_sf by auto.
      destruct (T k' ltac:(lia)) as (Tv & Tp & _ & _). destruct (max_up0 mx (colS f r k') V Tv P Tp) as (V' & P' & F' & E').
      exists (sf_max mx (colS f r k')). split; [auto|]. split; [auto|]. split; [auto|]. split.
      + intros F. rewrite F in F'. symmetry in F'. apply andb_prop in F'. destruct F' as [F1 F2]. destruct (B F1) as [B1 B2]. specialize (E' F).
        pose proof (Rmax_l (fR mx) (fR (colS f r k'))) as M1. pose proof (Rmax_r (fR mx) (fR (colS f r k'))) as M2. split.
        * intros j Hj. destruct (Z.eq_dec j k') as [->|]; [split; [auto|lra]|]. destruct (B1 j ltac:(lia)). split; [auto|lra].
        * right. destruct (Rle_dec (fR mx) (fR (colS f r k'))) as [L|L].
          -- rewrite Rmax_right in E' by auto. exists k'. split; [lia|auto].
          -- rewrite Rmax_left in E' by lra. destruct B2 as [[-> B2]|(j & Hj & B2)].
             ++ pose proof (up0_R _ Tp). lra.
             ++ exists j. split; [lia|lra].
      + intros Ht. rewrite F', Ht by lia. rewrite andb_true_r. apply A. intros; apply Ht; lia. }
  destruct (G q ltac:(lia)) as (mx & E & V & _ & B & A). rewrite E. cbn [bind snd mv_end normVisitor].
  exists mx. split; [auto|]. split; [auto|]. split.
  - intros F. destruct (B F) as [B1 B2]. split.
    + intros j Hj. destruct (B1 j Hj) as [F1 L1]. destruct (T j Hj) as (_ & _ & K & _). specialize (K F1). apply Rabs_le_inv in K. lra.
    + destruct B2 as [[K _]|(j & Hj & B2)]; [lia|]. exists j. split; [auto|]. destruct (B1 j Hj) as [F1 _]. destruct (T j Hj) as (_ & _ & K & _). specialize (K F1). apply Rabs_le_inv in K. unfold gam in K. lra.
  - intros R. apply A. intros j Hj. apply (T j Hj). auto.
Qed.
End API.

(** Termination of the singular value iteration in exact arithmetic when the
    smaller dimension is at most two. *)
From Coq Require Import Reals ZArith QArith List Lia Lra Bool.
From Verif Require Import Base BaseLemmas Scalar Vector VecSpec VectorFacts Matrix MatSpec MatFacts TabTac FSum RealOps RSum Tri House QR QRSpec QRFacts QRReal QRReal2 CholFacts HessReal Frob EigenFacts SchurReal SVD SVDFacts SVDFacts2 SVDFacts3 SVDReal SVDReal2 SVDReal3 SVDReal4 SVDReal5 SVDReal6 SVDOrder BidiagFacts.
Open Scope Z_scope.

(** The shift is an eigenvalue shift of the trailing block: with one block of
    order two, a single step makes the off-diagonal entry zero. *)
Lemma shift_root (s0 s1 e : R) : s0 <> 0%R -> s1 <> 0%R -> e <> 0%R ->
  let b := (((s0 + s1) * (s0 - s1) + e * e) / 2)%R in let c := (s1 * e * (s1 * e))%R in
  let s := sqrt (b * b + c) in let s' := if Rltb b 0 then (- s)%R else s in let h := (c / (b + s'))%R in
  (h * h + 2 * b * h - c = 0)%R.
Proof.
  intros H0 H1 He b c s s' h. assert (Hc : (0 < c)%R). { unfold c. apply Rsqr_pos_lt. intros K. apply Rmult_integral in K. destruct K; auto. }
  assert (Hbc : (0 < b * b + c)%R) by (pose proof (Rle_0_sqr b); unfold Rsqr in *; lra). assert (Hs : (0 < s)%R) by (apply sqrt_lt_R0; auto).
  assert (Ess : (s * s = b * b + c)%R) by (apply sqrt_sqrt; lra). assert (E' : (s' * s' = b * b + c)%R) by (unfold s'; destruct (Rltb b 0); lra).
  assert (Hd : (b + s' <> 0)%R). { unfold s'. destruct (Rltb b 0) eqn:L; [apply Rltb_true in L|apply Rltb_false in L]; lra. }
  unfold h. replace c with (s' * s' - b * b)%R by lra. field. auto.
Qed.

Lemma deflate_alg (s0 s1 e f g t1 t2 : R) : t1 <> 0%R -> t2 <> 0%R -> ((f * f - g * g) * (s0 * e) + f * g * (e * e + s1 * s1 - s0 * s0) = 0)%R ->
  ((f / t1 * s0 + g / t1 * e) / t2 * (f / t1 * e - g / t1 * s0) + (g / t1 * s1) / t2 * (f / t1 * s1) = 0)%R.
Proof.
  intros H1 H2 K. replace (_ + _)%R with (((f * f - g * g) * (s0 * e) + f * g * (e * e + s1 * s1 - s0 * s0)) / (t1 * t1 * t2))%R by (field; auto).
  rewrite K. unfold Rdiv. ring.
Qed.
Lemma deflate_shift (s0 s1 e sc : R) : sc <> 0%R -> s0 <> 0%R -> s1 <> 0%R -> e <> 0%R ->
  let b := (((s0 / sc + s1 / sc) * (s0 / sc - s1 / sc) + e / sc * (e / sc)) / 2)%R in let c := (s1 / sc * (e / sc) * (s1 / sc * (e / sc)))%R in
  let s := sqrt (b * b + c) in let s' := if Rltb b 0 then (- s)%R else s in let h := (c / (b + s'))%R in
  let f := ((s0 / sc + s1 / sc) * (s0 / sc - s1 / sc) + h)%R in let g := (s0 / sc * (e / sc))%R in
  ((f * f - g * g) * (s0 * e) + f * g * (e * e + s1 * s1 - s0 * s0) = 0)%R.
Proof.
  intros Hsc H0 H1 He. set (x := (s0 / sc)%R). set (y := (s1 / sc)%R). set (z := (e / sc)%R).
  assert (Ex : (s0 = sc * x)%R) by (unfold x; field; auto). assert (Ey : (s1 = sc * y)%R) by (unfold y; field; auto). assert (Ez : (e = sc * z)%R) by (unfold z; field; auto).
  intros b c s s' h f g. pose proof (shift_root x y z) as K. cbv zeta in K. fold b c s s' h in K.
  assert (h * h + 2 * b * h - c = 0)%R as K' by (apply K; intros Z0; [apply H0; rewrite Ex|apply H1; rewrite Ey|apply He; rewrite Ez]; rewrite Z0; ring). clear K.
  rewrite Ex, Ey, Ez. unfold g. transitivity (sc * sc * (x * z) * (h * h + 2 * b * h - c))%R; [|rewrite K'; ring].
  unfold f, b, c. field.
Qed.
Lemma deflate2 m S E U V : S 0 <> 0%R -> S 1 <> 0%R -> E 0 <> 0%R -> it_E (c3_fin (O := ROps) m 2 0 S E U V) 0 = 0%R.
Proof.
  intros H0 H1 He. unfold c3_fin. cbn [it_E]. unfold vset. change (0 =? 2 - 2) with true. cbv iota.
  unfold c3_iter. change (Z.to_nat (2 - 1 - 0)) with 1%nat. unfold accum. change (0 + Z.of_nat 0) with 0. unfold c3_left, c3_right. cbn [it_S it_E it_U it_V it_f it_g].
  change (negb (0 =? 0)) with false. cbv iota. change (0 + 1) with 1. unfold vset. cbn [it_S it_E it_U it_V it_f it_g]. change (0 =? 0) with true. change (1 =? 0) with false. change (0 =? 1) with false. change (1 =? 1) with true. cbv iota.
  unfold shiftF. cbn [fst snd]. change (2 - 1) with 1. change (2 - 2) with 0. rops. hypR. change (flit 2) with (Q2R 2). replace (Q2R 2) with 2%R by (unfold Q2R; cbn; lra).
  set (sc := @fmax ROps _ _). assert (Hsc : (sc <> 0)%R).
  { enough (0 < sc)%R by lra. unfold sc. cbn [fmax ROps]. eapply Rlt_le_trans; [|apply Rmax_l]. eapply Rlt_le_trans; [|apply Rmax_r]. apply Rabs_pos_lt. auto. }
  clearbody sc. revert H0 H1 He. generalize (S 0) as s0, (S 1) as s1, (E 0) as e. intros s0 s1 e H0 H1 He.
  set (b := (((s0 / sc + s1 / sc) * (s0 / sc - s1 / sc) + e / sc * (e / sc)) / 2)%R). set (c := (s1 / sc * (e / sc) * (s1 / sc * (e / sc)))%R).
  assert (Nd : forall u, u <> 0%R -> (u / sc <> 0)%R). { intros u Hu K. apply Hu. replace u with (u / sc * sc)%R by (field; auto). rewrite K. ring. }
  assert (Nc : c <> 0%R) by (pose proof (Nd s1 H1); pose proof (Nd e He); unfold c; apply Rmult_integral_contrapositive_currified; apply Rmult_integral_contrapositive_currified; auto).
  assert (fne (O := ROps) c 0%R = true) as ->. { unfold fne. rops. destruct (Reqb c 0) eqn:K; auto. apply Reqb_true in K. tauto. }
  rewrite orb_true_r. pose proof (deflate_shift s0 s1 e sc Hsc H0 H1 He) as K. cbv zeta in K. fold b c in K.
  set (h := (c / (b + (if Rltb b 0 then - sqrt (b * b + c) else sqrt (b * b + c))))%R) in *.
  set (f := ((s0 / sc + s1 / sc) * (s0 / sc - s1 / sc) + h)%R) in *. set (g := (s0 / sc * (e / sc))%R) in *.
  assert (Ng : g <> 0%R) by (unfold g; apply Rmult_integral_contrapositive_currified; auto).
  pose proof (hyp_pos f g (or_intror Ng)) as Ht1. set (t1 := sqrt (f * f + g * g)) in *.
  assert (Ng1 : (g / t1 * s1 <> 0)%R). { apply Rmult_integral_contrapositive_currified; auto. intros Z0. apply Ng. replace g with (g / t1 * t1)%R by (field; lra). rewrite Z0. ring. }
  pose proof (hyp_pos (f / t1 * s0 + g / t1 * e) (g / t1 * s1) (or_intror Ng1)) as Ht2. apply deflate_alg; auto; lra.
Qed.

(** ** The measure: turns left *)
Definition turns (y : sv_t (O := ROps)) : nat :=
  if t_p y <=? 0 then 0%nat else if t_p y =? 1 then 1%nat else if Reqb (t_E y 0) 0 then 2%nat else 3%nat.
Lemma tolS_pos p k (E : Z -> R) ks : (0 < tolS (O := ROps) p k E ks)%R.
Proof.
  unfold tolS. rops. fold tinyR epsR. set (t := if negb (ks =? k + 1) then _ else _). assert (0 <= t)%R.
  { unfold t. pose proof (Rabs_pos (E ks)). pose proof (Rabs_pos (E (ks - 1)%Z)). destruct (negb (ks =? k + 1)), (negb (ks =? p)); lra. }
  change (0 < tinyR + epsR * t)%R. pose proof tinyR_pos. pose proof epsR_pos. nra.
Qed.
Lemma turn_dec m n x y : n <= 2 -> 1 <= t_p x <= n -> svR (O := ROps) m n x y -> (turns y < turns x)%nat.
Proof.
  intros Hn Hp R. destruct R as [S E U V p q Sc k S1 Hq _ _ | S E U V p k Sc Hk Hnot | S E U V p k Sc Hk Hle | S E U V p k ks Sc Hk Hks Hle]; cbn [t_p] in *.
  - unfold turns. cbn [t_p t_E]. destruct (Z.leb_spec (p - 1) 0), (Z.leb_spec p 0); try lia; destruct (Z.eqb_spec p 1), (Z.eqb_spec (p - 1) 1); try lia; destruct (Reqb (E 0) 0); lia.
  - assert (Hk' : -1 <= k) by (destruct Sc; lia). assert (p = 2) by lia. assert (k = -1) by lia. subst p k. pose proof (scan_ne 2 S E (-1) 0 Sc ltac:(lia)) as He.
    assert (N : forall j, 0 <= j <= 1 -> S j <> 0%R).
    { intros j Hj Z0. specialize (Hnot j ltac:(lia)). apply Rleb_false in Hnot. pose proof (tolS_pos 2 (-1) (zeroE (O := ROps) (-1) E) j). change (@fabs ROps) with Rabs in Hnot. rewrite Z0, Rabs_R0 in Hnot. lra. }
    unfold turns. cbn [t_p t_E of_it]. change (-1 + 1) with 0. rewrite (deflate2 m S (zeroE (O := ROps) (-1) E) U V); [|apply N; lia|apply N; lia|exact He].
    cbn [Z.leb Z.eqb Z.compare Pos.eqb]. replace (Reqb 0 0) with true by (symmetry; apply Reqb_true; auto). destruct (Reqb (E 0) 0) eqn:K; [apply Reqb_true in K; tauto|lia].
  - assert (Hk' : -1 <= k) by (destruct Sc; lia). assert (p = 2) by lia. assert (k = -1) by lia. subst p k. pose proof (scan_ne 2 S E (-1) 0 Sc ltac:(lia)) as He.
    unfold turns. cbn [t_p t_E of_it]. change (-1 + 1) with 0. unfold c1_fin, c1_iter. change (Z.to_nat (2 - 1 - 0)) with 1%nat. unfold accum. change (2 - 2 - Z.of_nat 0) with 0. unfold c1_step. cbn [it_E negb Z.eqb]. unfold vset. cbn [Z.eqb Z.sub Z.pos_sub Z.double Z.add Z.opp Z.leb Z.compare Pos.eqb].
    replace (Reqb (@fzero ROps) 0) with true by (symmetry; apply Reqb_true; auto). destruct (Reqb (E 0) 0) eqn:K; [apply Reqb_true in K; tauto|lia].
  - assert (Hk' : -1 <= k) by (destruct Sc; lia). assert (p = 2) by lia. assert (k = -1) by lia. subst p k. assert (ks = 0) by lia. subst ks. pose proof (scan_ne 2 S E (-1) 0 Sc ltac:(lia)) as He.
    unfold turns. cbn [t_p t_E of_it]. unfold c2_fin, c2_iter. change (Z.to_nat (2 - (0 + 1))) with 1%nat. unfold accum, c2_step. cbn [it_E]. unfold vset. cbn [Z.eqb Z.sub Z.pos_sub Z.double Z.add Z.opp Z.leb Z.compare Pos.eqb Z.of_nat].
    replace (Reqb (@fzero ROps) 0) with true by (symmetry; apply Reqb_true; auto). destruct (Reqb (E 0) 0) eqn:K; [apply Reqb_true in K; tauto|lia].
Qed.
Lemma turns_le m n x k y : n <= 2 -> svRk (O := ROps) m n x k y -> (turns y + k <= turns x)%nat.
Proof. intros Hn. induction 1 as [|k y z R IH Hp Rz]; [lia|]. pose proof (turn_dec m n y z Hn Hp Rz). lia. Qed.
Lemma turns_3 y : (turns y <= 3)%nat.
Proof. unfold turns. destruct (t_p y <=? 0), (t_p y =? 1), (Reqb (t_E y 0) 0); lia. Qed.
Theorem sv_term2 fuel (x : @RealMatrix ROps) r c A : library x -> MatIs x r c A -> 1 <= r -> 1 <= c -> Z.min r c <= 2 -> (4 <= fuel)%nat ->
  exists d, NewSingularValueDecomposition fuel x = Ok d.
Proof.
  intros Hl Hx Hr Hc Hm Hf. pose proof (sv_new_run fuel x r c A Hl Hx Hr Hc) as W. destruct (NewSingularValueDecomposition fuel x) as [d| |]; cbn in W; [eauto|tauto|].
  destruct W as [_ [y R]]. pose proof (turns_le _ _ _ _ _ Hm R). pose proof (turns_3 (sv0 (O := ROps) (Z.max r c) (Z.min r c) (wide r c A))). lia.
Qed.

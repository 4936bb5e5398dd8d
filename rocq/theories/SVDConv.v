(** Wilkinson's global convergence of the shifted QR step, for the chase of the
    singular value iteration in exact arithmetic.  With B the bidiagonal block,
    the step is a QR step of B B^T with the eigenvalue of its last 2 x 2 block
    nearest to the last entry as shift; the square of the last off-diagonal
    entry times the one before shrinks by the factor 4/5 at least. *)
From Coq Require Import Reals ZArith QArith List Lia Lra Psatz Bool.
From Verif Require Import Base BaseLemmas Scalar Vector VecSpec VectorFacts Matrix MatSpec MatFacts TabTac FSum RealOps RSum Tri House QR QRSpec QRFacts QRReal QRReal2 CholFacts HessReal Frob EigenFacts SchurReal SVD SVDFacts SVDFacts2 SVDFacts3 SVDReal SVDReal2 SVDReal3 SVDReal4 SVDReal5 SVDReal6 SVDOrder BidiagFacts SVDTerm.
Open Scope Z_scope.

(** ** The shift *)
Lemma shift_sign (b c h : R) : (0 < c)%R -> h = (c / (b + (if Rltb b 0 then - sqrt (b * b + c) else sqrt (b * b + c))))%R ->
  (h * h + 2 * b * h - c = 0)%R /\ (h * h <= c)%R.
Proof.
  intros Hc Eh. assert (Hbc : (0 < b * b + c)%R) by nra. set (s := sqrt (b * b + c)) in *. assert (Hs : (0 < s)%R) by (apply sqrt_lt_R0; auto).
  assert (Ess : (s * s = b * b + c)%R) by (apply sqrt_sqrt; lra).
  destruct (Rltb b 0) eqn:L; [apply Rltb_true in L|apply Rltb_false in L].
  - assert (Hd : (b + - s < 0)%R) by lra. assert (E : (h * (b + - s) = c)%R) by (subst h; field; lra). assert (Hh : (h < 0)%R) by nra.
    assert (K : (h * h + 2 * b * h - c = 0)%R). { assert (E2 : (h = - (b + s))%R) by (apply Rmult_eq_reg_r with (b + - s)%R; [rewrite E; nra|lra]). rewrite E2. nra. } split; [auto|nra].
  - assert (Hd : (0 < b + s)%R) by lra. assert (E : (h * (b + s) = c)%R) by (subst h; field; lra). assert (Hh : (0 < h)%R) by nra.
    assert (K : (h * h + 2 * b * h - c = 0)%R). { assert (E2 : (h = s - b)%R) by (apply Rmult_eq_reg_r with (b + s)%R; [rewrite E; nra|lra]). rewrite E2. nra. } split; [auto|nra].
Qed.
(** The shift sigma and the slope tau of its eigenvector; f and g start the chase. *)
Lemma shift_wilkinson p k (S E : Z -> R) : S (p - 1) <> 0%R -> E (p - 2) <> 0%R ->
  exists sc sg ta, (0 < sc)%R /\ (fst (shiftF (O := ROps) p k S E) * sc = S k * S k - sg)%R /\ (snd (shiftF (O := ROps) p k S E) * sc = S k * E k)%R /\
    (S (p - 1)%Z * S (p - 1)%Z - sg = - (E (p - 2)%Z * S (p - 1)%Z) * ta)%R /\
    ((S (p - 2)%Z * S (p - 2)%Z + E (p - 2)%Z * E (p - 2)%Z - sg) * ta = - (E (p - 2)%Z * S (p - 1)%Z))%R /\ (Rabs ta <= 1)%R.
Proof.
  intros Hs He. unfold shiftF. cbn [fst snd]. rops. change (flit 2) with (Q2R 2). replace (Q2R 2) with 2%R by (unfold Q2R; cbn; lra).
  set (sc := @fmax ROps _ _). assert (Hsc : (0 < sc)%R).
  { unfold sc. cbn [fmax ROps]. do 4 (eapply Rlt_le_trans; [|apply Rmax_l]). apply Rabs_pos_lt. auto. }
  clearbody sc. set (s1 := S (p - 1)) in *. set (s0 := S (p - 2)). set (e := E (p - 2)) in *. set (b := (((s0 / sc + s1 / sc) * (s0 / sc - s1 / sc) + e / sc * (e / sc)) / 2)%R). set (c := (s1 / sc * (e / sc) * (s1 / sc * (e / sc)))%R).
  assert (Nd : forall u, u <> 0%R -> (u / sc <> 0)%R). { intros u Hu K. apply Hu. replace u with (u / sc * sc)%R by (field; lra). rewrite K. ring. }
  assert (Pc : (0 < c)%R). { pose proof (Nd s1 Hs). pose proof (Nd e He). unfold c. apply Rsqr_pos_lt. apply Rmult_integral_contrapositive_currified; auto. }
  assert (fne (O := ROps) c 0%R = true) as ->. { unfold fne. rops. destruct (Reqb c 0) eqn:K; auto. apply Reqb_true in K. lra. }
  rewrite orb_true_r. set (h := (c / (b + (if Rltb b 0 then - sqrt (b * b + c) else sqrt (b * b + c))))%R).
  destruct (shift_sign b c h Pc eq_refl) as [K1 K2]. clearbody h.
  assert (Ec : (c * (sc * sc * (sc * sc)) = e * s1 * (e * s1))%R) by (unfold c; field; lra). assert (Eb : (2 * b * (sc * sc) = s0 * s0 - s1 * s1 + e * e)%R) by (unfold b; field; lra).
  clearbody b c. assert (Nb : (e * s1 <> 0)%R) by (apply Rmult_integral_contrapositive_currified; auto).
  exists (sc * sc)%R, (s1 * s1 - h * (sc * sc))%R, (- (h * (sc * sc)) / (e * s1))%R. assert (Hq : (0 < sc * sc)%R) by nra.
  split; [auto|]. split; [field; lra|]. split; [field; lra|]. split; [field; auto|]. split.
  - apply Rmult_eq_reg_r with (e * s1)%R; auto. replace ((s0 * s0 + e * e - (s1 * s1 - h * (sc * sc))) * (- (h * (sc * sc)) / (e * s1)) * (e * s1))%R with (- ((s0 * s0 - s1 * s1 + e * e + h * (sc * sc)) * (h * (sc * sc))))%R by (field; split; intros Z0; apply Nb; rewrite Z0; ring).
    rewrite <- Eb. replace (- (e * s1) * (e * s1))%R with (- (e * s1 * (e * s1)))%R by ring. rewrite <- Ec. replace c with (h * h + 2 * b * h)%R by lra. ring.
  - assert (Q : ((h * (sc * sc)) * (h * (sc * sc)) <= (e * s1) * (e * s1))%R). { rewrite <- Ec. apply (Rmult_le_compat_r (sc * sc * (sc * sc))) in K2; nra. }
    apply Rsqr_le_abs_0 in Q. unfold Rdiv. rewrite Rabs_mult, Rabs_Ropp, Rabs_inv. pose proof (Rabs_pos_lt _ Nb). apply Rmult_le_reg_r with (Rabs (e * s1)); auto. rewrite Rmult_assoc, Rinv_l by lra. lra.
Qed.

(** ** One turn of the chase, as an equation between numbers *)
Section Step.
Variables C S d e s1 c w sg F G T : R.
Hypothesis HCS : (C * C + S * S = 1)%R.
Hypothesis HT : T <> 0%R.
Hypothesis HTT : (T * T = F * F + G * G)%R.
Hypothesis HF : F = (C * d + S * (c * e))%R.
Hypothesis HG : G = (S * s1)%R.
Hypothesis HS : S <> 0%R.
Hypothesis Ha : (C * d * e = S * w)%R.
Hypothesis Hb : (S * sg = - (C * (c * e) - S * d) * d)%R.
Let u : R := (C * (c * e) - S * d)%R.
Let c' : R := (F / T)%R.
Let s' : R := (G / T)%R.
Let f' : R := (c' * u + s' * (C * s1))%R.
Let d' : R := (- s' * u + c' * (C * s1))%R.
Lemma st_unit : (c' * c' + s' * s' = 1)%R.
Proof. unfold c', s'. replace (F / T * (F / T) + G / T * (G / T))%R with ((F * F + G * G) / (T * T))%R by (field; auto). rewrite <- HTT. field. auto. Qed.
Lemma st_h : (c * e = S * F + C * u)%R.
Proof. unfold u. rewrite HF. transitivity ((C * C + S * S) * (c * e))%R; [rewrite HCS; ring|ring]. Qed.
Lemma st_d : (d = C * F - S * u)%R.
Proof. unfold u. rewrite HF. transitivity ((C * C + S * S) * d)%R; [rewrite HCS; ring|ring]. Qed.
Lemma st_c : c' = (F / T)%R. Proof. reflexivity. Qed.
Lemma st_two : (s' * (d' * d' - sg) = f' * c' * d')%R.
Proof.
  assert (Efc : (f' * c' = s' * d' + u)%R). { unfold f', d'. transitivity (u * (c' * c' + s' * s') + s' * (- s' * u + c' * (C * s1)))%R; [ring|]. rewrite st_unit. ring. }
  rewrite Efc. enough (s' * sg = - u * d')%R by nra. unfold d', s', c'.
  enough (G * sg = - u * (- G * u + F * (C * s1)))%R as K. { apply Rmult_eq_reg_r with T; auto. replace (G / T * sg * T)%R with (G * sg)%R by (field; auto). rewrite K. field. auto. }
  rewrite HG. transitivity (s1 * (S * sg))%R; [ring|]. rewrite Hb. fold u.
  pose proof st_d as Ed. rewrite Ed at 1. ring.
Qed.
Lemma st_one : (f' * d' = s' * (c' * (s1 * s1 - sg) - s' * c * (e * s1)))%R.
Proof.
  unfold f', d', s', c'. apply Rmult_eq_reg_r with (T * T)%R; [|nra].
  replace ((F / T * u + G / T * (C * s1)) * (- (G / T) * u + F / T * (C * s1)) * (T * T))%R with ((F * u + G * (C * s1)) * (- G * u + F * (C * s1)))%R by (field; auto).
  replace (G / T * (F / T * (s1 * s1 - sg) - G / T * c * (e * s1)) * (T * T))%R with (G * F * (s1 * s1 - sg) - G * G * (c * e) * s1)%R by (field; auto).
  pose proof st_h as Eh. pose proof st_d as Ed. assert (Eg : (S * sg = - u * d)%R) by (rewrite Hb; unfold u; ring).
  assert (EC : (C * C = 1 - S * S)%R) by lra. rewrite Eh, HG. 
  replace ((F * u + S * s1 * (C * s1)) * (- (S * s1) * u + F * (C * s1)))%R with (s1 * (- S * F * u * u + F * F * u * C - S * S * s1 * s1 * C * u + S * s1 * s1 * F * (C * C)))%R by ring.
  rewrite EC. replace (S * s1 * F * (s1 * s1 - sg) - S * s1 * (S * s1) * (S * F + C * u) * s1)%R with (s1 * (S * F * s1 * s1 - F * (S * sg) - S * S * s1 * s1 * (S * F + C * u)))%R by ring.
  rewrite Eg. rewrite Ed. ring.
Qed.
Let r : R := (e * T / S)%R.
Lemma st_rs : (r * s' = e * s1)%R.
Proof. unfold r, s'. rewrite HG. field. auto. Qed.
Lemma st_rc : (r * c' = w + c * (e * e))%R.
Proof. unfold r, c'. apply Rmult_eq_reg_r with S; auto. replace (e * T / S * (F / T) * S)%R with (e * F)%R by (field; auto). rewrite HF. replace ((w + c * (e * e)) * S)%R with (S * w + c * (e * e) * S)%R by ring. rewrite <- Ha. ring. Qed.
End Step.

(** ** The last two entries *)
Lemma cub (x y : R) : (0 <= x)%R -> (x * x + y * y = 1)%R -> (y * y * x <= 2 / 5)%R.
Proof.
  intros H K. replace (y * y)%R with (1 - x * x)%R by lra. assert (x <= 1)%R by nra.
  assert (0 <= (x - 577 / 1000) * (x - 577 / 1000) * (x + 1154 / 1000))%R as L by (apply Rmult_le_pos; [apply Rle_0_sqr|lra]).
  replace ((x - 577 / 1000) * (x - 577 / 1000) * (x + 1154 / 1000))%R with (x * x * x - 998787 / 1000000 * x + 192100033 * 2 / 1000000000)%R in L by field. replace ((1 - x * x) * x)%R with (x - x * x * x)%R by ring. lra.
Qed.
Section Last.
Variables c s cc ss ccc r a b sg b1 b2 ta w : R.
Hypothesis Hcs : (c * c + s * s = 1)%R.
Hypothesis Hccs : (cc * cc + ss * ss = 1)%R.
Hypothesis Hccc : (Rabs ccc <= 1)%R.
Hypothesis Hrs : (r * s = b1)%R.
Hypothesis Hrc : (r * c = cc * (a - sg) - ss * ccc * b2)%R.
Hypothesis Hw : (w = c * (b - sg) - s * cc * b1)%R.
Hypothesis Hb : (b - sg = - b1 * ta)%R.
Hypothesis Ha : ((a - sg) * ta = - b1)%R.
Hypothesis Hta : (Rabs ta <= 1)%R.
Lemma last_A : w = (ta * s * ss * ccc * b2)%R.
Proof.
  assert (E1 : (w = - b1 * (c * ta + s * cc))%R) by (rewrite Hw, Hb; ring). rewrite E1.
  assert (E2 : (ta * (r * c) = - cc * b1 - ta * ss * ccc * b2)%R). { rewrite Hrc. replace (ta * (cc * (a - sg) - ss * ccc * b2))%R with (cc * ((a - sg) * ta) - ta * ss * ccc * b2)%R by ring. rewrite Ha. ring. }
  assert (E3 : (s * (ta * (r * c)) = ta * c * b1)%R) by (rewrite <- Hrs; ring). rewrite E2 in E3. lra.
Qed.
Lemma last_shrink : (Rabs (s * w) * Rabs (s * w) * Rabs (r * ss) <= 4 / 5 * (Rabs b1 * Rabs b1 * Rabs b2))%R.
Proof.
  assert (E1 : (w = - b1 * (c * ta + s * cc))%R) by (rewrite Hw, Hb; ring).
  assert (E0 : (Rabs (s * w) * Rabs (s * w) * Rabs (r * ss) = Rabs s * Rabs ss * Rabs b1 * (Rabs w * Rabs w))%R). { rewrite <- Hrs, !Rabs_mult. ring. }
  rewrite E0. 
  assert (A1 : (Rabs w <= Rabs s * Rabs ss * Rabs b2)%R).
  { rewrite last_A, !Rabs_mult. pose proof (Rabs_pos s). pose proof (Rabs_pos ss). pose proof (Rabs_pos b2). pose proof (Rabs_pos ta). pose proof (Rabs_pos ccc).
    replace (Rabs ta * Rabs s * Rabs ss * Rabs ccc * Rabs b2)%R with ((Rabs ta * Rabs ccc) * (Rabs s * Rabs ss * Rabs b2))%R by ring.
    assert (0 <= Rabs s * Rabs ss * Rabs b2)%R by (repeat apply Rmult_le_pos; auto). assert (Rabs ta * Rabs ccc <= 1)%R by nra. nra. }
  assert (A2 : (Rabs w <= Rabs b1 * (Rabs c + Rabs s * Rabs cc))%R).
  { rewrite E1, Rabs_mult, Rabs_Ropp. apply Rmult_le_compat_l; [apply Rabs_pos|]. eapply Rle_trans; [apply Rabs_triang|]. rewrite !Rabs_mult. pose proof (Rabs_pos c). nra. }
  pose proof (Rabs_pos s) as P1. pose proof (Rabs_pos ss) as P2. pose proof (Rabs_pos b2) as P3. pose proof (Rabs_pos b1) as P4. pose proof (Rabs_pos c) as P5. pose proof (Rabs_pos cc) as P6. pose proof (Rabs_pos w) as P7.
  assert (Q1 : (Rabs c * Rabs c + Rabs s * Rabs s = 1)%R) by (rewrite <- !Rabs_mult; rewrite !Rabs_pos_eq by nra; auto).
  assert (Q2 : (Rabs cc * Rabs cc + Rabs ss * Rabs ss = 1)%R) by (rewrite <- !Rabs_mult; rewrite !Rabs_pos_eq by nra; auto).
  assert (K : (Rabs w * Rabs w <= Rabs s * Rabs ss * Rabs b2 * (Rabs b1 * (Rabs c + Rabs s * Rabs cc)))%R) by (apply Rmult_le_compat; auto).
  eapply Rle_trans; [apply Rmult_le_compat_l; [repeat apply Rmult_le_pos; auto|exact K]|].
  revert P1 P2 P3 P4 P5 P6 Q1 Q2. clear. generalize (Rabs s) as x, (Rabs ss) as xx, (Rabs c) as y, (Rabs cc) as yy, (Rabs b1) as u, (Rabs b2) as v. intros x xx y yy u v P1 P2 P3 P4 P5 P6 Q1 Q2.
  assert (L1 : (x * x * y <= 2 / 5)%R) by (apply cub; lra). assert (L2 : (xx * xx * yy <= 2 / 5)%R) by (apply cub; lra).
  assert (X1 : (x <= 1)%R) by nra. assert (XX1 : (xx <= 1)%R) by nra.
  assert (M1 : (xx * xx * (x * x * y) <= 2 / 5)%R). { assert (0 <= x * x * y)%R by (apply Rmult_le_pos; nra). assert (xx * xx <= 1)%R by nra. nra. }
  assert (M2 : (x * x * x * (xx * xx * yy) <= 2 / 5)%R). { assert (0 <= xx * xx * yy)%R by (apply Rmult_le_pos; nra). assert (x * x <= 1)%R by nra. assert (x * x * x <= 1)%R by nra. assert (0 <= x * x * x)%R by (apply Rmult_le_pos; nra). nra. }
  replace (x * xx * u * (x * xx * v * (u * (y + x * yy))))%R with ((xx * xx * (x * x * y) + x * x * x * (xx * xx * yy)) * (u * u * v))%R by ring.
  apply Rmult_le_compat_r; [|lra]. apply Rmult_le_pos; [nra|auto].
Qed.
End Last.

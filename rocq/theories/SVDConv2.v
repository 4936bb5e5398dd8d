(** The chase of the singular value iteration in exact arithmetic: its rotations
    are those of the QR decomposition of B B^T minus the shift. *)
From Coq Require Import Reals ZArith QArith List Lia Lra Psatz Bool.
From Verif Require Import Base BaseLemmas Scalar Vector VecSpec VectorFacts Matrix MatSpec MatFacts TabTac FSum RealOps RSum Tri House QR QRSpec QRFacts QRReal QRReal2 CholFacts HessReal Frob EigenFacts SchurReal SVD SVDFacts SVDFacts2 SVDFacts3 SVDReal SVDReal2 SVDReal3 SVDReal4 SVDReal5 SVDReal6 SVDOrder BidiagFacts SVDTerm SVDConv.
Open Scope Z_scope.

Lemma div_nz (a t : R) : a <> 0%R -> t <> 0%R -> (a / t <> 0)%R.
Proof. intros H K Z0. apply H. replace a with (a / t * t)%R by (field; auto). rewrite Z0. ring. Qed.

Section Chase.
Variables m p k : Z.
Variables S E : Z -> R.
Variable sg : R.
Hypothesis HS : forall i, k <= i <= p - 1 -> S i <> 0%R.
Hypothesis HE : forall i, k <= i <= p - 2 -> E i <> 0%R.

(** Before turn j: the last rotation (c, s), the one before (cc, ss), and r. *)
Definition wk (j : Z) (x : it_st (O := ROps)) (c s cc ss ccc r : R) : Prop :=
  (c * c + s * s = 1)%R /\ (cc * cc + ss * ss = 1)%R /\ (Rabs ccc <= 1)%R /\ s <> 0%R /\
  it_E x j = (c * E j)%R /\ it_g x = (s * E j)%R /\
  (r * s = E (j - 1)%Z * S j)%R /\
  (r * c = cc * (S (j - 1)%Z * S (j - 1)%Z + E (j - 1)%Z * E (j - 1)%Z - sg) - ss * ccc * (E (j - 2)%Z * S (j - 1)%Z))%R /\
  (it_f x * it_S x j = s * (c * (S j * S j - sg) - s * cc * (E (j - 1)%Z * S j)))%R /\
  (s * (it_S x j * it_S x j - sg) = it_f x * c * it_S x j)%R /\
  (k + 1 < j -> (it_E x (j - 2)%Z * it_S x (j - 1)%Z = r * ss)%R) /\ (j = k + 1 -> ss = 0%R) /\
  (forall i, j < i -> it_E x i = E i /\ it_S x i = S i).
(** What a turn starts from. *)
Definition wk0 (j : Z) (x : it_st (O := ROps)) (c s cc : R) : Prop :=
  let t := sqrt (it_f x * it_f x + it_g x * it_g x) in let C := (it_f x / t)%R in let N := (it_g x / t)%R in
  it_g x <> 0%R /\ (c * c + s * s = 1)%R /\ (Rabs cc <= 1)%R /\ it_E x j = (c * E j)%R /\
  (C * it_S x j * E j = N * (c * (S j * S j - sg) - s * cc * (E (j - 1)%Z * S j)))%R /\
  (N * sg = - (C * (c * E j) - N * it_S x j) * it_S x j)%R /\
  (k < j -> it_g x = (s * E j)%R) /\ (j = k -> s = 0%R) /\ (forall i, j < i -> it_E x i = E i /\ it_S x i = S i).

Lemma wk_turn j x c s cc : k <= j <= p - 2 -> wk0 j x c s cc -> exists c' s' r, wk (j + 1) (c3_left (O := ROps) m j (c3_right (O := ROps) k j x)) c' s' c s cc r.
Proof.
  intros Hj. unfold wk0. cbv zeta. intros (Hg & Hcs & Hcc & Hh & Ha & Hb & Hgs & Hk & Ho).
  pose proof (hyp_pos (it_f x) (it_g x) (or_intror Hg)) as Ht. destruct (hyp_rot (it_f x) (it_g x) (or_intror Hg)) as (_ & HCN & _ & _).
  set (t := sqrt (it_f x * it_f x + it_g x * it_g x)) in *. set (C := (it_f x / t)%R) in *. set (N := (it_g x / t)%R) in *.
  assert (HN : N <> 0%R). { unfold N. apply div_nz; [exact Hg|lra]. }
  set (d := it_S x j) in *. set (e := E j) in *. set (s1 := S (j + 1)). assert (Hs1 : s1 <> 0%R) by (apply HS; lia). assert (He : e <> 0%R) by (apply HE; lia).
  set (w := (c * (S j * S j - sg) - s * cc * (E (j - 1)%Z * S j))%R) in *.
  set (F := (C * d + N * (c * e))%R). set (G := (N * s1)%R).
  set (y := c3_right (O := ROps) k j x).
  assert (Y1 : it_f y = F). { unfold y, c3_right. cbn [it_f]. rops. hypR. fold t C N d. unfold F. rewrite <- Hh. destruct (negb (j =? k)); auto. unfold vset. zbq. auto. }
  assert (Y2 : it_g y = G). { unfold y, c3_right. cbn [it_g]. rops. hypR. fold t N. destruct (Ho (j + 1) ltac:(lia)) as [_ ->]. auto. }
  assert (Y3 : it_S y (j + 1) = (C * s1)%R). { unfold y, c3_right. cbn [it_S]. rops. hypR. fold t C. unfold vset. rewrite Z.eqb_refl. destruct (Ho (j + 1) ltac:(lia)) as [_ ->]. auto. }
  assert (Y4 : it_E y j = (C * (c * e) - N * d)%R). { unfold y, c3_right. cbn [it_E]. rops. hypR. fold t C N d. unfold vset at 1. rewrite Z.eqb_refl. rewrite <- Hh. destruct (negb (j =? k)); auto. unfold vset. zbq. auto. }
  assert (Y5 : j <> k -> it_E y (j - 1) = t). { intros Hne. unfold y, c3_right. cbn [it_E]. rops. hypR. fold t. unfold vset. replace (j =? k) with false by (symmetry; apply Z.eqb_neq; auto). cbn [negb]. rewrite Z.eqb_refl. zbq. auto. }
  assert (Y6 : forall i, j < i -> it_E y i = E i). { intros i Hi. destruct (Ho i Hi) as [<- _]. unfold y, c3_right. cbn [it_E]. unfold vset. destruct (negb (j =? k)); zbq; auto. }
  assert (Y7 : forall i, j + 1 < i -> it_S y i = S i). { intros i Hi. destruct (Ho i ltac:(lia)) as [_ <-]. unfold y, c3_right. cbn [it_S]. unfold vset. zbq; auto. }
  clearbody y.
  assert (HG : G <> 0%R) by (unfold G; apply Rmult_integral_contrapositive_currified; auto). pose proof (hyp_pos F G (or_intror HG)) as HT. set (T := sqrt (F * F + G * G)) in *.
  assert (HTT : (T * T = F * F + G * G)%R) by (unfold T; apply sqrt_sqrt; nra). assert (HT0 : T <> 0%R) by lra.
  set (c' := (F / T)%R). set (s' := (G / T)%R). exists c', s', (e * T / N)%R.
  assert (Z1 : it_f (c3_left (O := ROps) m j y) = (c' * (C * (c * e) - N * d) + s' * (C * s1))%R). { unfold c3_left. cbn [it_f]. rops. hypR. rewrite Y1, Y2, Y4. fold T c' s'. unfold vset. zbq. rewrite Y3. auto. }
  assert (Z2 : it_S (c3_left (O := ROps) m j y) (j + 1) = (- s' * (C * (c * e) - N * d) + c' * (C * s1))%R). { unfold c3_left. cbn [it_S]. rops. hypR. rewrite Y1, Y2, Y4. fold T c' s'. unfold vset. zbq. rewrite Y3. auto. }
  assert (Z3 : it_S (c3_left (O := ROps) m j y) j = T). { unfold c3_left. cbn [it_S]. rops. hypR. rewrite Y1, Y2. fold T. unfold vset. zbq. auto. }
  assert (Z4 : it_g (c3_left (O := ROps) m j y) = (s' * E (j + 1)%Z)%R). { unfold c3_left. cbn [it_g]. rops. hypR. rewrite Y1, Y2. fold T s'. rewrite Y6 by lia. auto. }
  assert (Z5 : it_E (c3_left (O := ROps) m j y) (j + 1) = (c' * E (j + 1)%Z)%R). { unfold c3_left. cbn [it_E]. rops. hypR. rewrite Y1, Y2. fold T c'. unfold vset. rewrite Z.eqb_refl. rewrite Y6 by lia. auto. }
  assert (Z6 : forall i, i <> j + 1 -> it_E (c3_left (O := ROps) m j y) i = it_E y i). { intros i Hi. unfold c3_left. cbn [it_E]. unfold vset. zbq. auto. }
  assert (Z7 : forall i, j + 1 < i -> it_S (c3_left (O := ROps) m j y) i = S i). { intros i Hi. unfold c3_left. cbn [it_S]. unfold vset. zbq. apply Y7. auto. }
  pose proof (st_unit F G T HT0 HTT) as U1. fold c' s' in U1.
  pose proof (st_two C N d e s1 c sg F G T HCN HT0 HTT eq_refl eq_refl Hb) as U2. fold c' s' in U2.
  pose proof (st_one C N d e s1 c sg F G T HCN HT0 eq_refl eq_refl Hb) as U3. fold c' s' in U3.
  pose proof (st_rs N e s1 G T HT0 eq_refl HN) as U4. fold s' in U4.
  pose proof (st_rc C N d e c w F T HT0 eq_refl HN Ha) as U5. fold c' in U5.
  replace (j + 1 - 1) with j by lia. replace (j + 1 - 2) with (j - 1) by lia. unfold wk. replace (j + 1 - 1) with j by lia. replace (j + 1 - 2) with (j - 1) by lia.
  rewrite Z1, Z2, Z3, Z4, Z5. fold e s1.
  split; [exact U1|]. split; [exact Hcs|]. split; [exact Hcc|]. split; [unfold s'; apply div_nz; auto|].
  split; [auto|]. split; [auto|]. split; [exact U4|]. split; [rewrite U5; unfold w; ring|]. split; [rewrite U3; ring|]. split; [rewrite U2; ring|].
  split; [|split].
  - intros Hlt. rewrite Z6 by lia. rewrite Y5 by lia. specialize (Hgs ltac:(lia)).
    assert (s <> 0%R) by (intros K; apply Hg; rewrite Hgs, K; apply Rmult_0_l).
    unfold N. rewrite Hgs. field. repeat split; auto; lra.
  - intros Ek. apply Hk. lia.
  - intros i Hi. split; [rewrite Z6 by lia; apply Y6; lia|apply Z7; lia].
Qed.
(** The next turn starts from there. *)
Lemma wk_wk0 j x c s cc ss ccc r : k < j <= p - 2 -> wk j x c s cc ss ccc r -> wk0 j x c s cc.
Proof.
  intros Hj (Hcs & Hccs & Hccc & Hs & Hh & Hg & _ & _ & H1 & H2 & _ & _ & Ho). unfold wk0. cbv zeta. assert (He : E j <> 0%R) by (apply HE; lia).
  assert (Hg0 : it_g x <> 0%R) by (rewrite Hg; apply Rmult_integral_contrapositive_currified; auto).
  pose proof (hyp_pos (it_f x) (it_g x) (or_intror Hg0)) as Ht. set (t := sqrt (it_f x * it_f x + it_g x * it_g x)) in *.
  split; [auto|]. split; [auto|]. split; [apply Rsqr_1 || idtac|].
  { apply Rabs_le. split; nra. }
  split; [auto|]. split; [|split; [|split; [auto|split; [intros; lia|auto]]]].
  - apply Rmult_eq_reg_r with t; [|lra]. replace (it_f x / t * it_S x j * E j * t)%R with (it_f x * it_S x j * E j)%R by (field; lra). rewrite H1.
    replace (it_g x / t * (c * (S j * S j - sg) - s * cc * (E (j - 1)%Z * S j)) * t)%R with (it_g x * (c * (S j * S j - sg) - s * cc * (E (j - 1)%Z * S j)))%R by (field; lra). rewrite Hg. ring.
  - apply Rmult_eq_reg_r with t; [|lra]. replace (it_g x / t * sg * t)%R with (it_g x * sg)%R by (field; lra).
    replace (- (it_f x / t * (c * E j) - it_g x / t * it_S x j) * it_S x j * t)%R with (- (it_f x * c * it_S x j) * E j + it_g x * (it_S x j * it_S x j))%R by (field; lra). rewrite <- H2, Hg. ring.
Qed.
(** The first turn. *)
Lemma wk0_start U V f0 g0 sc : k <= p - 2 -> (0 < sc)%R -> (f0 * sc = S k * S k - sg)%R -> (g0 * sc = S k * E k)%R -> wk0 k (mkIT (O := ROps) S E U V f0 g0) 1 0 1.
Proof.
  intros Hk Hsc Ef Eg. unfold wk0. cbv zeta. cbn [it_S it_E it_f it_g]. assert (He : E k <> 0%R) by (apply HE; lia). assert (Hs : S k <> 0%R) by (apply HS; lia).
  assert (Hg0 : g0 <> 0%R). { intros K. rewrite K, Rmult_0_l in Eg. symmetry in Eg. apply Rmult_integral in Eg. tauto. }
  pose proof (hyp_pos f0 g0 (or_intror Hg0)) as Ht. set (t := sqrt (f0 * f0 + g0 * g0)) in *.
  split; [auto|]. split; [ring|]. split; [rewrite Rabs_R1; lra|]. split; [symmetry; apply Rmult_1_l|]. split; [|split; [|split; [intros; lia|split; [auto|auto]]]].
  - apply Rmult_eq_reg_r with (t * sc)%R; [|nra]. replace (f0 / t * S k * E k * (t * sc))%R with (f0 * sc * (S k * E k))%R by (field; lra).
    replace (g0 / t * (1 * (S k * S k - sg) - 0 * 1 * (E (k - 1)%Z * S k)) * (t * sc))%R with (g0 * sc * (S k * S k - sg))%R by (field; lra). rewrite Ef, Eg. ring.
  - apply Rmult_eq_reg_r with (t * sc)%R; [|nra]. replace (g0 / t * sg * (t * sc))%R with (g0 * sc * sg)%R by (field; lra).
    replace (- (f0 / t * (1 * E k) - g0 / t * S k) * S k * (t * sc))%R with (- (f0 * sc * (S k * E k)) + g0 * sc * (S k * S k))%R by (field; lra). rewrite Ef, Eg. ring.
Qed.
Lemma wk_iter U V f0 g0 sc : k <= p - 2 -> (0 < sc)%R -> (f0 * sc = S k * S k - sg)%R -> (g0 * sc = S k * E k)%R -> forall c, 0 <= c -> c <= p - 2 - k ->
  exists a s aa ss aaa r, wk (k + c + 1) (c3_iter (O := ROps) m k (c + 1) (mkIT (O := ROps) S E U V f0 g0)) a s aa ss aaa r.
Proof.
  intros Hk Hsc Ef Eg c Hc. pose proof (wk0_start U V f0 g0 sc Hk Hsc Ef Eg) as W. set (x0 := mkIT (O := ROps) S E U V f0 g0) in *.
  assert (ES : forall t, 0 <= t -> c3_iter (O := ROps) m k (t + 1) x0 = c3_left m (k + t) (c3_right k (k + t) (c3_iter m k t x0))) by (intros t Ht; unfold c3_iter; rewrite accum_S by lia; auto).
  revert c Hc. refine (natlike_ind _ _ _).
  - intros _. rewrite ES by lia. rewrite Z.add_0_r. destruct (wk_turn k x0 1 0 1 ltac:(lia) W) as (c' & s' & r & K). exists c', s', 1%R, 0%R, 1%R, r. exact K.
  - intros t Ht IH Hc. destruct (IH ltac:(lia)) as (a & s & aa & ss & aaa & r & K). apply wk_wk0 in K; [|lia].
    destruct (wk_turn (k + t + 1) _ a s aa ltac:(lia) K) as (c' & s' & r' & K'). rewrite ES by lia. unfold Z.succ. replace (k + (t + 1)) with (k + t + 1) by lia. exists c', s', a, s, aa, r'. exact K'.
Qed.
End Chase.

(** The turn of case 3. *)
Section Case3.
Variables m p k : Z.
Variables S E : Z -> R.
Variables U V : Z -> Z -> R.
Hypothesis HS : forall i, k <= i <= p - 1 -> S i <> 0%R.
Hypothesis HE : forall i, k <= i <= p - 2 -> E i <> 0%R.
Hypothesis HEp : E (p - 1) = 0%R.
Let z := c3_fin (O := ROps) m p k S E U V.
Lemma case3_two : k = p - 2 -> it_E z (p - 2) = 0%R.
Proof.
  intros Hk. destruct (shift_wilkinson p k S E ltac:(apply HS; lia) ltac:(apply HE; lia)) as (sc & sg & ta & Hsc & Ef & Eg & T1 & T2 & T3).
  destruct (wk_iter m p k S E sg HS HE U V _ _ sc ltac:(lia) Hsc Ef Eg (p - 2 - k) ltac:(lia) ltac:(lia)) as (c & s & cc & ss & ccc & r & W).
  replace (k + (p - 2 - k) + 1) with (p - 1) in W by lia. replace (p - 2 - k + 1) with (p - 1 - k) in W by lia.
  unfold z, c3_fin. set (x := c3_iter (O := ROps) m k (p - 1 - k) _) in *. cbn [it_E]. unfold vset. rewrite Z.eqb_refl.
  destruct W as (Hcs & Hccs & Hccc & Hs & _ & _ & H3 & H4 & H1 & H2 & _ & Hss & _). specialize (Hss ltac:(lia)).
  replace (p - 1 - 1) with (p - 2) in * by lia. replace (p - 1 - 2) with (p - 3) in * by lia.
  pose proof (last_A c s cc ss ccc r (S (p - 2)%Z * S (p - 2)%Z + E (p - 2)%Z * E (p - 2)%Z) (S (p - 1)%Z * S (p - 1)%Z) sg (E (p - 2)%Z * S (p - 1)%Z) (E (p - 3)%Z * S (p - 2)%Z) ta _ H3 H4 eq_refl T1 T2) as A.
  assert (S (p - 1) <> 0%R) by (apply HS; lia). assert (S (p - 2) <> 0%R) by (apply HS; lia).
  rewrite Hss in A. rewrite A in H1. replace (s * (ta * s * 0 * ccc * (E (p - 3)%Z * S (p - 2)%Z)))%R with 0%R in H1 by ring. apply Rmult_integral in H1. destruct H1 as [H1|H1]; [exact H1|].
  exfalso. rewrite H1, !Rmult_0_r, Rminus_0_l in H2. assert (Z0 : sg = 0%R) by nra. rewrite Z0, !Rminus_0_r in *.
  set (a := S (p - 1)) in *. set (b := S (p - 2)) in *. set (e := E (p - 2)) in *.
  assert (Q : ((b * b + e * e) * (a * a) = e * a * (e * a))%R). { rewrite T1. transitivity ((b * b + e * e) * ta * (- (e * a)))%R; [ring|]. rewrite T2. ring. }
  assert (Q2 : (b * b * (a * a) = 0)%R) by lra. apply Rmult_integral in Q2. destruct Q2 as [Q2|Q2]; apply Rmult_integral in Q2; tauto.
Qed.
Lemma case3_shrink : k <= p - 3 ->
  (Rabs (it_S z (p - 1)%Z * it_E z (p - 2)%Z) * Rabs (it_S z (p - 1)%Z * it_E z (p - 2)%Z) * Rabs (it_S z (p - 2)%Z * it_E z (p - 3)%Z) <=
    4 / 5 * (Rabs (S (p - 1)%Z * E (p - 2)%Z) * Rabs (S (p - 1)%Z * E (p - 2)%Z) * Rabs (S (p - 2)%Z * E (p - 3)%Z)))%R.
Proof.
  intros Hk. destruct (shift_wilkinson p k S E ltac:(apply HS; lia) ltac:(apply HE; lia)) as (sc & sg & ta & Hsc & Ef & Eg & T1 & T2 & T3).
  destruct (wk_iter m p k S E sg HS HE U V _ _ sc ltac:(lia) Hsc Ef Eg (p - 2 - k) ltac:(lia) ltac:(lia)) as (c & s & cc & ss & ccc & r & W).
  replace (k + (p - 2 - k) + 1) with (p - 1) in W by lia. replace (p - 2 - k + 1) with (p - 1 - k) in W by lia.
  unfold z, c3_fin. set (x := c3_iter (O := ROps) m k (p - 1 - k) _) in *. cbn [it_E it_S]. unfold vset. rewrite Z.eqb_refl. replace (p - 3 =? p - 2) with false by (symmetry; apply Z.eqb_neq; lia).
  destruct W as (Hcs & Hccs & Hccc & Hs & _ & _ & H3 & H4 & H1 & H2 & H5 & _ & _). specialize (H5 ltac:(lia)).
  replace (p - 1 - 1) with (p - 2) in * by lia. replace (p - 1 - 2) with (p - 3) in * by lia.
  pose proof (last_shrink c s cc ss ccc r (S (p - 2)%Z * S (p - 2)%Z + E (p - 2)%Z * E (p - 2)%Z) (S (p - 1)%Z * S (p - 1)%Z) sg (E (p - 2)%Z * S (p - 1)%Z) (E (p - 3)%Z * S (p - 2)%Z) ta _ Hcs Hccs Hccc H3 H4 eq_refl T1 T2 T3) as A.
  rewrite <- H1 in A. rewrite <- H5 in A. rewrite (Rmult_comm (it_S x (p - 1))), (Rmult_comm (it_S x (p - 2))), (Rmult_comm (S (p - 1))), (Rmult_comm (S (p - 2))). exact A.
Qed.
End Case3.

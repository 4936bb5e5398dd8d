(** The singular value iteration ends, in exact arithmetic. *)
From Coq Require Import Reals ZArith QArith List Lia Lra Psatz Bool.
From Verif Require Import Base BaseLemmas Scalar Vector VecSpec VectorFacts Matrix MatSpec MatFacts TabTac FSum RealOps RSum Tri House QR QRSpec QRFacts QRReal QRReal2 CholFacts HessReal Frob EigenFacts SchurReal SVD SVDFacts SVDFacts2 SVDFacts3 SVDReal SVDReal2 SVDReal3 SVDReal4 SVDReal5 SVDReal6 SVDOrder BidiagFacts SVDTerm SVDConv SVDConv2 SVDPropsR SVDSpecR.
Open Scope Z_scope.

(** The quantity that shrinks. *)
Definition potv (p : Z) (S E : Z -> R) : R := (Rabs (S (p - 1)%Z * E (p - 2)%Z) * Rabs (S (p - 1)%Z * E (p - 2)%Z) * Rabs (S (p - 2)%Z * E (p - 3)%Z))%R.
Definition pot (y : sv_t (O := ROps)) : R := if t_p y <? 3 then 0%R else potv (t_p y) (t_S y) (t_E y).

Section Prog.
Variables m n : Z.
Variable A : Z -> Z -> R.
Hypothesis Hn : 1 <= n.
Hypothesis Hm : n <= m.
Let N : R := nFr m n A.

Lemma prod6 (a b c d t : R) : (0 < t)%R -> (t < Rabs a)%R -> (t < Rabs b)%R -> (t < Rabs c)%R -> (t < Rabs d)%R -> (t ^ 6 < Rabs (a * b) * Rabs (a * b) * Rabs (c * d))%R.
Proof.
  intros Ht Ha Hb Hc Hd. rewrite !Rabs_mult. assert (K1 : (t * t < Rabs a * Rabs b)%R) by (apply Rmult_le_0_lt_compat; lra). assert (K2 : (t * t < Rabs c * Rabs d)%R) by (apply Rmult_le_0_lt_compat; lra).
  assert (K3 : (t * t * (t * t) < Rabs a * Rabs b * (Rabs a * Rabs b))%R) by (apply Rmult_le_0_lt_compat; nra).
  replace (t ^ 6)%R with (t * t * (t * t) * (t * t))%R by ring. apply Rmult_le_0_lt_compat; nra.
Qed.
Lemma prod6_le (a b c d t : R) : (Rabs a <= t)%R -> (Rabs b <= t)%R -> (Rabs c <= t)%R -> (Rabs d <= t)%R -> (Rabs (a * b) * Rabs (a * b) * Rabs (c * d) <= t ^ 6)%R.
Proof.
  intros Ha Hb Hc Hd. rewrite !Rabs_mult. pose proof (Rabs_pos a). pose proof (Rabs_pos b). pose proof (Rabs_pos c). pose proof (Rabs_pos d).
  assert (K1 : (Rabs a * Rabs b <= t * t)%R) by (apply Rmult_le_compat; auto). assert (K2 : (Rabs c * Rabs d <= t * t)%R) by (apply Rmult_le_compat; auto).
  assert (P1 : (0 <= Rabs a * Rabs b)%R) by nra. assert (P2 : (0 <= Rabs c * Rabs d)%R) by nra.
  assert (K3 : (Rabs a * Rabs b * (Rabs a * Rabs b) <= t * t * (t * t))%R) by (apply Rmult_le_compat; auto).
  replace (t ^ 6)%R with (t * t * (t * t) * (t * t))%R by ring. apply Rmult_le_compat; auto. nra.
Qed.
Lemma pot_bound y : sv_inv m n A y -> (pot y <= N ^ 6)%R.
Proof.
  intros (HI & _ & Hp). assert (0 <= N)%R by apply sqrt_pos. unfold pot. destruct (Z.ltb_spec (t_p y) 3); [apply pow_le; auto|]. unfold potv.
  apply prod6_le; try (eapply (core_S m n A); [exact HI|lia]); eapply (core_E m n A); [exact HI|lia|exact HI|lia].
Qed.
Lemma pot_nonneg y : (0 <= pot y)%R.
Proof. unfold pot. destruct (t_p y <? 3); [lra|]. unfold potv. apply Rmult_le_pos; [apply Rmult_le_pos|]; apply Rabs_pos. Qed.

Lemma sv_prog x y : sv_inv m n A x -> 1 <= t_p x <= n -> svR m n x y ->
  (t_p y = t_p x - 1 /\ (Zc n (t_E x) <= Zc n (t_E y))%R) \/
  (t_p y = t_p x /\ (Zc n (t_E x) + 1 <= Zc n (t_E y))%R) \/
  (t_p y = t_p x /\ (Zc n (t_E x) <= Zc n (t_E y))%R /\ (tinyR ^ 6 < pot x)%R /\ (pot y <= 4 / 5 * pot x)%R).
Proof.
  intros (HI & HE & _) Hp R. destruct R as [S E U V p q Sc k S1 Hq _ _ | S E U V p k Sc Hk Hnot | S E U V p k Sc Hk Hle | S E U V p k ks Sc Hk Hks Hle]; cbn [t_S t_E t_U t_V t_p] in *.
  - left. split; [reflexivity|]. apply Zc_mono. intros i Hi Ei. rewrite zeroE_val. zbq; auto.
  - right. assert (Hk' : -1 <= k) by (destruct Sc; lia). set (E1 := zeroE (O := ROps) k E) in *.
    assert (HE1 : forall i, k + 1 <= i <= p - 2 -> E1 i <> 0%R) by (intros i Hi; unfold E1; rewrite zeroE_val; zbq; apply (scan_ne p S E k); auto; lia).
    assert (HEp : forall i, p - 1 <= i < n -> E1 i = 0%R) by (intros i Hi; unfold E1; rewrite zeroE_val; zbq; auto; apply HE; lia).
    assert (HE0 : k + 1 = 0 \/ E1 (k + 1 - 1) = 0%R). { destruct (Z.eq_dec k (-1)); [left; lia|right]. replace (k + 1 - 1) with k by lia. unfold E1. rewrite zeroE_val. zbq; auto. }
    assert (HSt : forall i, k + 1 <= i <= p - 1 -> (tinyR < Rabs (S i))%R).
    { intros i Hi. specialize (Hnot i ltac:(lia)). apply Rleb_false in Hnot. change (@fabs ROps) with Rabs in Hnot. eapply Rle_lt_trans; [|exact Hnot]. unfold tolS. rops. fold tinyR epsR.
      assert (Q : (0 <= (if negb (i =? k + 1) then (if negb (i =? p) then Rabs (E1 i) else 0) + Rabs (E1 (i - 1)%Z) else if negb (i =? p) then Rabs (E1 i) else 0))%R).
      { pose proof (Rabs_pos (E1 i)). pose proof (Rabs_pos (E1 (i - 1))). destruct (negb (i =? k + 1)), (negb (i =? p)); lra. }
      change (tinyR <= tinyR + epsR * (if negb (i =? k + 1) then (if negb (i =? p) then Rabs (E1 i) else 0) + Rabs (E1 (i - 1)%Z) else if negb (i =? p) then Rabs (E1 i) else 0))%R.
      pose proof epsR_pos. nra. }
    assert (HEt : forall i, k + 1 <= i <= p - 2 -> (tinyR < Rabs (E i))%R).
    { intros i Hi. destruct Sc as (_ & H & _). specialize (H i ltac:(lia)). apply Rltb_true in H. change (thrE (O := ROps) S i) with (tinyR + epsR * (Rabs (S i) + Rabs (S (i + 1)%Z)))%R in H. change (@fabs ROps) with Rabs in H.
      pose proof epsR_pos. pose proof (Rabs_pos (S i)). pose proof (Rabs_pos (S (i + 1))). nra. }
    assert (HS1 : forall i, k + 1 <= i <= p - 1 -> S i <> 0%R). { intros i Hi Z0. specialize (HSt i Hi). rewrite Z0, Rabs_R0 in HSt. pose proof tinyR_pos. lra. }
    assert (Hg : snd (shiftF (O := ROps) p (k + 1) S E1) <> 0%R).
    { destruct (shift_wilkinson p (k + 1) S E1 ltac:(apply HS1; lia) ltac:(apply HE1; lia)) as (sc & sg & ta & Hsc & _ & Eg & _). intros K. rewrite K in Eg. pose proof (HS1 (k + 1) ltac:(lia)). pose proof (HE1 (k + 1) ltac:(lia)).
      rewrite Rmult_0_l in Eg. symmetry in Eg. apply Rmult_integral in Eg. tauto. }
    pose proof (case3_iter m n p (k + 1) ltac:(lia) ltac:(lia) Hm S E1 U V (fst (shiftF (O := ROps) p (k + 1) S E1)) _ HS1 HE1 HE0 HEp Hg (p - 1 - (k + 1)) ltac:(lia)) as K.
    replace (k + 1 + (p - 1 - (k + 1))) with (p - 1) in K by lia. destruct K as (_ & _ & _ & KE & Kp & Kl).
    pose proof (case3_two m p (k + 1) S E1 U V HS1 HE1) as Tw. pose proof (case3_shrink m p (k + 1) S E1 U V HS1 HE1) as Sh.
    set (z := c3_fin (O := ROps) m p (k + 1) S E1 U V) in *.
    assert (HZ : forall i, 0 <= i < n - 1 -> E i = 0%R -> it_E z i = 0%R).
    { intros i Hi Ei. assert (Ei1 : E1 i = 0%R) by (unfold E1; rewrite zeroE_val; zbq; auto). unfold z, c3_fin. cbn [it_E]. unfold vset. destruct (Z.eqb_spec i (p - 2)) as [->|]; [exfalso; apply (HE1 (p - 2)); auto; lia|].
      destruct (Z.lt_ge_cases i (k + 1)); [rewrite Kl by lia; auto|]. destruct (Z.le_gt_cases i (p - 2)); [exfalso; apply (HE1 i); auto; lia|].
      destruct (Z.eq_dec i (p - 1)) as [->|]; [auto|]. destruct (KE i ltac:(lia)) as [-> _]. auto. }
    unfold of_it. cbn [t_p t_E t_S]. destruct (Z.eq_dec (k + 1) (p - 2)) as [Ek|Ek].
    + left. split; [auto|]. apply (Zc_inc n E _ (p - 2)); auto; try lia. intros Z0. apply (scan_ne p S E k (p - 2) Sc); auto. lia.
    + right. split; [auto|]. split; [apply Zc_mono; auto|]. unfold pot. cbn [t_p t_S t_E]. replace (p <? 3) with false by (symmetry; apply Z.ltb_ge; lia). unfold potv. split.
      * apply prod6; [apply tinyR_pos|apply HSt; lia|apply HEt; lia|apply HSt; lia|apply HEt; lia].
      * assert (E1 (p - 2) = E (p - 2)) as <- by (unfold E1; rewrite zeroE_val; zbq; auto). assert (E1 (p - 3) = E (p - 3)) as <- by (unfold E1; rewrite zeroE_val; zbq; auto). apply Sh. lia.
  - right. left. split; [reflexivity|]. assert (Hk' : -1 <= k) by (destruct Sc; lia). set (E1 := zeroE (O := ROps) k E) in *.
    assert (HE1 : forall i, k + 1 <= i <= p - 2 -> E1 i <> 0%R) by (intros i Hi; unfold E1; rewrite zeroE_val; zbq; apply (scan_ne p S E k); auto; lia).
    assert (HEp : forall i, p - 1 <= i < n -> E1 i = 0%R) by (intros i Hi; unfold E1; rewrite zeroE_val; zbq; auto; apply HE; lia).
    assert (HE0 : k + 1 = 0 \/ E1 (k + 1 - 1) = 0%R). { destruct (Z.eq_dec k (-1)); [left; lia|right]. replace (k + 1 - 1) with k by lia. unfold E1. rewrite zeroE_val. zbq; auto. }
    pose proof (case1_iter m n p (k + 1) ltac:(lia) ltac:(lia) (vset (O := ROps) S (p - 1) 0%R) E1 U V ltac:(unfold vset; rewrite Z.eqb_refl; auto) HE1 HE0 (p - 1 - (k + 1)) ltac:(lia)) as K.
    cbv zeta in K. unfold of_it, c1_fin. change (@fzero ROps) with 0%R. set (x := c1_iter (O := ROps) p (k + 1) (p - 1 - (k + 1)) _) in *. replace (p - 1 - (p - 1 - (k + 1))) with (k + 1) in K by lia.
    destruct K as (_ & _ & _ & KE & Kp & Kl & K0). cbn [t_E]. apply (Zc_inc n E _ (p - 2)); auto; try lia.
    + intros i Hi Ei. assert (Ei1 : E1 i = 0%R) by (unfold E1; rewrite zeroE_val; zbq; auto). destruct (Z.lt_ge_cases i (k + 1)); [rewrite K0 by lia; auto|]. destruct (Z.eq_dec i (p - 2)) as [->|]; [auto|].
      destruct (Z.le_gt_cases (p - 1) i); [destruct (Kl i ltac:(lia)) as [-> _]; auto|]. exfalso; apply (HE1 i); auto; lia.
    + intros Z0. apply (scan_ne p S E k (p - 2) Sc); auto. lia.
  - right. left. split; [reflexivity|]. assert (Hk' : -1 <= k) by (destruct Sc; lia). set (E1 := zeroE (O := ROps) k E) in *.
    assert (HE1 : forall i, k + 1 <= i <= p - 2 -> E1 i <> 0%R) by (intros i Hi; unfold E1; rewrite zeroE_val; zbq; apply (scan_ne p S E k); auto; lia).
    assert (HEp : forall i, p - 1 <= i < n -> E1 i = 0%R) by (intros i Hi; unfold E1; rewrite zeroE_val; zbq; auto; apply HE; lia).
    pose proof (case2_iter m n p (ks + 1) ltac:(lia) ltac:(lia) (vset (O := ROps) S ks 0%R) E1 U V) as K.
    replace (ks + 1 - 1) with ks in K by lia. specialize (K ltac:(unfold vset; rewrite Z.eqb_refl; auto) ltac:(intros; apply HE1; lia) HEp (p - (ks + 1)) ltac:(lia)).
    cbv zeta in K. unfold of_it, c2_fin. change (@fzero ROps) with 0%R. replace (ks + 1 - 1) with ks by lia.
    set (x := c2_iter (O := ROps) (ks + 1) (p - (ks + 1)) _) in *. replace (ks + 1 + (p - (ks + 1))) with p in K by lia.
    destruct K as (_ & _ & _ & KE & Kp & Kl & _ & KP). cbn [t_E]. apply (Zc_inc n E _ ks); auto; try lia.
    + intros i Hi Ei. assert (Ei1 : E1 i = 0%R) by (unfold E1; rewrite zeroE_val; zbq; auto). destruct (Z.lt_ge_cases i ks); [rewrite Kl by lia; auto|]. destruct (Z.eq_dec i ks) as [->|]; [auto|].
      destruct (Z.le_gt_cases p i); [destruct (KE i ltac:(lia)) as [-> _]; auto|]. destruct (Z.eq_dec i (p - 1)) as [->|]; [auto|exfalso; apply (HE1 i); auto; lia].
    + intros Z0. apply (scan_ne p S E k ks Sc); auto. lia.
Qed.

(** The number of turns. *)
Variable M : nat.
Hypothesis HM : ((4 / 5) ^ M * N ^ 6 <= tinyR ^ 6)%R.
Lemma sv_bound x k y : sv_inv m n A x -> t_p x = n -> svRk (O := ROps) m n x k y ->
  sv_inv m n A y /\ exists l, (l <= M)%nat /\ ((4 / 5) ^ l * pot y <= tinyR ^ 6)%R /\
    (INR k + (IZR (t_p y) + IZR (n - 1) - Zc n (t_E y)) * (INR M + 1) + INR l <= (IZR n + IZR (n - 1)) * (INR M + 1) + INR M)%R.
Proof.
  intros Ix Ep. induction 1 as [|k y z R IH Hp Rz].
  - split; [auto|]. exists M. split; [lia|]. split.
    + eapply Rle_trans; [|exact HM]. apply Rmult_le_compat_l; [apply pow_le; lra|apply pot_bound; auto].
    + rewrite Ep. cbn [INR]. assert (0 <= Zc n (t_E x))%R by (unfold Zc; apply Rs_nonneg; intros i Hi; destruct (Reqb _ _); lra). pose proof (pos_INR M). nra.
  - destruct IH as (Iy & l & Hl & Hpot & Hk). pose proof (sv_inv_step m n A Hm y z Iy Hp Rz) as Iz. split; [auto|]. rewrite S_INR. pose proof (pos_INR M) as PM. pose proof (pos_INR l) as Pl.
    assert (Hz : ((4 / 5) ^ M * pot z <= tinyR ^ 6)%R) by (eapply Rle_trans; [|exact HM]; apply Rmult_le_compat_l; [apply pow_le; lra|apply pot_bound; auto]).
    destruct (sv_prog y z Iy Hp Rz) as [[E1 H1]|[[E1 H1]|(E1 & H1 & H2 & H3)]].
    + exists M. split; [lia|]. split; [auto|]. rewrite E1, minus_IZR. nra.
    + exists M. split; [lia|]. split; [auto|]. rewrite E1. nra.
    + destruct l as [|l].
      * exfalso. cbn [pow] in Hpot. lra.
      * exists l. split; [lia|]. split.
        -- eapply Rle_trans; [|exact Hpot]. rewrite <- tech_pow_Rmult. assert (0 <= (4 / 5) ^ l)%R by (apply pow_le; lra). nra.
        -- rewrite E1. rewrite S_INR in Hk. nra.
Qed.
Lemma sv_turns k y : svRk (O := ROps) m n (sv0 (O := ROps) m n A) k y -> (k < 2 * Z.to_nat n * (M + 1))%nat.
Proof.
  intros R. destruct (sv_bound _ k y (sv_inv_start m n A Hn Hm) eq_refl R) as (Iy & l & Hl & _ & K). destruct Iy as (_ & _ & Hp).
  pose proof (Zc_le n (t_E y) Hn) as Z1. pose proof (pos_INR M) as PM. pose proof (pos_INR l) as Pl. assert (0 <= IZR (t_p y))%R by (apply IZR_le; lia).
  apply INR_lt. rewrite !mult_INR, plus_INR. replace (INR (Z.to_nat n)) with (IZR n) by (rewrite INR_IZR_INZ, Z2Nat.id by lia; auto). cbn [INR]. rewrite minus_IZR in *.
  assert (Q : (0 <= (IZR (t_p y) + (IZR n - 1) - Zc n (t_E y)) * (INR M + 1))%R) by (apply Rmult_le_pos; lra). lra.
Qed.
End Prog.

Lemma exp_small (a b : R) : (0 < b)%R -> exists M, ((4 / 5) ^ M * a <= b)%R.
Proof.
  intros Hb. destruct (Rle_dec a 0) as [Ha|Ha]; [exists 0%nat; cbn [pow]; lra|]. assert (Ha' : (0 < a)%R) by lra.
  destruct (pow_lt_1_zero (4 / 5) ltac:(rewrite Rabs_pos_eq; lra) (b / a) ltac:(apply Rdiv_lt_0_compat; auto)) as [M HM]. exists M. specialize (HM M ltac:(lia)). rewrite Rabs_pos_eq in HM by (apply pow_le; lra).
  apply Rlt_le. apply (Rmult_lt_compat_r a) in HM; auto. replace (b / a * a)%R with b in HM by (field; lra). auto.
Qed.
#[local] Existing Instance ROps.
Lemma wide_frob r c A : 1 <= r -> 1 <= c -> nFr (Z.max r c) (Z.min r c) (wide (O := ROps) r c A) = frob r c A.
Proof.
  intros Hr Hc. unfold wide, flip. destruct (Z.ltb_spec r c).
  - rewrite Z.max_r, Z.min_l by lia. change (fun y x => A x y) with (trm A). change (nFr c r (trm A) = nFr r c A). apply nFr_tr.
  - rewrite Z.max_l, Z.min_r by lia. reflexivity.
Qed.
Theorem sv_term fuel (x : @RealMatrix ROps) r c A M : library x -> MatIs x r c A -> 1 <= r -> 1 <= c ->
  ((4 / 5) ^ M * frob r c A ^ 6 <= (/ 2 ^ 966) ^ 6)%R -> (2 * Z.to_nat (Z.min r c) * (M + 1) <= fuel)%nat ->
  exists d, NewSingularValueDecomposition fuel x = Ok d.
Proof.
  intros Hl Hx Hr Hc HM Hf. pose proof (sv_new_run fuel x r c A Hl Hx Hr Hc) as W. destruct (NewSingularValueDecomposition fuel x) as [d| |]; cbn in W; [eauto|tauto|].
  destruct W as [_ [y R]]. rewrite <- tinyR_val, <- (wide_frob r c A Hr Hc) in HM. pose proof (sv_turns (Z.max r c) (Z.min r c) (wide (O := ROps) r c A) ltac:(lia) ltac:(lia) M HM _ _ R). lia.
Qed.
Theorem sv_returns (x : @RealMatrix ROps) r c A : library x -> MatIs x r c A -> 1 <= r -> 1 <= c -> exists turns d, forall fuel, (turns <= fuel)%nat -> NewSingularValueDecomposition fuel x = Ok d.
Proof.
  intros Hl Hx Hr Hc. destruct (exp_small (frob r c A ^ 6) ((/ 2 ^ 966) ^ 6)) as [M HM]; [rewrite <- tinyR_val; apply pow_lt, tinyR_pos|].
  destruct (sv_term _ x r c A M Hl Hx Hr Hc HM (le_n _)) as [d Hd]. exists (2 * Z.to_nat (Z.min r c) * (M + 1))%nat, d. intros fuel Hf. eapply sv_new_more; eauto.
Qed.

Lemma pow45 q : ((4 / 5) ^ (4 * q) <= (/ 2) ^ q)%R.
Proof. rewrite pow_mult. apply pow_incr. cbn [pow]. lra. Qed.
(** The number of turns, from a power of two above the norm. *)
Theorem sv_term_bound fuel (x : @RealMatrix ROps) r c A a : library x -> MatIs x r c A -> 1 <= r -> 1 <= c ->
  (frob r c A <= 2 ^ a)%R -> 2 * Z.min r c * (24 * (966 + Z.of_nat a) + 1) <= Z.of_nat fuel ->
  exists d, NewSingularValueDecomposition fuel x = Ok d.
Proof.
  intros Hl Hx Hr Hc Ha Hf. set (q := (6 * (966 + a))%nat). apply (sv_term fuel x r c A (4 * q)); auto; [|unfold q; lia].
  assert (H0 : (0 <= frob r c A)%R) by apply sqrt_pos. assert (H1 : (frob r c A ^ 6 <= (2 ^ a) ^ 6)%R) by (apply pow_incr; auto). assert (P1 : (0 <= frob r c A ^ 6)%R) by (apply pow_le; auto).
  eapply Rle_trans; [apply Rmult_le_compat; [apply pow_le; lra|exact P1|apply pow45|exact H1]|].
  unfold q. rewrite (Nat.mul_comm 6), pow_mult, <- Rpow_mult_distr. apply pow_incr. rewrite pow_add, !pow_inv.
  assert (P2 : (0 < 2 ^ a)%R) by (apply pow_lt; lra). generalize (966)%nat. intros b. assert (P3 : (0 < 2 ^ b)%R) by (apply pow_lt; lra).
  replace (/ 2 ^ b * / 2 ^ a * 2 ^ a)%R with (/ 2 ^ b)%R by (field; split; lra). split; [apply Rlt_le, Rinv_0_lt_compat; auto|lra].
Qed.

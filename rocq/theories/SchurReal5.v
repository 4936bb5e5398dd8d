(** The Schur transform in exact arithmetic: the error of the whole iteration
    and the quasi-triangular form of the result. *)
From Coq Require Import ZArith QArith List Lia Bool Reals Qreals Lra.
From Verif Require Import Base BaseLemmas Wpe Scalar Vector Matrix Diagonal MatSpec MatFacts TabTac FSum VecSpec RealOps RSum House Frob CholFacts Schur SchurFacts SchurFacts2 SchurReal SchurReal2 SchurReal3 SchurReal4.
Open Scope Z_scope.

(** ** The norm *)
Lemma sc_norm_R n Hm H norm : RTab (O := ROps) Hm n n H -> 0 <= n -> sc_norm (O := ROps) Hm = Ok norm ->
  norm = Rs 0 n (fun i => Rs (Z.max (i - 1) 0) n (fun j => Rabs (H i j))).
Proof.
  intros HT Hn E. assert (W : wp (sc_norm (O := ROps) Hm) (fun v => v = Rs 0 n (fun i => Rs (Z.max (i - 1) 0) n (fun j => Rabs (H i j))))).
  { unfold sc_norm. rewrite (RTab_len _ _ _ _ HT). apply (wp_for (fun k v => v = Rs 0 k (fun i => Rs (Z.max (i - 1) 0) n (fun j => Rabs (H i j))))); [lia|rewrite Rs_nil by lia; auto| |auto].
    intros i v Hi ->. rewrite Rs_last by lia. set (a := Rs 0 i _).
    apply (wp_for (fun k v => v = (a + Rs (Z.max (i - 1) 0) k (fun j => Rabs (H i j)))%R)); [lia|rewrite Rs_nil by lia; rops; lra| |auto].
    intros j v Hj ->. tget. apply wp_ok. rewrite Rs_last by lia. rops. lra. }
  destruct W as (v & E' & Hv). rewrite E in E'. injection E' as <-. auto.
Qed.
Lemma norm_bound n H : 0 <= n -> (Rs 0 n (fun i => Rs (Z.max (i - 1) 0) n (fun j => Rabs (H i j))) <= IZR n * nF n H)%R.
Proof.
  intros Hn. apply Rle_trans with (ip n (fun i j => Rabs (H i j)) (fun _ _ => 1%R)).
  - unfold ip. apply Rs_le. intros i Hi. rewrite (Rs_split 0 (Z.max (i - 1) 0) n) by lia. rewrite (Rs_ext _ n (fun j => Rabs (H i j)) (fun j => Rabs (H i j) * 1)%R) by (intros; ring).
    assert (0 <= Rs 0 (Z.max (i - 1) 0) (fun j => Rabs (H i j) * 1))%R; [|lra]. apply Rs_nonneg. intros. pose proof (Rabs_pos (H i k)). lra.
  - eapply Rle_trans; [apply ip_le_nF|]. assert (E1 : nF n (fun i j => Rabs (H i j)) = nF n H).
    { unfold nF, ip. f_equal. apply Rs_ext. intros. apply Rs_ext. intros. rewrite <- Rabs_mult, Rabs_right; auto. apply Rle_ge, Rle_0_sqr. }
    assert (E2 : nF n (fun _ _ => 1%R) = IZR n).
    { unfold nF, ip. assert (E : forall m, 0 <= m -> Rs 0 m (fun _ => 1 * 1)%R = IZR m).
      { intros m Hm. apply (Rs_ind (fun m => Rs 0 m (fun _ => 1 * 1)%R = IZR m) 0 m Hm); [rewrite Rs_nil by lia; auto|]. intros k Hk IH. rewrite Rs_last, IH, plus_IZR by lia. ring. }
      rewrite (Rs_ext 0 n _ (fun _ => (1 * 1) * IZR n)%R) by (intros; rewrite E by auto; ring). rewrite Rs_scal_r, E by auto. apply sqrt_square. apply IZR_le. auto. }
    rewrite E1, E2. lra.
Qed.
Lemma norm_pos n H i j : hess (O := ROps) n H -> 0 <= i < n -> 0 <= j < n -> H i j <> 0%R -> (0 < Rs 0 n (fun i => Rs (Z.max (i - 1) 0) n (fun j => Rabs (H i j))))%R.
Proof.
  intros Hh Hi Hj Hne. assert (Hle : Z.max (i - 1) 0 <= j). { destruct (Z_lt_dec j (i - 1)); [exfalso; apply Hne, Hh; lia|lia]. }
  pose proof (Rs_term 0 n (fun i => Rs (Z.max (i - 1) 0) n (fun j => Rabs (H i j))) i Hi ltac:(intros; apply Rs_nonneg; intros; apply Rabs_pos)) as K1. cbn beta in K1.
  pose proof (Rs_term (Z.max (i - 1) 0) n (fun j => Rabs (H i j)) j ltac:(lia) ltac:(intros; apply Rabs_pos)) as K2. cbn beta in K2. pose proof (Rabs_pos_lt _ Hne). lra.
Qed.

(** ** The quantities of a turn *)
Lemma root_bound x y w W l : (Rabs x <= W)%R -> (Rabs y <= W)%R -> (Rabs w <= W * W)%R -> ((y - l) * (x - l) = w)%R -> (Rabs l <= 3 * W)%R.
Proof.
  intros Hx Hy Hw E. destruct (Rle_dec (Rabs l) (3 * W)) as [|C]; auto. exfalso. apply Rnot_le_lt in C. pose proof (Rabs_pos x). assert (W0 : (0 <= W)%R) by lra.
  assert (A1 : (Rabs l - W <= Rabs (y - l))%R). { pose proof (Rabs_triang_inv l y). rewrite (Rabs_minus_sym y l). lra. }
  assert (A2 : (Rabs l - W <= Rabs (x - l))%R). { pose proof (Rabs_triang_inv l x). rewrite (Rabs_minus_sym x l). lra. }
  assert (A3 : ((2 * W) * (2 * W) < (Rabs l - W) * (Rabs l - W))%R). { apply Rmult_le_0_lt_compat; lra. }
  assert (A4 : ((Rabs l - W) * (Rabs l - W) <= Rabs (y - l) * Rabs (x - l))%R) by (apply Rmult_le_compat; lra). rewrite <- Rabs_mult, E in A4.
  assert (0 <= W * W)%R by (apply Rmult_le_pos; auto). lra.
Qed.
Section Turn.
Variables (n : Z) (A : Z -> Z -> R) (norm : R).
Hypothesis Hn : 0 <= n.
Hypothesis Hnorm0 : (0 < norm)%R.
Hypothesis Hnorm : (norm <= IZR n * nF n A)%R.
Definition tau (W : R) : R := (deps * ((IZR n + 8) * W))%R.
Definition turncost (W : R) : R := (10 * tau W + IZR n * deps)%R.
(** entry (l, l-1) is negligible *)
Definition small (W : R) (T : Z -> Z -> R) (l : Z) : Prop := 1 <= l < n -> (Rabs (T l (l - 1)%Z) <= tau W)%R.
(** rows and columns l-1, l are a 2x2 block with a pair of complex eigenvalues *)
Definition cblock (T : Z -> Z -> R) (l : Z) : Prop :=
  (((T (l - 1)%Z (l - 1)%Z - T l l) / 2) * ((T (l - 1)%Z (l - 1)%Z - T l l) / 2) + T l (l - 1)%Z * T (l - 1)%Z l < 0)%R.
Definition quasi (W : R) (T : Z -> Z -> R) (iu : Z) : Prop :=
  small W T (iu + 1) /\ forall l, iu < l < n -> small W T l \/ (iu < l - 1 /\ small W T (l - 1) /\ small W T (l + 1) /\ cblock T l).
Definition sinv (d : R) (s : sstate (O := ROps)) : Prop :=
  let '((T, P), ex, _, iu) := s in
  -1 <= iu < n /\ (0 <= d)%R /\ sim n P A (madd T (dg iu ex)) d /\ hess (O := ROps) n T /\ (Rabs ex <= 3 * (nF n A + d))%R /\ quasi (nF n A + d) T iu.
Lemma tau_le W W' : (W <= W')%R -> (tau W <= tau W')%R.
Proof. intros H. unfold tau. pose proof deps_pos. apply IZR_le in Hn. apply Rmult_le_compat_l; [lra|]. apply Rmult_le_compat_l; lra. Qed.
Lemma tau_pos W : (0 <= W)%R -> (0 <= tau W)%R.
Proof. intros H. unfold tau. pose proof deps_pos. apply IZR_le in Hn. apply Rmult_le_pos; [lra|apply Rmult_le_pos; lra]. Qed.
Lemma small_le W W' T l : (W <= W')%R -> small W T l -> small W' T l.
Proof. intros H S Hl. eapply Rle_trans; [apply S; auto|apply tau_le; auto]. Qed.
Lemma small_ext W T T' l : (1 <= l < n -> T' l (l - 1) = T l (l - 1)) -> small W T l -> small W T' l.
Proof. intros H S Hl. rewrite H by auto. apply S. auto. Qed.
Lemma quasi_step W W' T T' iu : (W <= W')%R -> quasi W T iu -> 0 <= iu -> (forall i j, iu < i < n -> 0 <= j < n -> T' i j = T i j) -> quasi W' T' iu.
Proof.
  intros HW [Q1 Q2] Hi HT. assert (S : forall l, iu < l -> small W T l -> small W' T' l).
  { intros l Hl Hs. apply (small_ext W' T); [intros; apply HT; lia|]. eapply small_le; eauto. }
  split; [apply S; auto; lia|]. intros l Hl. destruct (Q2 l Hl) as [K|(K1 & K2 & K3 & K4)]; [left; apply S; auto; lia|]. right.
  split; [auto|]. split; [apply S; auto|]. split; [apply S; auto; lia|]. unfold cblock in *. rewrite !HT by lia. auto.
Qed.
Lemma smallF_small W T l : (nF n A <= W)%R -> 1 <= l < n -> (Rabs (T (l - 1)%Z (l - 1)%Z) <= 4 * W)%R -> (Rabs (T l l) <= 4 * W)%R -> smallF (O := ROps) norm T l = true -> (Rabs (T l (l - 1)%Z) <= tau W)%R.
Proof.
  intros HW Hl H1 H2 H. unfold smallF in H. rops. apply Rltb_true in H. fold deps in H. unfold tau. eapply Rle_trans; [left; exact H|]. pose proof deps_pos. apply Rmult_le_compat_l; [lra|].
  pose proof (IZR_le _ _ Hn) as N0. assert (W0 : (0 <= W)%R) by (pose proof (nF_nonneg n A); lra). assert (NW : (IZR n * nF n A <= IZR n * W)%R) by (apply Rmult_le_compat_l; lra).
  assert (0 <= IZR n * W)%R by (apply Rmult_le_pos; lra).
  destruct (Reqb _ 0); lra.
Qed.
Lemma found_nz T iu k l : found (O := ROps) norm T iu l -> l < k <= iu -> T k (k - 1) <> 0%R.
Proof.
  intros (_ & _ & H) Hk E. specialize (H k Hk). unfold smallF in H. rops. apply Rltb_false in H. fold deps in H. rewrite E, Rabs_R0 in H. pose proof deps_pos.
  set (s := (Rabs (T (k - 1)%Z (k - 1)%Z) + Rabs (T k k))%R) in *. assert (0 < (if Reqb s 0 then norm else s))%R.
  { destruct (Reqb s 0) eqn:Es; auto. apply Reqb_false in Es. pose proof (Rabs_pos (T (k - 1)%Z (k - 1)%Z)). pose proof (Rabs_pos (T k k)). unfold s in *. lra. }
  assert (0 < deps * (if Reqb s 0 then norm else s))%R by (apply Rmult_lt_0_compat; auto). lra.
Qed.
(** entries of T *)
Lemma entry_W P T ex iu d i j : sim n P A (madd T (dg iu ex)) d -> 0 <= i < n -> 0 <= j < n -> (Rabs (madd T (dg iu ex) i j) <= nF n A + d)%R.
Proof.
  intros [Ho H] Hi Hj. pose proof (nF_entry n (madd T (dg iu ex)) i j Hi Hj) as K. pose proof (nF_le_sum n A _ d H) as K2. rewrite nF_conj in K2 by auto. lra.
Qed.
Lemma diag_W P T ex iu d i : sim n P A (madd T (dg iu ex)) d -> (Rabs ex <= 3 * (nF n A + d))%R -> 0 <= i < n -> (Rabs (T i i) <= 4 * (nF n A + d))%R.
Proof.
  intros H He Hi. pose proof (entry_W P T ex iu d i i H Hi Hi) as K. unfold madd, dg in K. rewrite Z.eqb_refl in K. cbn [andb] in K. pose proof (Rabs_pos ex).
  destruct (i <=? iu).
  - replace (T i i) with ((T i i + ex) - ex)%R by ring. eapply Rle_trans; [apply Rabs_triang|]. rewrite Rabs_Ropp. lra.
  - rewrite Rplus_0_r in K. lra.
Qed.
Lemma cost_pos W : (0 <= W)%R -> (0 <= turncost W)%R.
Proof. intros H. unfold turncost. pose proof (tau_pos W H). pose proof deps_pos. pose proof (IZR_le _ _ Hn). assert (0 <= IZR n * deps)%R by (apply Rmult_le_pos; lra). lra. Qed.
Lemma cost_6 W : (0 <= W)%R -> (6 * tau W <= turncost W)%R.
Proof. intros H. unfold turncost. pose proof (tau_pos W H). pose proof deps_pos. pose proof (IZR_le _ _ Hn). assert (0 <= IZR n * deps)%R by (apply Rmult_le_pos; lra). lra. Qed.

Lemma turn_one_inv T P ex it iu d : found (O := ROps) norm T iu iu -> sinv d ((T, P), ex, it, iu) -> sinv d ((tset (O := ROps) T iu iu (T iu iu + ex)%R, P), ex, 0, iu - 1).
Proof.
  intros Hf (Hi & Hd & Hs & Hh & He & Hq). pose proof Hf as (Hl & Hsm & _). set (T' := tset (O := ROps) T iu iu (T iu iu + ex)%R).
  assert (ET : forall i j, ~ (i = iu /\ j = iu) -> T' i j = T i j). { intros i j Hne. unfold T', tset. zb0; cbn [andb]; auto; exfalso; tauto. }
  assert (W0 : (0 <= nF n A + d)%R) by (pose proof (nF_nonneg n A); lra).
  split; [lia|]. split; [auto|]. split; [|split; [|split; [auto|]]].
  - eapply sim_ext; [exact Hs|apply meq_refl|apply meq_refl| |lra]. intros i j Hi' Hj. unfold madd, dg, T', tset. rops. zb0; cbn [andb]; subst; try lra; try (exfalso; lia).
  - intros i j Hj Hij. rewrite ET by lia. apply Hh; auto.
  - destruct Hq as [Q1 Q2].
    assert (S0 : small (nF n A + d) T' iu).
    { intros Hr. rewrite ET by lia. apply smallF_small; auto; try lra; try lia.
      - eapply diag_W; eauto. lia.
      - eapply diag_W; eauto. lia.
      - apply Hsm. lia. }
    split; [replace (iu - 1 + 1) with iu by lia; auto|]. intros l Hl'. destruct (Z.eq_dec l iu) as [->|Hne]; [left; auto|].
    destruct (Q2 l ltac:(lia)) as [K|(K1 & K2 & K3 & K4)]; [left; eapply small_ext; [|exact K]; intros; apply ET; lia|].
    right. split; [lia|]. split; [eapply small_ext; [|exact K2]; intros; apply ET; lia|]. split; [eapply small_ext; [|exact K3]; intros; apply ET; lia|].
    unfold cblock in *. rewrite !ET by lia. auto.
Qed.

(** the rotation of a pair of real roots *)
Lemma two_rot T iu : T iu (iu - 1) <> 0%R -> fst (twoR (O := ROps) iu T) = true ->
  let '(p, q) := snd (twoR (O := ROps) iu T) in (p * p + q * q = 1)%R /\
    (q * (q * T iu (iu - 1)%Z - p * T (iu - 1)%Z (iu - 1)%Z) + p * (q * T iu iu - p * T (iu - 1)%Z iu) = 0)%R.
Proof.
  intros Hx Hb. unfold twoR in *. rops. cbn [fst snd] in *. unfold fge in *. rops. replace (@flit ROps 2%Q) with 2%R in * by (change (@flit ROps) with Q2R; unfold Q2R; cbn [Qnum Qden]; lra).
  set (a := T (iu - 1) (iu - 1)) in *. set (b := T (iu - 1) iu) in *. set (c := T iu (iu - 1)) in *. set (e := T iu iu) in *. apply Rleb_true in Hb.
  set (u := ((a - e) / 2)%R) in *. set (y := (u * u + c * b)%R) in *. rewrite (Rabs_right y) in * by lra.
  set (z := if Rleb 0 u then (u + sqrt y)%R else (u - sqrt y)%R).
  assert (Ez : (z * z - 2 * u * z - c * b = 0)%R). { pose proof (sqrt_sqrt y Hb) as Q. unfold z. destruct (Rleb 0 u); unfold y in *; lra. }
  set (s := (Rabs c + Rabs z)%R). assert (S0 : (0 < s)%R) by (unfold s; pose proof (Rabs_pos_lt c Hx); pose proof (Rabs_pos z); lra).
  set (m := (c / s * (c / s) + z / s * (z / s))%R).
  assert (M0 : (0 < m)%R). { unfold m. assert (0 < c / s * (c / s))%R. { apply Rsqr_pos_lt. unfold Rdiv. apply Rmult_integral_contrapositive_currified; auto. apply Rinv_neq_0_compat. lra. } pose proof (Rle_0_sqr (z / s)). unfold Rsqr in *. lra. }
  pose proof (sqrt_lt_R0 m M0) as R0. pose proof (sqrt_sqrt m ltac:(lra)) as Rq. set (r := sqrt m) in *. split.
  - replace (c / s / r * (c / s / r) + z / s / r * (z / s / r))%R with (m / (r * r))%R by (unfold m; field; lra). rewrite Rq. field. lra.
  - replace (z / s / r * (z / s / r * c - c / s / r * a) + c / s / r * (z / s / r * e - c / s / r * b))%R with (c / (s * s * r * r) * (z * z - 2 * u * z - c * b))%R by (unfold u; field; lra).
    rewrite Ez. ring.
Qed.
Lemma turn_two_inv T P ex it iu d : found (O := ROps) norm T iu (iu - 1) -> sinv d ((T, P), ex, it, iu) -> sinv (d + turncost (nF n A + d)) (twoF (O := ROps) n iu ex (T, P), ex, 0, iu - 2).
Proof.
  intros Hf (Hi & Hd & Hs & Hh & He & Hq). pose proof Hf as (Hl & Hsm & _). assert (Hi1 : 1 <= iu) by lia.
  assert (W0 : (0 <= nF n A + d)%R) by (pose proof (nF_nonneg n A); lra). pose proof (cost_pos _ W0) as Cp. pose proof (cost_6 _ W0) as C6. pose proof (tau_pos _ W0) as T0.
  pose proof (found_nz T iu iu (iu - 1) Hf ltac:(lia)) as Hx. pose proof (two_rot T iu Hx) as Hrot.
  set (T2 := twoD (O := ROps) iu ex T).
  assert (E2 : forall i j, i <> j -> T2 i j = T i j). { intros i j Hne. unfold T2, twoD, tset. zb0; cbn [andb]; auto. }
  assert (E3 : forall i, 0 <= i < n -> T2 i i = if (iu - 1 <=? i) && (i <=? iu) then (T i i + ex)%R else T i i).
  { intros i Hi'. unfold T2, twoD, tset. rops. zb0; cbn [andb]; subst; auto; try (exfalso; lia). }
  assert (H2 : hess (O := ROps) n T2). { intros i j Hj Hij. rewrite E2 by lia. apply Hh; auto. }
  assert (S2 : sim n P A (madd T2 (dg (iu - 2) ex)) d).
  { eapply sim_ext; [exact Hs|apply meq_refl|apply meq_refl| |lra]. intros i j Hi' Hj. unfold madd, dg. destruct (Z.eqb_spec i j) as [->|Hne]; cbn [andb]; [|rewrite E2; auto].
    rewrite E3 by auto. zb0; cbn [andb]; lra. }
  assert (S1 : small (nF n A + d) T (iu - 1)).
  { intros Hr. apply smallF_small; auto; try lra.
    - eapply diag_W; eauto. lia.
    - eapply diag_W; eauto. lia.
    - apply Hsm. lia. }
  destruct Hq as [Q1 Q2]. unfold twoF. fold T2. destruct (twoR (O := ROps) iu T) as [b [p q]] eqn:Er. cbn [fst snd] in Hrot. destruct b.
  - destruct (Hrot eq_refl) as [Hpq Hz]. set (T' := rotCF (O := ROps) (iu + 1) iu p q (rotRF (O := ROps) iu p q T2)).
    pose proof (rot_sim n iu p q T2 ltac:(lia) Hpq H2) as Sr. fold T' in Sr.
    assert (Sr' : sim n (rotm (- p) q (iu - 1)) T2 T' (6 * tau (nF n A + d))).
    { eapply sim_ext; [exact Sr|apply meq_refl|apply meq_refl|apply meq_refl|]. rewrite !E2 by lia.
      assert (K1 : ((if (2 <=? iu)%Z then 3 * Rabs (T (iu - 1)%Z (iu - 2)%Z) else 0) <= 3 * tau (nF n A + d))%R).
      { destruct (Z.leb_spec 2 iu); [|lra]. specialize (S1 ltac:(lia)). replace (iu - 1 - 1) with (iu - 2) in S1 by lia. lra. }
      assert (K2 : ((if (iu + 1 <? n)%Z then 3 * Rabs (T (iu + 1)%Z iu) else 0) <= 3 * tau (nF n A + d))%R).
      { destruct (Z.ltb_spec (iu + 1) n); [|lra]. specialize (Q1 ltac:(lia)). replace (iu + 1 - 1) with iu in Q1 by lia. lra. }
      lra. }
    pose proof (sim_dg n _ _ _ _ (iu - 2) ex Sr' (rot_fixes n iu p q (iu - 2) ltac:(lia) Hpq ltac:(lia))) as Sd.
    pose proof (sim_trans n _ _ _ _ _ _ _ S2 Sd) as St.
    assert (EP : meq n n (mmul n P (rotm (- p) q (iu - 1))) (rotCF (O := ROps) n iu p q P)).
    { intros i j Hi' Hj. rewrite rotc_mmul by lia. unfold rotc, rotCF. rops. replace (iu - 1 + 1) with iu by lia. zb0; try lra; try (exfalso; lia). }
    assert (ET : forall i j, iu < i < n -> 0 <= j < n -> T' i j = T i j). { intros i j Hi' Hj. unfold T', rotCF, rotRF. zb0. all: destruct (Z.eq_dec i j) as [->|Hne]; [rewrite E3 by lia; zb0; cbn [andb]; auto|apply E2; auto]. }
    assert (Hz' : T' iu (iu - 1) = 0%R).
    { unfold T', rotCF, rotRF. rops. deq. rewrite (E2 iu (iu - 1)), (E2 (iu - 1) iu), (E3 iu), (E3 (iu - 1)) by lia. deq. cbn [andb]. lra. }
    assert (Hl' : T' (iu - 1) (iu - 2) = T (iu - 1) (iu - 2)). { unfold T', rotCF, rotRF. deq. apply E2. lia. }
    split; [lia|]. split; [lra|]. split; [|split; [|split; [lra|]]].
    + eapply sim_ext; [exact St|exact EP|apply meq_refl|apply meq_refl|lra].
    + pose proof (two_hess (O := ROps) n iu ex T P Hi1 Hh) as K. unfold twoF in K. rewrite Er in K. exact K.
    + assert (S : forall l, iu < l -> small (nF n A + d) T l -> small (nF n A + (d + turncost (nF n A + d))) T' l).
      { intros l Hl0 Hsl. apply (small_ext _ T); [intros; apply ET; lia|]. eapply small_le; [|exact Hsl]. lra. }
      assert (S3 : small (nF n A + (d + turncost (nF n A + d))) T' (iu - 1)).
      { apply (small_ext _ T); [intros; replace (iu - 1 - 1) with (iu - 2) by lia; exact Hl'|]. eapply small_le; [|exact S1]. lra. }
      split; [replace (iu - 2 + 1) with (iu - 1) by lia; auto|]. intros l Hl0. destruct (Z.eq_dec l (iu - 1)) as [->|N1]; [left; auto|]. destruct (Z.eq_dec l iu) as [->|N2].
      * left. intros _. rewrite Hz', Rabs_R0. apply tau_pos. lra.
      * destruct (Q2 l ltac:(lia)) as [K|(K1 & K2 & K3 & K4)]; [left; apply S; auto; lia|]. right. split; [lia|]. split; [apply S; auto|]. split; [apply S; auto; lia|]. unfold cblock in *. rewrite !ET by lia. auto.
  - assert (ET : forall i j, iu < i < n -> 0 <= j < n -> T2 i j = T i j). { intros i j Hi' Hj. destruct (Z.eq_dec i j) as [->|Hne]; [rewrite E3 by lia; zb0; cbn [andb]; auto|apply E2; auto]. }
    split; [lia|]. split; [lra|]. split; [|split; [auto|split; [lra|]]].
    + eapply sim_ext; [exact S2|apply meq_refl|apply meq_refl|apply meq_refl|lra].
    + assert (S : forall l, l <> iu -> small (nF n A + d) T l -> small (nF n A + (d + turncost (nF n A + d))) T2 l).
      { intros l Hl0 Hsl. apply (small_ext _ T); [intros; apply E2; lia|]. eapply small_le; [|exact Hsl]. lra. }
      split; [replace (iu - 2 + 1) with (iu - 1) by lia; apply S; auto; lia|]. intros l Hl0. destruct (Z.eq_dec l (iu - 1)) as [->|N1]; [left; apply S; auto; lia|]. destruct (Z.eq_dec l iu) as [->|N2].
      * right. split; [lia|]. split; [apply S; auto; lia|]. split; [apply S; auto; lia|]. unfold cblock. rewrite (E2 iu (iu - 1)), (E2 (iu - 1) iu), (E3 iu), (E3 (iu - 1)) by lia. deq. cbn [andb].
        unfold twoR in Er. rops. injection Er as Eb _ _. unfold fge in Eb. rops. apply Rleb_false in Eb. replace (Q2R 2) with 2%R in Eb by (unfold Q2R; cbn [Qnum Qden]; lra).
        replace (T (iu - 1)%Z (iu - 1)%Z + ex - (T iu iu + ex))%R with (T (iu - 1)%Z (iu - 1)%Z - T iu iu)%R by ring. exact Eb.
      * destruct (Q2 l ltac:(lia)) as [K|(K1 & K2 & K3 & K4)]; [left; apply S; auto; lia|]. right. split; [lia|]. split; [apply S; auto; lia|]. split; [apply S; auto; lia|]. unfold cblock in *. rewrite !ET by lia. auto.
Qed.
Lemma shift_root x y w : (0 < (y - x) / 2 * ((y - x) / 2) + w)%R -> let m := sqrt ((y - x) / 2 * ((y - x) / 2) + w) in
  let sq := if Rltb y x then (- m)%R else m in let s := (x - w / ((y - x) / 2 + sq))%R in ((y - s) * (x - s) = w)%R.
Proof.
  intros H m sq s. set (u := ((y - x) / 2)%R) in *. pose proof (sqrt_lt_R0 _ H) as M0. fold m in M0. pose proof (sqrt_sqrt _ (Rlt_le _ _ H)) as Q. fold m in Q.
  assert (Q' : (sq * sq = u * u + w)%R) by (unfold sq; destruct (Rltb y x); lra).
  assert (N : (u + sq)%R <> 0%R). { unfold sq. destruct (Rltb y x) eqn:E; [apply Rltb_true in E|apply Rltb_false in E]; unfold u; lra. }
  assert (E : (w / (u + sq) = sq - u)%R). { replace w with ((sq - u) * (u + sq))%R by lra. field. auto. }
  unfold s. rewrite E. replace (y - (x - (sq - u)))%R with (u + sq)%R by (unfold u; field). replace (x - (x - (sq - u)))%R with (sq - u)%R by ring. lra.
Qed.
Lemma turn_step_inv T P ex it iu il im h x y w T1 ex' d : found (O := ROps) norm T iu il -> il < iu - 1 -> shiftR (O := ROps) T iu it ex T1 ex' ->
  il <= im <= iu - 2 -> h = initH (O := ROps) T1 x y w im -> (il < im -> twosmall (O := ROps) T1 h im = true) ->
  sinv d ((T, P), ex, it, iu) -> sinv (d + turncost (nF n A + d)) (doubleF (O := ROps) n il im iu h (T1, P), ex', it + 1, iu).
Proof.
  intros Hf Hli Hsh Him Hh0 Htw (Hi & Hd & Hs & Hh & He & Hq). pose proof Hf as (Hl & Hsm & _).
  assert (W0 : (0 <= nF n A + d)%R) by (pose proof (nF_nonneg n A); lra). pose proof (cost_pos _ W0) as Cp. pose proof (tau_pos _ W0) as T0. set (W := (nF n A + d)%R) in *.
  assert (EX : (Rabs ex' <= 3 * W)%R /\ meq n n (madd T (dg iu ex)) (madd T1 (dg iu ex')) /\ forall i j, (i <> j \/ iu < i) -> T1 i j = T i j).
  { destruct Hsh as [(s & Hs' & -> & ->)|[-> ->]]; [|split; [auto|split; [apply meq_refl|auto]]]. split; [|split].
    - rops. destruct Hs' as [[_ ->]|[_ (sq & K1 & K2 & K3)]].
      + pose proof (entry_W P T ex iu d iu iu Hs ltac:(lia) ltac:(lia)) as K. unfold madd, dg in K. rewrite Z.eqb_refl, Z.leb_refl in K. cbn [andb] in K. fold W in K. rewrite Rplus_comm. lra.
      + cbn zeta in K1, K2, K3. rops. replace (@flit ROps 2%Q) with 2%R in * by (change (@flit ROps) with Q2R; unfold Q2R; cbn [Qnum Qden]; lra).
        set (X := T iu iu) in *. set (Y := T (iu - 1) (iu - 1)) in *. set (B := (T iu (iu - 1)%Z * T (iu - 1)%Z iu)%R) in *. apply Rltb_true in K1.
        pose proof (shift_root X Y B K1) as R0. cbn zeta in R0. rewrite <- K2, <- K3 in R0.
        pose proof (entry_W P T ex iu d iu iu Hs ltac:(lia) ltac:(lia)) as E1. pose proof (entry_W P T ex iu d (iu - 1) (iu - 1) Hs ltac:(lia) ltac:(lia)) as E2.
        pose proof (entry_W P T ex iu d iu (iu - 1) Hs ltac:(lia) ltac:(lia)) as E3. pose proof (entry_W P T ex iu d (iu - 1) iu Hs ltac:(lia) ltac:(lia)) as E4.
        unfold madd, dg in E1, E2, E3, E4. rewrite Z.eqb_refl, Z.leb_refl in E1. rewrite Z.eqb_refl in E2. replace (iu - 1 <=? iu) with true in E2 by (symmetry; apply Z.leb_le; lia).
        replace (iu =? iu - 1) with false in E3 by (symmetry; apply Z.eqb_neq; lia). replace (iu - 1 =? iu) with false in E4 by (symmetry; apply Z.eqb_neq; lia). cbn [andb] in E1, E2, E3, E4. fold W X Y in E1, E2, E3, E4. rewrite Rplus_0_r in E3, E4.
        apply (root_bound (X + ex) (Y + ex) B W (ex + s)); auto.
        * unfold B. rewrite Rabs_mult. apply Rmult_le_compat; auto; apply Rabs_pos.
        * rewrite <- R0. ring.
    - intros i j Hi' Hj. unfold madd, dg, subD. rops. destruct (Z.eqb_spec i j) as [->|]; cbn [andb]; [|auto]. destruct (j <=? iu); lra.
    - intros i j Hij. unfold subD. zb0; cbn [andb]; auto. }
  destruct EX as (EX1 & EX2 & EX3).
  assert (S1 : sim n P A (madd T1 (dg iu ex')) d) by (eapply sim_ext; [exact Hs|apply meq_refl|apply meq_refl|exact EX2|lra]).
  assert (H1 : hess (O := ROps) n T1) by (intros i j Hj Hij; rewrite EX3 by lia; apply Hh; auto).
  destruct Hq as [Q1 Q2].
  assert (F1 : first_ok il im h T1 (4 * tau W)).
  { destruct h as [[h0 h1] h2] eqn:Eh. intros Him1. split.
    - intros E. apply Rmult_le_compat_l; [lra|]. rewrite EX3 by lia. rewrite <- E. apply smallF_small; auto; try lia.
      + unfold W. lra.
      + eapply diag_W; eauto. lia.
      + eapply diag_W; eauto. lia.
      + apply Hsm. lia.
    - intros E. specialize (Htw ltac:(lia)). unfold twosmall in Htw. rops. apply Rltb_true in Htw. fold deps in Htw.
      pose proof (diag_W P T1 ex' iu d (im - 1) S1 EX1 ltac:(lia)) as D1. pose proof (diag_W P T1 ex' iu d im S1 EX1 ltac:(lia)) as D2. pose proof (diag_W P T1 ex' iu d (im + 1) S1 EX1 ltac:(lia)) as D3. fold W in D1, D2, D3.
      pose proof (Rabs_pos (T1 im (im - 1)%Z)). pose proof (Rabs_pos h0) as P0. pose proof (Rabs_pos h1). pose proof (Rabs_pos h2). pose proof deps_pos as E0.
      assert (0 <= Rabs (T1 im (im - 1)%Z) * (Rabs h1 + Rabs h2))%R by (apply Rmult_le_pos; lra). split.
      + intros ->. rewrite Rabs_R0 in Htw. lra.
      + assert (K : (deps * (Rabs h0 * (Rabs (T1 (im - 1)%Z (im - 1)%Z) + Rabs (T1 im im) + Rabs (T1 (im + 1)%Z (im + 1)%Z))) <= deps * (Rabs h0 * (12 * W)))%R).
        { apply Rmult_le_compat_l; [lra|]. apply Rmult_le_compat_l; [lra|]. lra. }
        unfold tau. pose proof (IZR_le _ _ Hn) as N0. assert (0 <= deps * (Rabs h0 * W))%R by (apply Rmult_le_pos; [lra|apply Rmult_le_pos; lra]).
        assert (0 <= IZR n * (deps * (Rabs h0 * W)))%R by (apply Rmult_le_pos; lra). lra. }
  destruct (double_sim n il im iu h T1 P (4 * tau W) (3 * tau W) ltac:(lia) ltac:(lia) ltac:(lia) H1 F1 ltac:(lra) ltac:(lra)) as (G & G1 & G2 & G3 & G4).
  { intros Hlt. apply Rmult_le_compat_l; [lra|]. rewrite EX3 by lia. specialize (Q1 ltac:(lia)). replace (iu + 1 - 1) with iu in Q1 by lia. exact Q1. }
  cbn zeta in *. pose proof (double_hess (O := ROps) n il im iu h T1 P ltac:(lia) H1) as H3. destruct (doubleF (O := ROps) n il im iu h (T1, P)) as [T' P']. cbn [fst snd] in *.
  split; [lia|]. split; [lra|]. split; [|split; [auto|split; [assert (EX1' : (Rabs ex' <= 3 * (nF n A + d))%R) by exact EX1; lra|]]].
  - pose proof (sim_trans n _ _ _ _ _ _ _ S1 (sim_dg n _ _ _ _ iu ex' G1 G2)) as St. eapply sim_ext; [exact St|apply meq_sym; exact G3|apply meq_refl|apply meq_refl|]. unfold turncost. lra.
  - apply (quasi_step W _ T); [assert (W = (nF n A + d)%R) by reflexivity; lra|split; auto|lia|]. intros i j Hi' Hj. rewrite G4 by auto. apply EX3. lia.
Qed.
Lemma turn_inv s s' d : turnR (O := ROps) n norm s s' -> sinv d s -> sinv (d + turncost (nF n A + d)) s'.
Proof.
  intros K. destruct K as [T P ex it iu Hf|T P ex it iu Hf|T P ex it iu il im h x y w T1 ex' Hf Hl Hi Hs Hm Hh Ht]; intros Hv.
  - pose proof (turn_one_inv T P ex it iu d Hf Hv) as K. assert (Hd : (0 <= d)%R) by (destruct Hv as (_ & Hd & _); auto).
    assert (W0 : (0 <= nF n A + d)%R) by (pose proof (nF_nonneg n A); lra). pose proof (cost_pos _ W0) as Cp.
    destruct K as (K1 & K2 & K3 & K4 & K5 & K6 & K7). split; [auto|]. split; [lra|]. split; [|split; [auto|split; [lra|]]].
    + eapply sim_ext; [exact K3|apply meq_refl|apply meq_refl|apply meq_refl|lra].
    + assert (S : forall l, small (nF n A + d) (tset (O := ROps) T iu iu (T iu iu + ex)%R) l -> small (nF n A + (d + turncost (nF n A + d))) (tset (O := ROps) T iu iu (T iu iu + ex)%R) l) by (intros l Hl; eapply small_le; [|exact Hl]; lra).
      split; [apply S, K6|]. intros l Hl. destruct (K7 l Hl) as [Y|(Y1 & Y2 & Y3 & Y4)]; [left; apply S; auto|right; auto].
  - apply (turn_two_inv T P ex it iu d Hf Hv).
  - eapply turn_step_inv; eauto.
Qed.
(** ** The iteration *)
Definition err (N : nat) : R := ((1 + 10 * (deps * (IZR n + 8))) ^ N * (nF n A + INR N * (IZR n * deps)) - nF n A)%R.
Lemma err_0 : err 0 = 0%R.
Proof. unfold err. cbn [pow INR]. ring. Qed.
Lemma rate_ge1 : (1 <= 1 + 10 * (deps * (IZR n + 8)))%R.
Proof. pose proof deps_pos. pose proof (IZR_le _ _ Hn). assert (0 <= deps * (IZR n + 8))%R by (apply Rmult_le_pos; lra). lra. Qed.
Lemma err_S N : (err N + turncost (nF n A + err N) <= err (S N))%R.
Proof.
  pose proof rate_ge1 as H. pose proof deps_pos. pose proof (IZR_le _ _ Hn). unfold err, turncost, tau. set (g := (1 + 10 * (deps * (IZR n + 8)))%R) in *. rewrite S_INR. change (g ^ S N)%R with (g * g ^ N)%R.
  pose proof (pow_R1_Rle g N H) as G1. assert (G2 : (1 <= g * g ^ N)%R). { rewrite <- (Rmult_1_l 1). apply Rmult_le_compat; lra. }
  set (e := (IZR n * deps)%R) in *. assert (E0 : (0 <= e)%R) by (apply Rmult_le_pos; lra). set (a := nF n A) in *. set (b := (g ^ N * (a + INR N * e))%R).
  replace (b - a + (10 * (deps * ((IZR n + 8) * (a + (b - a)))) + e))%R with (g * b + e - a)%R by (unfold g; ring).
  replace (g * g ^ N * (a + (INR N + 1) * e) - a)%R with (g * b + (g * g ^ N) * e - a)%R by (unfold b; ring).
  assert (e <= g * g ^ N * e)%R. { rewrite <- (Rmult_1_l e) at 1. apply Rmult_le_compat_r; auto. }
  lra.
Qed.
Lemma err_mono N M : (N <= M)%nat -> (err N <= err M)%R.
Proof.
  intros H. unfold err. pose proof rate_ge1 as R1. pose proof deps_pos. pose proof (IZR_le _ _ Hn). set (g := (1 + 10 * (deps * (IZR n + 8)))%R) in *.
  pose proof (nF_nonneg n A). assert (0 <= IZR n * deps)%R by (apply Rmult_le_pos; lra). pose proof (pos_INR N). apply le_INR in H as H'.
  apply Rplus_le_compat_r. apply Rmult_le_compat.
  - apply pow_le. lra.
  - apply Rplus_le_le_0_compat; auto. apply Rmult_le_pos; auto.
  - apply Rle_pow; auto.
  - apply Rplus_le_compat_l, Rmult_le_compat_r; auto.
Qed.
Lemma err_nonneg N : (0 <= err N)%R.
Proof. rewrite <- err_0. apply err_mono. lia. Qed.
Lemma sinv_le d d' s : (d <= d')%R -> sinv d s -> sinv d' s.
Proof.
  intros H. destruct s as [[[[T P] ex] it] iu]. intros (K1 & K2 & K3 & K4 & K5 & K6 & K7). split; [auto|]. split; [lra|]. split; [|split; [auto|split; [lra|]]].
  - eapply sim_ext; [exact K3|apply meq_refl|apply meq_refl|apply meq_refl|lra].
  - assert (S : forall l, small (nF n A + d) T l -> small (nF n A + d') T l) by (intros l Hl; eapply small_le; [|exact Hl]; lra).
    split; [intros Hl; apply S; auto|]. intros l Hl. destruct (K7 l Hl) as [Y|(Y1 & Y2 & Y3 & Y4)]; [left; apply S; auto|right]. repeat split; auto.
Qed.
Lemma turns_inv s0 s : turnsR (O := ROps) n norm s0 s -> within (O := ROps) n s0 -> sinv 0 s0 ->
  within (O := ROps) n s /\ exists N, Z.of_nat N <= potential (O := ROps) s0 - potential (O := ROps) s /\ sinv (err N) s.
Proof.
  intros K W0 V0. induction K as [s0|s1 s2 s3 K IH K3].
  - split; [auto|]. exists 0%nat. split; [cbn; lia|]. rewrite err_0. auto.
  - destruct (IH W0 V0) as (W2 & N & HN & V2). assert (H0 : 0 <= snd s2) by (destruct K3 as [? ? ? ? ? [Hf _]|? ? ? ? ? [Hf _]|? ? ? ? ? ? ? ? ? ? ? ? ? [Hf _]]; cbn [snd]; lia).
    destruct (turn_within (O := ROps) n norm s2 s3 K3 W2 H0) as [W3 P3]. split; [auto|]. exists (S N). split; [lia|].
    eapply sinv_le; [apply err_S|]. apply turn_inv with (s := s2); auto.
Qed.
Lemma turns_end H0 P0 T P ex it : sim n P0 A H0 0 -> hess (O := ROps) n H0 -> turnsR (O := ROps) n norm ((H0, P0), 0%R, 0, n - 1) ((T, P), ex, it, -1) ->
  exists N, Z.of_nat N <= 101 * n /\ sim n P A T (err N) /\ hess (O := ROps) n T /\ forall l, 1 <= l < n -> small (nF n A + err N) T l \/ (1 <= l /\ small (nF n A + err N) T (l - 1) /\ small (nF n A + err N) T (l + 1) /\ cblock T l).
Proof.
  intros Hs Hh K. destruct (turns_inv _ _ K) as (W & N & HN & V).
  - cbn. lia.
  - split; [lia|]. split; [lra|]. split; [|split; [auto|split]].
    + eapply sim_ext; [exact Hs|apply meq_refl|apply meq_refl| |lra]. intros i j Hi Hj. unfold madd, dg. destruct (_ && _); lra.
    + rewrite Rabs_R0. pose proof (nF_nonneg n A). lra.
    + split; [intros Hl; lia|intros l Hl; lia].
  - cbn in W. exists N. split; [cbn [potential] in HN; destruct W as (_ & W2 & W3); specialize (W3 eq_refl); lia|]. destruct V as (V1 & V2 & V3 & V4 & V5 & V6 & V7). split; [|split; [auto|]].
    + eapply sim_ext; [exact V3|apply meq_refl|apply meq_refl| |lra]. intros i j Hi Hj. unfold madd, dg. replace (i <=? -1) with false by (symmetry; apply Z.leb_gt; lia). rewrite andb_false_r. lra.
    + intros l Hl. destruct (V7 l ltac:(lia)) as [Y|(Y1 & Y2 & Y3 & Y4)]; [auto|right]. repeat split; auto; lia.
Qed.
End Turn.

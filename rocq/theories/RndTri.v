(** Backward rounding errors of the substitution loops s -= a*b; s /= u. *)
From Coq Require Import ZArith List Reals Lia Lra Bool Floats.SpecFloat.
From Flocq.IEEE754 Require Import BinarySingleNaN.
From Flocq Require Import Core.
From Verif Require Import Base BaseLemmas Scalar Float64 Float64Facts TabTac RSum RndSpec FloatR RndSum LUFacts.
Import ListNotations.
Open Scope Z_scope.

(** ** Order on float64, for pivoting *)
Lemma sf_order_laws c : @order_laws (SFOps c).
Proof.
  split; [|split].
  - intros x. apply not_true_is_false. intros H. cbn in H. apply SFltb_key in H. destruct H. congruence.
  - intros x y z H1 H2. cbn in *. apply SFltb_key in H1, H2. destruct H1 as [A B], H2 as [C D]. apply SFltb_key.
    rewrite <- not_true_iff_false in *. rewrite !SFleb_key in *. unfold sf_le_key in *.
    destruct A as (Nx & Ny & A), C as (_ & Nz & C). split; [split; [auto|split; [auto|]]|].
    + destruct (Z.lt_total (k1 x) (k1 z)) as [|[E|]]; [auto| |]; try lia.
    + intros (_ & _ & K). apply B. split; [auto|]. split; [auto|]. lia.
  - intros x y H. cbn in *. destruct x; try discriminate. split; [reflexivity|]. destruct y; reflexivity.
Qed.

Lemma fR_one : fR (sf_of_Z 1) = 1%R.
Proof.
  replace (sf_of_Z 1) with (S754_finite false 4503599627370496 (-52)) by (vm_compute; reflexivity). cbn [fR].
  change (powerRZ 2 (-52)) with (/ (2 ^ 52))%R. rewrite pow_IZR. change (2 ^ Z.of_nat 52) with 4503599627370496. apply Rinv_r. apply not_0_IZR. lia.
Qed.
Lemma num_one : num (sf_of_Z 1). Proof. split; vm_compute; reflexivity. Qed.

(** ** One step of a subtraction loop *)
Lemma sub_step x S T K G s a b : (1 <= G)%R -> (0 <= K)%R -> (0 <= T)%R -> sf_valid s = true -> sf_valid a = true -> sf_valid b = true ->
  (Rabs (x - S - fR s) <= (G - 1) * (Rabs (fR s) + T) + K * G * tiny)%R -> isfin (sf_sub s (sf_mul a b)) = true ->
  (Rabs (x - (S + fR a * fR b) - fR (sf_sub s (sf_mul a b))) <=
    ((1 + ulp2) * G - 1) * (Rabs (fR (sf_sub s (sf_mul a b))) + (T + Rabs (fR a) * Rabs (fR b))) + (K + 1) * ((1 + ulp2) * G) * tiny)%R.
Proof.
  intros HG HK HT Vs Va Vb H F. pose proof (mul_valid _ _ Va Vb) as Vp. destruct (sf_sub_fin _ _ F) as [_ Fp].
  destruct (sub_ok _ _ Vs Vp F) as [_ E1]. destruct (mul_ok _ _ Va Vb Fp) as [E2 _].
  rewrite <- Rabs_mult. set (r := fR (sf_sub s (sf_mul a b))) in *. set (p := fR (sf_mul a b)) in *. set (q := (fR a * fR b)%R) in *. set (z := fR s) in *.
  clearbody r p q z. pose proof ulp2_pos as Hu. pose proof tiny_pos as Ht.
  assert (Hz : (Rabs z <= (1 + ulp2) * Rabs r + (1 + ulp2) * Rabs q + tiny)%R).
  { replace z with (r - (r - (z - p)) + (q + (p - q)))%R by ring. eapply Rle_trans; [apply Rabs_triang|].
    pose proof (Rabs_triang r (- (r - (z - p)))) as P1. rewrite Rabs_Ropp in P1. pose proof (Rabs_triang q (p - q)) as P2.
    unfold Rminus at 1. lra. }
  replace (x - (S + q) - r)%R with ((x - S - z) + (- (r - (z - p)) + (p - q)))%R by ring.
  eapply Rle_trans; [apply Rabs_triang|]. eapply Rle_trans; [apply Rplus_le_compat; [exact H|apply Rabs_triang]|]. rewrite Rabs_Ropp.
  assert (HGz : ((G - 1) * Rabs z <= (G - 1) * ((1 + ulp2) * Rabs r + (1 + ulp2) * Rabs q + tiny))%R) by (apply Rmult_le_compat_l; lra).
  assert (0 <= ulp2 * (G * T))%R by (apply Rmult_le_pos; [lra|apply Rmult_le_pos; lra]).
  assert (0 <= (K + 1) * (ulp2 * (G * tiny)))%R by (apply Rmult_le_pos; [lra|apply Rmult_le_pos; [lra|apply Rmult_le_pos; lra]]).
  lra.
Qed.

(** ** The final division *)
Lemma div_zero_fin c u : isfin (sf_div c u) = true -> isfin u = true -> fR u <> 0%R.
Proof.
  intros F Fu. destruct u as [s|s| |s m e]; try discriminate.
  - exfalso. destruct c as [s'|s'| |s' m' e']; discriminate.
  - cbn [fR]. assert (0 < powerRZ 2 e)%R by (apply powerRZ_lt; lra). apply Rmult_integral_contrapositive. split; [|lra]. destruct s; apply not_0_IZR; lia.
Qed.
Lemma div_step x S T K G c u : (1 <= G)%R -> (0 <= K)%R -> (0 <= T)%R -> sf_valid c = true -> num u ->
  (Rabs (x - S - fR c) <= (G - 1) * (Rabs (fR c) + T) + K * G * tiny)%R -> isfin (sf_div c u) = true ->
  (Rabs (x - (S + fR (sf_div c u) * fR u)) <=
    ((1 + ulp2) * G - 1) * (T + Rabs (fR (sf_div c u)) * Rabs (fR u)) + (K + Rabs (fR u)) * ((1 + ulp2) * G) * tiny)%R.
Proof.
  intros HG HK HT Vc [Vu Fu] H F. pose proof (div_zero_fin c u F Fu) as Nu. destruct (div_ok c u Vc Vu F Nu) as [_ E].
  set (l := fR (sf_div c u)) in *. set (v := fR u) in *. set (z := fR c) in *. clearbody l v z. pose proof ulp2_pos as Hu. pose proof tiny_pos as Ht.
  pose proof (Rabs_pos v) as Hv.
  assert (E' : (Rabs (z - l * v) <= ulp2 * (Rabs l * Rabs v) + tiny * Rabs v)%R).
  { replace (z - l * v)%R with (- ((l - z / v) * v))%R by (field; auto). rewrite Rabs_Ropp, Rabs_mult.
    eapply Rle_trans; [apply Rmult_le_compat_r; [exact Hv|exact E]|]. lra. }
  assert (Hz : (Rabs z <= (1 + ulp2) * (Rabs l * Rabs v) + tiny * Rabs v)%R).
  { replace z with (l * v + (z - l * v))%R by ring. eapply Rle_trans; [apply Rabs_triang|]. rewrite Rabs_mult. lra. }
  replace (x - (S + l * v))%R with ((x - S - z) + (z - l * v))%R by ring.
  eapply Rle_trans; [apply Rabs_triang|]. eapply Rle_trans; [apply Rplus_le_compat; [exact H|exact E']|].
  assert (HGz : ((G - 1) * Rabs z <= (G - 1) * ((1 + ulp2) * (Rabs l * Rabs v) + tiny * Rabs v))%R) by (apply Rmult_le_compat_l; lra).
  assert (0 <= ulp2 * (G * T))%R by (apply Rmult_le_pos; [lra|apply Rmult_le_pos; lra]).
  assert (0 <= (K + Rabs v) * (ulp2 * (G * tiny)))%R by (apply Rmult_le_pos; [lra|apply Rmult_le_pos; [lra|apply Rmult_le_pos; lra]]).
  lra.
Qed.

(** ** The loops *)
Definition back (n : Z) (x : sf) (S T : R) (y : sf) : Prop :=
  sf_valid y = true /\ isfin x = true /\ (Rabs (fR x - S - fR y) <= gam n * (Rabs (fR y) + T) + IZR n * grow n * tiny)%R.
Lemma grow_S n : 0 <= n -> grow (n + 1) = ((1 + ulp2) * grow n)%R.
Proof. intros. unfold grow. replace (Z.to_nat (n + 1)) with (S (Z.to_nat n)) by lia. reflexivity. Qed.
Lemma grow_ge1 n : (1 <= grow n)%R. Proof. rewrite grow_gw. apply gw_ge1. Qed.
Lemma grow_le m n : m <= n -> (grow m <= grow n)%R. Proof. intros. rewrite !grow_gw. apply gw_le. lia. Qed.
Lemma absprod_nonneg lo hi a b : (0 <= Rs lo hi (fun t => Rabs (a t) * Rabs (b t)))%R.
Proof. apply Rs_nonneg. intros. apply Rmult_le_pos; apply Rabs_pos. Qed.

Lemma back_subs c x n a b : 0 <= n -> sf_valid x = true -> (forall t, 0 <= t < n -> sf_valid (a t) = true /\ sf_valid (b t) = true) ->
  isfin (@fsubs (SFOps c) x n (fun t => sf_mul (a t) (b t))) = true ->
  back n x (Rs 0 n (fun t => fR (a t) * fR (b t))%R) (Rs 0 n (fun t => Rabs (fR (a t)) * Rabs (fR (b t)))%R) (@fsubs (SFOps c) x n (fun t => sf_mul (a t) (b t))).
Proof.
  intros Hn Vx. revert n Hn. refine (natlike_ind _ _ _).
  - intros _ F. rewrite fsubs_0 in *. split; [auto|]. split; [exact F|]. rewrite !Rs_nil by lia. unfold gam, grow. cbn.
    replace (fR x - 0 - fR x)%R with 0%R by ring. rewrite Rabs_R0. lra.
  - intros n Hn IH V F. unfold Z.succ in *. rewrite fsubs_S in * by auto. cbn [fsub SFOps] in F |- *.
    destruct (sf_sub_fin _ _ F) as [Fs _]. destruct (IH ltac:(intros; apply V; lia) Fs) as (Vy & Fx & E). destruct (V n ltac:(lia)) as [Va Vb].
    split; [apply sub_valid; auto; apply mul_valid; auto|]. split; [exact Fx|]. rewrite !Rs_last by auto. unfold gam in *. rewrite grow_S, plus_IZR by auto.
    apply sub_step; auto; try apply grow_ge1; try apply absprod_nonneg. apply (IZR_le 0); auto.
Qed.
Lemma back_subd c x hi a b n : sf_valid x = true -> 0 <= n -> (forall t, hi - n <= t < hi -> sf_valid (a t) = true /\ sf_valid (b t) = true) ->
  isfin (@fsubd (SFOps c) x (hi - n) hi (fun t => sf_mul (a t) (b t))) = true ->
  back n x (Rs (hi - n) hi (fun t => fR (a t) * fR (b t))%R) (Rs (hi - n) hi (fun t => Rabs (fR (a t)) * Rabs (fR (b t)))%R) (@fsubd (SFOps c) x (hi - n) hi (fun t => sf_mul (a t) (b t))).
Proof.
  intros Vx. revert n. refine (natlike_ind _ _ _).
  - intros _ F. rewrite fsubd_nil in * by lia. split; [auto|]. split; [exact F|]. rewrite !Rs_nil by lia. unfold gam, grow. cbn.
    replace (fR x - 0 - fR x)%R with 0%R by ring. rewrite Rabs_R0. lra.
  - intros n Hn IH V F. unfold Z.succ in *. rewrite fsubd_S in * by lia. replace (hi - (n + 1) + 1) with (hi - n) in * by lia. cbn [fsub SFOps] in F |- *.
    destruct (sf_sub_fin _ _ F) as [Fs _]. destruct (IH ltac:(intros; apply V; lia) Fs) as (Vy & Fx & E). destruct (V (hi - (n + 1)) ltac:(lia)) as [Va Vb].
    split; [apply sub_valid; auto; apply mul_valid; auto|]. split; [exact Fx|]. rewrite !(Rs_first (hi - (n + 1))) by lia.
    replace (hi - (n + 1) + 1) with (hi - n) by lia. unfold gam in *. rewrite grow_S, plus_IZR by auto.
    rewrite !(Rplus_comm (_ * _) (Rs _ _ _)).
    apply sub_step; auto; try apply grow_ge1; try apply absprod_nonneg. apply (IZR_le 0); auto.
Qed.
Lemma subs_valid c x n a b : 0 <= n -> sf_valid x = true -> (forall t, 0 <= t < n -> sf_valid (a t) = true /\ sf_valid (b t) = true) ->
  sf_valid (@fsubs (SFOps c) x n (fun t => sf_mul (a t) (b t))) = true.
Proof.
  intros Hn Vx. revert n Hn. refine (natlike_ind _ _ _).
  - intros _. rewrite fsubs_0. auto.
  - intros n Hn IH V. unfold Z.succ in *. rewrite fsubs_S by auto. cbn [fsub SFOps]. destruct (V n ltac:(lia)). apply sub_valid; [apply IH; intros; apply V; lia|apply mul_valid; auto].
Qed.
(** A loop and the division after it. *)
Lemma back_div n x S T c u : 0 <= n -> (0 <= T)%R -> back n x S T c -> num u -> isfin (sf_div c u) = true ->
  (Rabs (fR x - (S + fR (sf_div c u) * fR u)) <= gam (n + 1) * (T + Rabs (fR (sf_div c u)) * Rabs (fR u)) + (IZR n + Rabs (fR u)) * grow (n + 1) * tiny)%R.
Proof.
  intros Hn HT (Vc & Fx & E) Hu F. unfold gam in *. rewrite grow_S by auto. apply div_step; auto; [apply grow_ge1|]. apply (IZR_le 0); auto.
Qed.

(** A quotient of floats with |x| <= |y| is at most one. *)
Lemma div_le1 x y : num x -> num y -> fR y <> 0%R -> (Rabs (fR x) <= Rabs (fR y))%R -> num (sf_div x y) /\ (Rabs (fR (sf_div x y)) <= 1)%R.
Proof.
  intros Hx Hy N H. assert (Q : (Rabs (fR x / fR y) <= 1)%R).
  { unfold Rdiv. rewrite Rabs_mult, Rabs_inv. pose proof (Rabs_pos_lt _ N). apply (Rmult_le_reg_r (Rabs (fR y))); auto. rewrite Rmult_assoc, Rinv_l by lra. lra. }
  assert (Hh : (1 <= huge)%R).
  { unfold huge. assert (powerRZ 2 (-52) <= 1)%R. { change (powerRZ 2 (-52)) with (/ (2 ^ 52))%R. rewrite <- Rinv_1. apply Rinv_le_contravar; [lra|]. apply pow_R1_Rle. lra. }
    assert (1 <= powerRZ 2 1023)%R. { change (1 <= 2 ^ 1023)%R. apply pow_R1_Rle. lra. } nra. }
  pose proof (div_fin x y Hx Hy N ltac:(lra)) as Hd. split; [auto|].
  destruct Hd as [_ F], Hx as [Vx _], Hy as [Vy _]. bfs. rewrite div_eq in *. rewrite !of_bf_R in *.
  pose proof (Bdiv_correct 53 1024 Hprec Hmax mode_NE b0 b N) as K. destruct (Rlt_bool _ _).
  - destruct K as (-> & _). apply abs_round_le_generic; auto; try apply fexp_correct; try exact Hprec; try apply valid_rnd_N.
    destruct (to_bf (sf_of_Z 1) (proj1 num_one)) as [o Eo]. rewrite <- fR_one, <- Eo, of_bf_R. apply generic_format_B2R.
  - rewrite K in F. discriminate.
Qed.

(** The residual of a solution from the errors of the two substitutions and of
    the factorisation: b - A x = (b - L y) + L (y - U x) + (L U - A) x. *)
Lemma residual3 n (L U : Z -> Z -> R) (A V : Z -> R) b (y x W : Z -> R) g g' e i : (0 <= g)%R ->
  (forall t, 0 <= t < n -> (Rabs (y t - Rs 0 n (fun j => U t j * x j)) <= g * Rs 0 n (fun j => Rabs (U t j) * Rabs (x j)) + W t)%R) ->
  (Rabs (b - Rs 0 n (fun t => L i t * y t)) <= g * Rs 0 n (fun t => Rabs (L i t) * Rabs (y t)) + e)%R ->
  (forall j, 0 <= j < n -> (Rabs (Rs 0 n (fun t => L i t * U t j) - A j) <= g' * Rs 0 n (fun t => Rabs (L i t) * Rabs (U t j)) + V j)%R) ->
  (Rabs (b - Rs 0 n (fun j => A j * x j)) <= (g * (2 + g) + g') * Rs 0 n (fun t => Rabs (L i t) * Rs 0 n (fun j => Rabs (U t j) * Rabs (x j))) +
    (e + (1 + g) * Rs 0 n (fun t => Rabs (L i t) * W t) + Rs 0 n (fun j => V j * Rabs (x j))))%R.
Proof.
  intros Hg Sx Sy SA. set (X := fun t => Rs 0 n (fun j => Rabs (U t j) * Rabs (x j))%R) in *.
  assert (D : (b - Rs 0 n (fun j => A j * x j) =
    (b - Rs 0 n (fun t => L i t * y t)) + (Rs 0 n (fun t => L i t * (y t - Rs 0 n (fun j => U t j * x j))) + Rs 0 n (fun j => (Rs 0 n (fun t => L i t * U t j) - A j) * x j)))%R).
  { rewrite (Rs_ext 0 n (fun t => L i t * (y t - Rs 0 n (fun j => U t j * x j)))%R (fun t => L i t * y t - Rs 0 n (fun j => L i t * U t j * x j))%R)
      by (intros; rewrite Rmult_minus_distr_l, <- Rs_scal_l; f_equal; apply Rs_ext; intros; ring).
    rewrite Rs_minus, (Rs_ext 0 n (fun j => (Rs 0 n (fun t => L i t * U t j) - A j) * x j)%R (fun j => Rs 0 n (fun t => L i t * U t j * x j) - A j * x j)%R)
      by (intros; rewrite Rmult_minus_distr_r, Rs_scal_r; reflexivity).
    rewrite Rs_minus, Rs_swap. ring. }
  rewrite D. eapply Rle_trans; [apply Rabs_triang|].
  assert (B1 : (Rs 0 n (fun t => Rabs (L i t) * Rabs (y t)) <= (1 + g) * Rs 0 n (fun t => Rabs (L i t) * X t) + Rs 0 n (fun t => Rabs (L i t) * W t))%R).
  { rewrite <- Rs_scal_l, <- Rs_plus. apply Rs_le. intros t Ht. pose proof (Sx t Ht) as K.
    replace ((1 + g) * (Rabs (L i t) * X t) + Rabs (L i t) * W t)%R with (Rabs (L i t) * ((1 + g) * X t + W t))%R by ring.
    apply Rmult_le_compat_l; [apply Rabs_pos|].
    assert (K1 : (Rabs (Rs 0 n (fun j => U t j * x j)) <= X t)%R).
    { eapply Rle_trans; [apply Rs_abs|]. right. apply Rs_ext. intros. apply Rabs_mult. }
    replace (y t) with ((y t - Rs 0 n (fun j => U t j * x j)) + Rs 0 n (fun j => U t j * x j))%R by ring.
    eapply Rle_trans; [apply Rabs_triang|]. unfold X in *. lra. }
  assert (B2 : (Rabs (Rs 0 n (fun t => L i t * (y t - Rs 0 n (fun j => U t j * x j)))) <= g * Rs 0 n (fun t => Rabs (L i t) * X t) + Rs 0 n (fun t => Rabs (L i t) * W t))%R).
  { eapply Rle_trans; [apply Rs_abs|]. rewrite <- Rs_scal_l, <- Rs_plus. apply Rs_le. intros t Ht. rewrite Rabs_mult.
    replace (g * (Rabs (L i t) * X t) + Rabs (L i t) * W t)%R with (Rabs (L i t) * (g * X t + W t))%R by ring.
    apply Rmult_le_compat_l; [apply Rabs_pos|apply Sx; auto]. }
  assert (B3 : (Rabs (Rs 0 n (fun j => (Rs 0 n (fun t => L i t * U t j) - A j) * x j)) <= g' * Rs 0 n (fun t => Rabs (L i t) * X t) + Rs 0 n (fun j => V j * Rabs (x j)))%R).
  { eapply Rle_trans; [apply Rs_abs|].
    assert (E : Rs 0 n (fun t => Rabs (L i t) * X t)%R = Rs 0 n (fun j => Rs 0 n (fun t => Rabs (L i t) * Rabs (U t j)) * Rabs (x j))%R).
    { unfold X. rewrite (Rs_ext 0 n _ (fun t => Rs 0 n (fun j => Rabs (L i t) * Rabs (U t j) * Rabs (x j)))%R) by (intros; rewrite <- Rs_scal_l; apply Rs_ext; intros; ring).
      rewrite Rs_swap. apply Rs_ext. intros. rewrite Rs_scal_r. reflexivity. }
    rewrite E, <- Rs_scal_l, <- Rs_plus. apply Rs_le. intros j Hj. rewrite Rabs_mult.
    rewrite <- Rmult_assoc, <- Rmult_plus_distr_r.
    apply Rmult_le_compat_r; [apply Rabs_pos|]. apply SA; auto. }
  eapply Rle_trans; [apply Rplus_le_compat_l; apply Rabs_triang|].
  assert (B6 : (g * Rs 0 n (fun t => Rabs (L i t) * Rabs (y t)) <= g * ((1 + g) * Rs 0 n (fun t => Rabs (L i t) * X t) + Rs 0 n (fun t => Rabs (L i t) * W t)))%R) by (apply Rmult_le_compat_l; auto).
  change (Rs 0 n (fun t => Rabs (L i t) * Rs 0 n (fun j => Rabs (U t j) * Rabs (x j))))%R with (Rs 0 n (fun t => Rabs (L i t) * X t)%R).
  lra.
Qed.

(** ** Square roots and reciprocals *)
Lemma div_rel x y : sf_valid x = true -> sf_valid y = true -> isfin (sf_div x y) = true -> fR y <> 0%R -> (bpow radix2 (-1022) <= Rabs (fR x / fR y))%R ->
  rel_rnd (fR x / fR y) (fR (sf_div x y)).
Proof.
  intros Hx Hy H Ny Hb. bfs. rewrite div_eq in *. rewrite !of_bf_R in *.
  pose proof (Bdiv_correct 53 1024 Hprec Hmax mode_NE b0 b Ny) as K. destruct (Rlt_bool _ _).
  - destruct K as (-> & _). apply rnd_rel. exact Hb.
  - rewrite K in H. discriminate.
Qed.
Lemma sqrt_small x : sf_valid x = true -> isfin (sf_sqrt x) = true -> (Rabs (fR (sf_sqrt x)) <= bpow radix2 513)%R.
Proof.
  intros V F. destruct (sqrt_rel x V F) as [E _].
  assert (B : (sqrt (fR x) <= bpow radix2 512)%R).
  { assert (Bx : (Rabs (fR x) < bpow radix2 1024)%R). { destruct (to_bf x V) as [b <-]. rewrite of_bf_R. apply abs_B2R_lt_emax. }
    rewrite <- (sqrt_square (bpow radix2 512)) by apply bpow_ge_0. apply sqrt_le_1_alt. rewrite <- bpow_plus. pose proof (Rle_abs (fR x)). cbn [Z.add Pos.add]. 
    change (512 + 512) with 1024. lra. }
  pose proof (sqrt_pos (fR x)) as P. rewrite (Rabs_pos_eq (sqrt (fR x))) in E by auto. pose proof ulp2_small. pose proof ulp2_pos.
  replace (fR (sf_sqrt x)) with (sqrt (fR x) + (fR (sf_sqrt x) - sqrt (fR x)))%R by ring.
  eapply Rle_trans; [apply Rabs_triang|]. rewrite (Rabs_pos_eq (sqrt (fR x))) by auto.
  change 513 with (512 + 1). rewrite bpow_plus. change (bpow radix2 1) with 2%R. nra.
Qed.
Lemma inv_rel l : num l -> fR l <> 0%R -> (Rabs (fR l) <= bpow radix2 513)%R -> isfin (sf_div (sf_of_Z 1) l) = true -> rel_rnd (/ fR l) (fR (sf_div (sf_of_Z 1) l)).
Proof.
  intros [V F] N B Fi. pose proof (div_rel (sf_of_Z 1) l (proj1 num_one) V Fi N) as K. rewrite fR_one in K. unfold Rdiv in K. rewrite Rmult_1_l in K. apply K.
  rewrite Rabs_inv. pose proof (Rabs_pos_lt _ N) as P. eapply Rle_trans; [|apply Rinv_le_contravar; [exact P|exact B]].
  rewrite <- bpow_opp. apply bpow_le. lia.
Qed.
Lemma sqrt_step a S T K G x : (1 <= G)%R -> (0 <= K)%R -> (0 <= T)%R -> sf_valid x = true -> isfin (sf_sqrt x) = true ->
  (Rabs (a - S - fR x) <= (G - 1) * (Rabs (fR x) + T) + K * G * tiny)%R ->
  (Rabs (a - (S + fR (sf_sqrt x) * fR (sf_sqrt x))) <= ((1 + ulp2) * ((1 + ulp2) * G) - 1) * (T + Rabs (fR (sf_sqrt x)) * Rabs (fR (sf_sqrt x))) + K * ((1 + ulp2) * ((1 + ulp2) * G)) * tiny)%R.
Proof.
  intros HG HK HT V F H. destruct (sqrt_rel x V F) as [_ E]. pose proof (sqrt_nonneg x F) as Px. pose proof (sqrt_pos (fR x)) as Pr.
  set (l := fR (sf_sqrt x)) in *. set (r := sqrt (fR x)) in *. assert (Er : (r * r = fR x)%R) by (apply sqrt_def; auto). clearbody r.
  set (z := fR x) in *. clearbody z l. pose proof ulp2_pos as Hu. pose proof tiny_pos as Ht. pose proof ulp2_small as Hs. pose proof (Rabs_pos l) as Pl.
  set (w := (Rabs l * Rabs l)%R). assert (Hw : (l * l = w)%R) by (unfold w; rewrite <- Rabs_mult; symmetry; apply Rabs_pos_eq; nra).
  assert (Pw : (0 <= w)%R) by (unfold w; nra).
  assert (E' : (Rabs (z - l * l) <= ((1 + ulp2) * (1 + ulp2) - 1) * w)%R).
  { subst z. replace (r * r - l * l)%R with (- ((l - r) * (2 * l - (l - r))))%R by ring. rewrite Rabs_Ropp, Rabs_mult.
    assert (Rabs (2 * l - (l - r)) <= (2 + ulp2) * Rabs l)%R.
    { unfold Rminus at 1. eapply Rle_trans; [apply Rabs_triang|]. rewrite Rabs_Ropp, Rabs_mult, (Rabs_pos_eq 2) by lra. lra. }
    eapply Rle_trans; [apply Rmult_le_compat; [apply Rabs_pos|apply Rabs_pos|exact E|exact H0]|]. unfold w. lra. }
  assert (Hz : (Rabs z <= (1 + ulp2) * (1 + ulp2) * w)%R).
  { replace z with (l * l + (z - l * l))%R by ring. eapply Rle_trans; [apply Rabs_triang|]. rewrite (Rabs_pos_eq (l * l)) by (rewrite Hw; auto). rewrite Hw in *. lra. }
  replace (a - (S + l * l))%R with ((a - S - z) + (z - l * l))%R by ring.
  eapply Rle_trans; [apply Rabs_triang|]. eapply Rle_trans; [apply Rplus_le_compat; [exact H|exact E']|].
  assert (HGz : ((G - 1) * Rabs z <= (G - 1) * ((1 + ulp2) * (1 + ulp2) * w))%R) by (apply Rmult_le_compat_l; lra).
  assert (GU : (G <= (1 + ulp2) * ((1 + ulp2) * G))%R) by nra.
  assert (G * T <= (1 + ulp2) * ((1 + ulp2) * G) * T)%R by (apply Rmult_le_compat_r; lra).
  assert (K * tiny * G <= K * tiny * ((1 + ulp2) * ((1 + ulp2) * G)))%R by (apply Rmult_le_compat_l; [apply Rmult_le_pos; lra|lra]).
  lra.
Qed.
Lemma inv_step a S T K G s l : (1 <= G)%R -> (0 <= K)%R -> (0 <= T)%R -> sf_valid s = true -> num l -> fR l <> 0%R -> (Rabs (fR l) <= bpow radix2 513)%R ->
  (Rabs (a - S - fR s) <= (G - 1) * (Rabs (fR s) + T) + K * G * tiny)%R -> isfin (sf_mul s (sf_div (sf_of_Z 1) l)) = true ->
  (Rabs (a - (S + fR (sf_mul s (sf_div (sf_of_Z 1) l)) * fR l)) <=
    ((1 + ulp2) * ((1 + ulp2) * G) - 1) * (T + Rabs (fR (sf_mul s (sf_div (sf_of_Z 1) l))) * Rabs (fR l)) + (K + Rabs (fR l)) * ((1 + ulp2) * ((1 + ulp2) * G)) * tiny)%R.
Proof.
  intros HG HK HT Vs Nl N B H F. destruct (sf_mul_fin _ _ F) as [Fs Fi]. destruct (inv_rel l Nl N B Fi) as [_ Ei].
  destruct (mul_ok s (sf_div (sf_of_Z 1) l) Vs (div_valid _ _ (proj1 num_one) (proj1 Nl)) F) as [_ Em].
  set (v := fR (sf_div (sf_of_Z 1) l)) in *. set (q := fR (sf_mul s (sf_div (sf_of_Z 1) l))) in *. set (z := fR s) in *. set (d := fR l) in *. clearbody v q z d.
  pose proof ulp2_pos as Hu. pose proof tiny_pos as Ht. pose proof (Rabs_pos d) as Pd. pose proof (Rabs_pos q) as Pq. pose proof (Rabs_pos z) as Pz.
  assert (Hzv : (Rabs (z * v) <= (1 + ulp2) * Rabs q + tiny)%R).
  { replace (z * v)%R with (q - (q - z * v))%R by ring. unfold Rminus at 1. eapply Rle_trans; [apply Rabs_triang|]. rewrite Rabs_Ropp. lra. }
  assert (E1 : (Rabs (z / d - q) <= (2 * ulp2 + ulp2 * ulp2) * Rabs q + (1 + ulp2) * tiny)%R).
  { replace (z / d - q)%R with (- (z * (v - / d)) - (q - z * v))%R by (field; auto). unfold Rminus at 1. eapply Rle_trans; [apply Rabs_triang|]. rewrite !Rabs_Ropp, Rabs_mult.
    assert (Rabs z * Rabs (v - / d) <= ulp2 * Rabs (z * v))%R.
    { rewrite Rabs_mult. replace (ulp2 * (Rabs z * Rabs v))%R with (Rabs z * (ulp2 * Rabs v))%R by ring. apply Rmult_le_compat_l; auto. }
    assert (ulp2 * Rabs (z * v) <= ulp2 * ((1 + ulp2) * Rabs q + tiny))%R by (apply Rmult_le_compat_l; lra). lra. }
  assert (E' : (Rabs (z - q * d) <= (2 * ulp2 + ulp2 * ulp2) * (Rabs q * Rabs d) + (1 + ulp2) * tiny * Rabs d)%R).
  { replace (z - q * d)%R with ((z / d - q) * d)%R by (field; auto). rewrite Rabs_mult. eapply Rle_trans; [apply Rmult_le_compat_r; [exact Pd|exact E1]|]. lra. }
  assert (Hz : (Rabs z <= (1 + ulp2) * (1 + ulp2) * (Rabs q * Rabs d) + (1 + ulp2) * tiny * Rabs d)%R).
  { replace z with (q * d + (z - q * d))%R by ring. eapply Rle_trans; [apply Rabs_triang|]. rewrite (Rabs_mult q d). lra. }
  replace (a - (S + q * d))%R with ((a - S - z) + (z - q * d))%R by ring.
  eapply Rle_trans; [apply Rabs_triang|]. eapply Rle_trans; [apply Rplus_le_compat; [exact H|exact E']|].
  assert (HGz : ((G - 1) * Rabs z <= (G - 1) * ((1 + ulp2) * (1 + ulp2) * (Rabs q * Rabs d) + (1 + ulp2) * tiny * Rabs d))%R) by (apply Rmult_le_compat_l; lra).
  assert (GU : (G <= (1 + ulp2) * ((1 + ulp2) * G))%R) by nra.
  assert (GV : ((1 + ulp2) * G <= (1 + ulp2) * ((1 + ulp2) * G))%R) by nra.
  assert (G * T <= (1 + ulp2) * ((1 + ulp2) * G) * T)%R by (apply Rmult_le_compat_r; lra).
  assert (K * tiny * G <= K * tiny * ((1 + ulp2) * ((1 + ulp2) * G)))%R by (apply Rmult_le_compat_l; [apply Rmult_le_pos; lra|lra]).
  assert (Rabs d * tiny * ((1 + ulp2) * G) <= Rabs d * tiny * ((1 + ulp2) * ((1 + ulp2) * G)))%R by (apply Rmult_le_compat_l; [apply Rmult_le_pos; lra|lra]).
  lra.
Qed.

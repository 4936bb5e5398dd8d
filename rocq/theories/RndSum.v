(** Rounding errors of the library's sums, in whatever order they add. *)
From Coq Require Import ZArith List Reals Lia Lra Bool Floats.SpecFloat.
From Verif Require Import Base BaseLemmas Scalar Vector VecSpec VectorFacts Matrix MatSpec BlockMul Float64 RealOps RSum RealMat RndSpec FloatR.
Import ListNotations.
Open Scope Z_scope.

Lemma sf_valid0 : sf_valid sf_zero = true. Proof. reflexivity. Qed.
Lemma num0 : num sf_zero. Proof. split; reflexivity. Qed.

Definition gw (d : nat) : R := ((1 + ulp2) ^ d)%R.
Lemma gw_S d : gw (S d) = ((1 + ulp2) * gw d)%R. Proof. reflexivity. Qed.
Lemma gw_ge1 d : (1 <= gw d)%R.
Proof. pose proof ulp2_pos. induction d as [|d IH]; [unfold gw; cbn; lra|]. rewrite gw_S. nra. Qed.
Lemma gw_le d e : (d <= e)%nat -> (gw d <= gw e)%R.
Proof. intros H. unfold gw. apply Rle_pow; auto. pose proof ulp2_pos. lra. Qed.
Lemma grow_gw n : grow n = gw (Z.to_nat n). Proof. reflexivity. Qed.
Lemma huge_pos : (0 < huge)%R.
Proof.
  unfold huge. apply Rmult_lt_0_compat; [|apply powerRZ_lt; lra].
  pose proof (powerRZ_NOR 2) as _. assert (powerRZ 2 (-52) <= 1)%R; [|lra].
  change (powerRZ 2 (-52)) with (/ (2 ^ 52))%R. rewrite <- Rinv_1. apply Rinv_le_contravar; [lra|]. apply pow_R1_Rle. lra.
Qed.

(** [y] is the result of a computation whose exact value is [s]; [a] is the
    size of the data, [t] the total underflow, [d] the number of roundings. *)
Definition apx (d : nat) (s a t : R) (y : sf) : Prop :=
  sf_valid y = true /\ (Rabs s <= a)%R /\ (0 <= t)%R /\
  (isfin y = true -> (Rabs (fR y - s) <= (gw d - 1) * a + gw d * t)%R) /\
  ((gw d * (a + t) <= huge)%R -> isfin y = true).

Lemma apx_mono d e s a t y : (d <= e)%nat -> apx d s a t y -> apx e s a t y.
Proof.
  intros Hd (V & H1 & H2 & H3 & H4). pose proof (gw_le d e Hd). pose proof (Rabs_pos s). repeat split; auto.
  - intros F. specialize (H3 F). nra.
  - intros R. apply H4. nra.
Qed.
Lemma apx_zero d : apx d 0 0 0 sf_zero.
Proof.
  repeat split; try reflexivity; try lra.
  - rewrite Rabs_R0. lra.
  - intros _. cbn. rewrite Rminus_0_r, Rabs_R0. lra.
Qed.
Lemma apx_add d s a t x s' a' t' y : apx d s a t x -> apx d s' a' t' y -> apx (S d) (s + s') (a + a') (t + t') (sf_add x y).
Proof.
  intros (V & H1 & H2 & H3 & H4) (V' & H1' & H2' & H3' & H4'). pose proof (gw_ge1 d) as G. pose proof ulp2_pos as U.
  pose proof (Rabs_pos s). pose proof (Rabs_pos s').
  split; [apply add_valid; auto|]. split; [eapply Rle_trans; [apply Rabs_triang|]; lra|]. split; [lra|]. rewrite gw_S. split.
  - intros F. destruct (sf_add_fin _ _ F) as [Fx Fy]. specialize (H3 Fx). specialize (H3' Fy).
    destruct (add_ok x y V V' F) as [K _]. set (r := fR (sf_add x y)) in *. clearbody r.
    set (p := fR x) in *. set (q := fR y) in *. clearbody p q. set (g := gw d) in *. clearbody g.
    replace (r - (s + s'))%R with ((r - (p + q)) + ((p - s) + (q - s')))%R by ring.
    assert (K2 : (Rabs (p + q) <= Rabs (p - s) + Rabs (q - s') + a + a')%R).
    { replace (p + q)%R with ((p - s) + (q - s') + s + s')%R by ring.
      pose proof (Rabs_triang (p - s + (q - s') + s) s'). pose proof (Rabs_triang (p - s + (q - s')) s). pose proof (Rabs_triang (p - s) (q - s')). lra. }
    eapply Rle_trans; [apply Rabs_triang|]. eapply Rle_trans; [apply Rplus_le_compat; [exact K|apply Rabs_triang]|].
    assert (ulp2 * Rabs (p + q) <= ulp2 * (Rabs (p - s) + Rabs (q - s') + a + a'))%R by (apply Rmult_le_compat_l; lra).
    assert ((1 + ulp2) * (Rabs (p - s) + Rabs (q - s')) <= (1 + ulp2) * ((g - 1) * (a + a') + g * (t + t')))%R by (apply Rmult_le_compat_l; lra).
    lra.
  - intros R. assert (R0 : (gw d * (a + t + (a' + t')) <= huge)%R).
    { eapply Rle_trans; [|exact R]. rewrite Rmult_assoc. set (w := (gw d * (a + t + (a' + t')))%R). replace (gw d * (a + a' + (t + t')))%R with w by (unfold w; ring).
      assert (0 <= w)%R by (unfold w; apply Rmult_le_pos; lra). nra. }
    assert (R1 : (gw d * (a + t) <= huge)%R). { assert (0 <= gw d * (a' + t'))%R by (apply Rmult_le_pos; lra). lra. }
    assert (R2 : (gw d * (a' + t') <= huge)%R). { assert (0 <= gw d * (a + t))%R by (apply Rmult_le_pos; lra). lra. }
    specialize (H4 R1). specialize (H4' R2). specialize (H3 H4). specialize (H3' H4').
    apply add_fin; [split; auto..|]. replace (fR x + fR y)%R with ((fR x - s) + (fR y - s') + s + s')%R by ring.
    eapply Rle_trans; [apply Rabs_triang|]. 
    pose proof (Rabs_triang (fR x - s + (fR y - s')) s). pose proof (Rabs_triang (fR x - s) (fR y - s')). lra.
Qed.
Lemma zero_add_R y : fR (sf_add sf_zero y) = fR y /\ isfin (sf_add sf_zero y) = isfin y.
Proof. destruct y as [[]|[]| |s m e]; split; reflexivity. Qed.
Lemma apx_zadd d s a t y : apx d s a t y -> apx d s a t (sf_add sf_zero y).
Proof.
  intros (V & H1 & H2 & H3 & H4). destruct (zero_add_R y) as [E1 E2]. unfold apx. rewrite E1, E2. split; [apply add_valid; auto|]. auto.
Qed.
Lemma apx_mul x y : num x -> num y -> apx 1 (fR x * fR y) (Rabs (fR x) * Rabs (fR y)) tiny (sf_mul x y).
Proof.
  intros Nx Ny. pose proof tiny_pos. pose proof ulp2_pos. unfold apx, gw. rewrite pow_1. split; [apply mul_valid; [apply Nx|apply Ny]|].
  rewrite <- Rabs_mult. pose proof (Rabs_pos (fR x * fR y)). split; [apply Rle_refl|]. split; [lra|]. split.
  - intros F. destruct (mul_ok x y (proj1 Nx) (proj1 Ny) F) as [K _]. nra.
  - intros R. apply mul_fin; auto. nra.
Qed.
Lemma apx_leaf x : num x -> apx 0 (fR x) (Rabs (fR x)) 0 x.
Proof.
  intros [V N]. unfold apx, gw. cbn [pow]. repeat split; auto; try lra. intros _. unfold Rminus. rewrite Rplus_opp_r, Rabs_R0. pose proof (Rabs_pos (fR x)). lra.
Qed.
Lemma apx_sqr x : num x -> apx 1 (fR x * fR x) (fR x * fR x) tiny (sf_mul x x).
Proof. intros N. pose proof (apx_mul x x N N) as H. rewrite <- Rabs_mult, Rabs_right in H by nra. exact H. Qed.

(** ** The library's summation orders. *)
Section Acc.
Variables (d : nat) (g : Z -> sf) (s a t : Z -> R).
Lemma accum_apx e m z zs za zt : (d <= e)%nat -> apx e zs za zt z ->
  (forall k, 0 <= k < Z.of_nat m -> apx d (s k) (a k) (t k) (g k)) ->
  apx (e + m) (accum (fun k x => (x + s k)%R) m zs) (accum (fun k x => (x + a k)%R) m za) (accum (fun k x => (x + t k)%R) m zt)
    (accum (fun k x => sf_add x (g k)) m z).
Proof.
  intros Hd Hz. induction m as [|m IH]; intros H; cbn [accum].
  - rewrite Nat.add_0_r. exact Hz.
  - rewrite Nat.add_succ_r. apply apx_add.
    + apply IH. intros k Hk. apply H. lia.
    + apply (apx_mono d); [lia|]. apply H. lia.
Qed.
Lemma accum_apx0 m : (forall k, 0 <= k < Z.of_nat m -> apx d (s k) (a k) (t k) (g k)) ->
  apx (d + m - 1) (accum (fun k x => (x + s k)%R) m 0%R) (accum (fun k x => (x + a k)%R) m 0%R) (accum (fun k x => (x + t k)%R) m 0%R)
    (accum (fun k x => sf_add x (g k)) m sf_zero).
Proof.
  induction m as [|m IH]; intros H; cbn [accum].
  - apply apx_zero.
  - destruct m as [|m].
    + cbn [accum]. rewrite !Rplus_0_l. apply apx_zadd. replace (d + 1 - 1)%nat with d by lia. apply H. lia.
    + replace (d + S (S m) - 1)%nat with (S (d + S m - 1)) by lia. apply apx_add.
      * apply IH. intros k Hk. apply H. lia.
      * apply (apx_mono d); [lia|]. apply H. lia.
Qed.
End Acc.

Section Sums.
Variable c : Z.
Notation SO := (SFOps c).

Lemma fsum_apx n d (g : Z -> sf) (s a t : Z -> R) : 0 <= n -> (forall k, 0 <= k < n -> apx d (s k) (a k) (t k) (g k)) ->
  apx (d + Z.to_nat n - 1) (fsum (O := ROps) n s) (fsum (O := ROps) n a) (fsum (O := ROps) n t) (fsum (O := SO) n g).
Proof. intros Hn H. apply accum_apx0. intros k Hk. apply H. lia. Qed.
Lemma quad_apx d (g : Z -> sf) (s a t : Z -> R) k : (forall i, 0 <= i < 4 -> apx d (s (k + i)) (a (k + i)) (t (k + i)) (g (k + i))) ->
  apx (d + 3) (quad (O := ROps) s k) (quad (O := ROps) a k) (quad (O := ROps) t k) (quad (O := SO) g k).
Proof.
  intros H. unfold quad. replace (d + 3)%nat with (S (S (S d))) by lia. pose proof (H 0 ltac:(lia)) as H0. rewrite Z.add_0_r in H0.
  repeat apply apx_add; auto; (apply (apx_mono d); [lia|]; apply H; lia).
Qed.
Lemma sum4_apx n d (g : Z -> sf) (s a t : Z -> R) : 0 <= n -> (forall k, 0 <= k < n -> apx d (s k) (a k) (t k) (g k)) ->
  apx (d + Z.to_nat n - 1) (sum4 (O := ROps) n s) (sum4 (O := ROps) n a) (sum4 (O := ROps) n t) (sum4 (O := SO) n g).
Proof.
  intros Hn H. unfold sum4. pose proof (Z.div_mod n 4 ltac:(lia)). pose proof (Z.mod_pos_bound n 4 ltac:(lia)).
  destruct (Z.eq_dec (n / 4) 0) as [Hz|Hz].
  - rewrite Hz. change (Z.to_nat 0) with 0%nat. cbn [accum]. change (0 * 4) with 0. rewrite Z.sub_0_r.
    apply (accum_apx0 d (fun k => g (0 + k)) (fun k => s (0 + k)) (fun k => a (0 + k)) (fun k => t (0 + k))). intros k Hk. apply H. lia.
  - apply (apx_mono (d + 3 + Z.to_nat (n / 4) - 1 + Z.to_nat (n - n / 4 * 4))); [lia|].
    apply (accum_apx d (fun k => g (n / 4 * 4 + k)) (fun k => s (n / 4 * 4 + k)) (fun k => a (n / 4 * 4 + k)) (fun k => t (n / 4 * 4 + k))); [lia| |intros k Hk; apply H; lia].
    apply (accum_apx0 (d + 3) (fun k => quad (O := SO) g (4 * k)) (fun k => quad (O := ROps) s (4 * k)) (fun k => quad (O := ROps) a (4 * k)) (fun k => quad (O := ROps) t (4 * k))).
    intros k Hk. apply quad_apx. intros i Hi. apply H. lia.
Qed.
Definition sumR (sum : forall O : Ops, Z -> (Z -> @F O) -> @F O) : Prop :=
  forall n d (g : Z -> sf) (s a t : Z -> R), 0 <= n -> (forall k, 0 <= k < n -> apx d (s k) (a k) (t k) (g k)) ->
  apx (d + Z.to_nat n - 1) (sum ROps n s) (sum ROps n a) (sum ROps n t) (sum SO n g).
Lemma bsum_apx sum : sumR sum -> forall n d (g : Z -> sf) (s a t : Z -> R), 1 <= n -> (forall k, 0 <= k < n -> apx d (s k) (a k) (t k) (g k)) ->
  apx (d + Z.to_nat n - 1) (bsum (O := ROps) (sum ROps) n s) (bsum (O := ROps) (sum ROps) n a) (bsum (O := ROps) (sum ROps) n t) (bsum (O := SO) (sum SO) n g).
Proof.
  intros HS n d g s a t Hn H. unfold bsum.
  assert (Hb : 1 <= nblk n /\ (nblk n - 1) * 52 < n <= nblk n * 52).
  { unfold nblk. pose proof (Z.div_mod (n + 51) 52 ltac:(lia)). pose proof (Z.mod_pos_bound (n + 51) 52 ltac:(lia)). lia. }
  apply (apx_mono (d + Z.to_nat (Z.min 52 n) - 1 + Z.to_nat (nblk n) - 1)); [lia|].
  apply (accum_apx0 (d + Z.to_nat (Z.min 52 n) - 1) (fun K => sum SO (bw n K) (fun k => g (K * 52 + k))) (fun K => sum ROps (bw n K) (fun k => s (K * 52 + k)))
    (fun K => sum ROps (bw n K) (fun k => a (K * 52 + k))) (fun K => sum ROps (bw n K) (fun k => t (K * 52 + k)))).
  intros K HK. assert (0 <= bw n K <= Z.min 52 n) by (unfold bw; nia).
  apply (apx_mono (d + Z.to_nat (bw n K) - 1)); [lia|]. apply HS; [lia|]. intros k Hk. apply H. unfold bw in *. nia.
Qed.
End Sums.

(** In terms of the specification. *)
Lemma apx_close d s a t y n : (d <= Z.to_nat n)%nat -> apx d s a t y -> isfin y = true -> (Rabs (fR y - s) <= gam n * a + t * grow n)%R.
Proof. intros Hd H F. apply (apx_mono _ _ _ _ _ _ Hd) in H. destruct H as (_ & _ & _ & H & _). specialize (H F). unfold gam. rewrite grow_gw. lra. Qed.
Lemma Rs_const lo hi x : lo <= hi -> Rs lo hi (fun _ => x) = (IZR (hi - lo) * x)%R.
Proof.
  intros H. apply (Rs_ind (fun h => Rs lo h (fun _ => x) = (IZR (h - lo) * x)%R) lo hi H).
  - rewrite Rs_nil, Z.sub_diag by lia. lra.
  - intros k Hk IH. rewrite Rs_last, IH by lia. replace (k + 1 - lo) with (k - lo + 1) by lia. rewrite plus_IZR. lra.
Qed.

(** A computed sum of products, in any of the library's orders. *)
Lemma apx_weaken d s a t a' t' y : (a <= a')%R -> (t <= t')%R -> apx d s a t y -> apx d s a' t' y.
Proof.
  intros Ha Ht (V & H1 & H2 & H3 & H4). pose proof (gw_ge1 d). repeat split; auto; try lra.
  - intros F. specialize (H3 F). nra.
  - intros R. apply H4. nra.
Qed.
Lemma apx_dot n (f g : Z -> sf) y : 0 <= n -> apx (Z.to_nat n) (dot_exact n f g) (dot_size n f g) (IZR n * tiny) y -> dot_result n f g y.
Proof.
  intros Hn (V & _ & _ & H3 & H4). split; [exact V|]. split.
  - intros F. specialize (H3 F). unfold dot_close, gam. rewrite grow_gw. lra.
  - intros R. apply H4. exact R.
Qed.
Lemma sums_Rs c n : 1 <= n -> forall d (h : Z -> sf) (s a t : Z -> R), (forall k, 0 <= k < n -> apx d (s k) (a k) (t k) (h k)) ->
  apx (d + Z.to_nat n - 1) (Rs 0 n s) (Rs 0 n a) (Rs 0 n t) (fsum (O := SFOps c) n h) /\
  apx (d + Z.to_nat n - 1) (Rs 0 n s) (Rs 0 n a) (Rs 0 n t) (bsum (O := SFOps c) fsum n h) /\
  apx (d + Z.to_nat n - 1) (Rs 0 n s) (Rs 0 n a) (Rs 0 n t) (bsum (O := SFOps c) sum4 n h).
Proof.
  intros Hn d h s a t H. split; [|split].
  - rewrite <- !fsum_Rs. apply fsum_apx; auto. lia.
  - rewrite <- !bsumf_Rs by auto. apply (bsum_apx c (@fsum)); auto. intros ? ? ? ? ? ? ? ?. apply fsum_apx; auto.
  - rewrite <- !bsum4_Rs by auto. apply (bsum_apx c (@sum4)); auto. intros ? ? ? ? ? ? ? ?. apply sum4_apx; auto.
Qed.

Lemma dots_apx c n (f g : Z -> sf) : 1 <= n -> nums n f -> nums n g ->
  dot_result n f g (fsum (O := SFOps c) n (fun k => sf_mul (f k) (g k))) /\
  dot_result n f g (bsum (O := SFOps c) fsum n (fun k => sf_mul (f k) (g k))) /\
  dot_result n f g (bsum (O := SFOps c) sum4 n (fun k => sf_mul (f k) (g k))).
Proof.
  intros Hn Hf Hg.
  pose proof (sums_Rs c n Hn 1%nat (fun k => sf_mul (f k) (g k)) (fun k => fR (f k) * fR (g k))%R (fun k => Rabs (fR (f k)) * Rabs (fR (g k)))%R (fun _ => tiny) (fun k Hk => apx_mul _ _ (Hf k Hk) (Hg k Hk))) as HS.
  replace (1 + Z.to_nat n - 1)%nat with (Z.to_nat n) in HS by lia. rewrite (Rs_const 0 n) in HS by lia. rewrite Z.sub_0_r in HS.
  destruct HS as (H1 & H2 & H3). split; [|split]; apply apx_dot; auto; lia.
Qed.
Lemma fsum_close c n (f : Z -> sf) : 0 <= n -> nums n f -> sum_result n f (fsum (O := SFOps c) n f).
Proof.
  intros Hn Hf. destruct (Z.eq_dec n 0) as [->|].
  - split; [reflexivity|]. split; [|reflexivity]. intros _. unfold sum_close. rewrite !Rs_nil by lia. cbn. rewrite Rminus_0_r, Rabs_R0. lra.
  - destruct (sums_Rs c n ltac:(lia) 0 f (fun k => fR (f k)) (fun k => Rabs (fR (f k))) (fun _ => 0%R) (fun k Hk => apx_leaf _ (Hf k Hk))) as (H & _).
    apply (apx_mono _ (Z.to_nat n)) in H; [|lia]. rewrite (Rs_const 0 n) in H by lia. destruct H as (V & _ & _ & H3 & H4). split; [exact V|]. split.
    + intros F. specialize (H3 F). unfold sum_close, gam. rewrite grow_gw. lra.
    + intros R. apply H4. rewrite grow_gw in R. lra.
Qed.
(** A single product, the others being zero. *)
Lemma dot_pick n (f g : Z -> sf) i : 0 <= i < n -> nums n f -> nums n g -> (forall k, 0 <= k < n -> k <> i -> f k = sf_zero \/ g k = sf_zero) ->
  dot_result n f g (sf_mul (f i) (g i)).
Proof.
  intros Hi Hf Hg Hz. apply apx_dot; [lia|]. pose proof tiny_pos.
  unfold dot_exact, dot_size. rewrite (Rs_pick 0 n i), (Rs_pick 0 n i); auto.
  - apply (apx_weaken _ _ (Rabs (fR (f i)) * Rabs (fR (g i)))%R tiny); [lra| |].
    + assert (1 <= IZR n)%R by (apply IZR_le; lia). nra.
    + apply (apx_mono 1); [lia|]. apply apx_mul; auto.
  - intros k Hk Hne. destruct (Hz k Hk Hne) as [-> | ->]; cbn [fR sf_zero]; rewrite Rabs_R0; lra.
  - intros k Hk Hne. destruct (Hz k Hk Hne) as [-> | ->]; cbn [fR sf_zero]; lra.
Qed.
Lemma dot_none n (f g : Z -> sf) : 0 <= n -> (forall k, 0 <= k < n -> f k = sf_zero \/ g k = sf_zero) -> dot_result n f g sf_zero.
Proof.
  intros Hn Hz. apply apx_dot; auto. pose proof tiny_pos. unfold dot_exact, dot_size. rewrite !Rs_zero.
  - apply (apx_weaken _ _ 0 0); [lra| |apply apx_zero]. assert (0 <= IZR n)%R by (apply IZR_le; lia). nra.
  - intros k Hk. destruct (Hz k Hk) as [-> | ->]; cbn [fR sf_zero]; rewrite Rabs_R0; lra.
  - intros k Hk. destruct (Hz k Hk) as [-> | ->]; cbn [fR sf_zero]; lra.
Qed.

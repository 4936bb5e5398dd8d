(** Householder reflections computed with rounding: the analysis over the reals. *)
From Coq Require Import ZArith Reals Lra Lia Psatz.
From Verif Require Import RSum House RealVec.
Open Scope Z_scope.

Lemma abs_in a b : (Rabs a <= b)%R -> (- b <= a <= b)%R. Proof. unfold Rabs. destruct (Rcase_abs a); lra. Qed.
(** ** The length of a vector *)
Definition vlen (n : Z) (x : Z -> R) : R := sqrt (dot n x x).
Lemma vlen_norm n x : vlen n x = RealVec.norm2 n x. Proof. reflexivity. Qed.
Lemma vlen_sq n x : (vlen n x * vlen n x)%R = dot n x x. Proof. apply RealVec.norm2_sq. Qed.
Lemma vlen_pos n x : (0 <= vlen n x)%R. Proof. apply sqrt_pos. Qed.
Lemma vlen_ext n x y : (forall i, 0 <= i < n -> x i = y i) -> vlen n x = vlen n y.
Proof. intros H. unfold vlen. f_equal. apply Rs_ext. intros. rewrite !H by auto. auto. Qed.
Lemma vlen_tri n x y : (vlen n (fun k => x k + y k) <= vlen n x + vlen n y)%R. Proof. apply RealVec.norm2_triangle. Qed.
Lemma vlen_le n x y : (forall i, 0 <= i < n -> (Rabs (x i) <= y i)%R) -> (vlen n x <= vlen n y)%R.
Proof.
  intros H. apply sqrt_le_1_alt. apply Rs_le. intros k Hk. specialize (H k Hk). pose proof (Rabs_pos (x k)).
  replace (x k * x k)%R with (Rabs (x k) * Rabs (x k))%R by (rewrite <- Rabs_mult; apply Rabs_pos_eq; nra). nra.
Qed.
Lemma vlen_scal n c x : vlen n (fun k => c * x k)%R = (Rabs c * vlen n x)%R.
Proof.
  unfold vlen. replace (dot n (fun k => c * x k) (fun k => c * x k))%R with (Rabs c * Rabs c * dot n x x)%R.
  - rewrite sqrt_mult; [|pose proof (Rabs_pos c); nra|apply RealVec.dot_self_nonneg]. rewrite sqrt_square by apply Rabs_pos. auto.
  - unfold dot. rewrite <- Rs_scal_l. apply Rs_ext. intros. rewrite <- Rabs_mult, Rabs_pos_eq by nra. ring.
Qed.
Lemma vlen_abs n x : vlen n (fun k => Rabs (x k)) = vlen n x.
Proof. unfold vlen. f_equal. apply Rs_ext. intros. rewrite <- Rabs_mult, Rabs_pos_eq; nra. Qed.
Lemma vlen_const n c : 0 <= n -> (0 <= c)%R -> (vlen n (fun _ => c) <= IZR n * c)%R.
Proof.
  intros Hn Hc. unfold vlen. replace (IZR n * c)%R with (sqrt ((IZR n * c) * (IZR n * c))); [|apply sqrt_square; apply Rmult_le_pos; auto; apply IZR_le; lia].
  apply sqrt_le_1_alt. unfold dot. apply Rle_trans with (IZR n * (c * c))%R.
  - right. clear -Hn. apply (Rs_ind (fun k => Rs 0 k (fun _ => c * c)%R = (IZR k * (c * c))%R) 0 n Hn); [rewrite Rs_nil by lia; ring|].
    intros k Hk E. rewrite Rs_last by lia. rewrite E, plus_IZR. ring.
  - assert (IZR n <= IZR n * IZR n)%R; [|nra]. destruct (Z.eq_dec n 0) as [->|]; [lra|]. assert (1 <= IZR n)%R by (apply IZR_le; lia). nra.
Qed.
Lemma vlen_entry n x i : 0 <= i < n -> (Rabs (x i) <= vlen n x)%R.
Proof.
  intros Hi. rewrite <- sqrt_Rsqr_abs. apply sqrt_le_1_alt. unfold Rsqr. apply (Rs_term 0 n (fun k => x k * x k)%R i Hi). intros. nra.
Qed.
Lemma vlen_orth n Q x : orthogonal n Q -> vlen n (mvec n Q x) = vlen n x.
Proof. intros H. unfold vlen. f_equal. exact (orth_norm n Q x H). Qed.
Lemma vlen_dot n x y : (Rabs (dot n x y) <= vlen n x * vlen n y)%R. Proof. apply cauchy_abs. Qed.
Lemma vlen_zero n x : (forall i, 0 <= i < n -> x i = 0%R) -> vlen n x = 0%R.
Proof. intros H. apply RealVec.norm2_0. auto. Qed.

(** ** The reflection vector *)
Section Vector.
Variables s x a v c e u : R.
Hypothesis He : (0 <= e <= / 16)%R.
Hypothesis Hx : (x * x <= s)%R.
Hypothesis Ha : (Rabs (a * a - s) <= e * s)%R.
Hypothesis Hs : (a * x <= 0)%R.
Let V := (s - x * x + v * v)%R.
Let A := Rabs a.
Let W := Rabs (x - a).

Lemma hv_A2 : (A * A = a * a)%R. Proof. unfold A. rewrite <- Rabs_mult. apply Rabs_pos_eq. nra. Qed.
Lemma hv_s0 : (0 <= s)%R. Proof. nra. Qed.
Lemma hv_s : (s <= 16 / 15 * (A * A))%R.
Proof. pose proof hv_s0. rewrite hv_A2. apply abs_in in Ha. nra. Qed.
Lemma hv_As : (A * A <= 17 / 16 * s)%R.
Proof. pose proof hv_s0. rewrite hv_A2. apply abs_in in Ha. nra. Qed.
Lemma hv_aw : (a * (x - a) = - (A * W))%R.
Proof. unfold A, W. rewrite <- Rabs_mult. rewrite Rabs_left1; [ring|]. nra. Qed.
Lemma hv_w2 : (W * W = (x - a) * (x - a))%R. Proof. unfold W. rewrite <- Rabs_mult. apply Rabs_pos_eq. nra. Qed.
Lemma hv_X : (Rabs x <= 26 / 25 * A)%R.
Proof.
  pose proof hv_s. pose proof (Rabs_pos x). assert (0 <= A)%R by apply Rabs_pos. apply Rsqr_incr_0_var; [|lra]. unfold Rsqr.
  replace (Rabs x * Rabs x)%R with (x * x)%R by (rewrite <- Rabs_mult, Rabs_pos_eq; nra). nra.
Qed.
Lemma hv_W : (A <= W <= 51 / 25 * A)%R.
Proof.
  assert (E : (W = Rabs x + A)%R).
  { unfold W, A. destruct (Rle_dec 0 x) as [L|L]; destruct (Rle_dec 0 a) as [L'|L'].
    - destruct (Req_dec x 0) as [->|]; [|assert (a = 0)%R by nra; subst]; rewrite ?Rminus_0_r, ?Rminus_0_l, ?Rabs_Ropp, ?Rabs_R0; lra.
    - rewrite (Rabs_pos_eq x), (Rabs_left a), (Rabs_pos_eq (x - a)); lra.
    - rewrite (Rabs_left x), (Rabs_pos_eq a), (Rabs_left1 (x - a)); lra.
    - assert (0 < x * a)%R by nra. lra. }
  pose proof hv_X. pose proof (Rabs_pos x). lra.
Qed.
Lemma hv_W2 : (W * W <= 51 / 25 * (A * W))%R.
Proof. pose proof hv_W. assert (0 <= A)%R by apply Rabs_pos. nra. Qed.
Lemma hv_AW : (A * A <= A * W)%R.
Proof. pose proof hv_W. assert (0 <= A)%R by apply Rabs_pos. nra. Qed.
Lemma hv_sAW : (s <= 16 / 15 * (A * W))%R.
Proof. pose proof hv_s. pose proof hv_AW. lra. Qed.
Hypothesis Hu : (0 <= u <= / 1024)%R.
Hypothesis Hv : (Rabs (v - (x - a)) <= u * Rabs (x - a))%R.
(** V against -2 a v. *)
Lemma hv_diff : (Rabs (V + 2 * (a * v)) <= (16 / 15 * e + 62 / 10 * u) * (A * W))%R.
Proof.
  set (d := (v - (x - a))%R) in *. replace (V + 2 * (a * v))%R with ((s - a * a) + (2 * (x - a) * d + (d * d + 2 * a * d)))%R by (unfold V, d; ring).
  pose proof (Rabs_pos d) as Pd. fold W in Hv. pose proof hv_W as HW. assert (PA : (0 <= A)%R) by apply Rabs_pos.
  assert (H1 : (Rabs (s - a * a) <= e * (16 / 15 * (A * W)))%R) by (rewrite Rabs_minus_sym; eapply Rle_trans; [exact Ha|]; pose proof hv_sAW; nra).
  assert (H2 : (Rabs (2 * (x - a) * d) <= 2 * u * (51 / 25 * (A * W)))%R).
  { rewrite !Rabs_mult, (Rabs_pos_eq 2) by lra. fold W. pose proof hv_W2. apply Rle_trans with (2 * W * (u * W))%R; [apply Rmult_le_compat_l; nra|]. nra. }
  assert (H3 : (Rabs (d * d) <= / 1024 * u * (51 / 25 * (A * W)))%R).
  { rewrite Rabs_mult. pose proof hv_W2. apply Rle_trans with ((u * W) * (u * W))%R; [apply Rmult_le_compat; auto|].
    replace (u * W * (u * W))%R with (u * u * (W * W))%R by ring. apply Rmult_le_compat; nra. }
  assert (H4 : (Rabs (2 * a * d) <= 2 * u * (A * W))%R).
  { rewrite !Rabs_mult, (Rabs_pos_eq 2) by lra. fold A. apply Rle_trans with (2 * A * (u * W))%R; [apply Rmult_le_compat_l; nra|]. lra. }
  eapply Rle_trans; [apply Rabs_triang|]. eapply Rle_trans; [apply Rplus_le_compat_l, Rabs_triang|]. eapply Rle_trans; [apply Rplus_le_compat_l, Rplus_le_compat_l, Rabs_triang|].
  assert (0 <= A * W)%R by nra. nra.
Qed.
Lemma hv_av : (- (a * v) <= (1 + u) * (A * W) /\ (1 - u) * (A * W) <= - (a * v))%R.
Proof.
  set (d := (v - (x - a))%R) in *. replace v with ((x - a) + d)%R by (unfold d; ring). rewrite Rmult_plus_distr_l, hv_aw.
  assert (K : (Rabs (a * d) <= u * (A * W))%R) by (rewrite Rabs_mult; fold A; fold W in Hv; assert (0 <= A)%R by apply Rabs_pos; nra).
  apply abs_in in K. lra.
Qed.
Lemma hv_V : (19 / 10 * (A * W) <= V <= 21 / 10 * (A * W))%R.
Proof.
  pose proof hv_diff as K. apply abs_in in K. pose proof hv_av as [L1 L2]. pose proof hv_W. assert (PA : (0 <= A)%R) by apply Rabs_pos.
  assert (0 <= A * W)%R by nra. assert ((16 / 15 * e + 62 / 10 * u) * (A * W) <= (8 / 100) * (A * W))%R by (apply Rmult_le_compat_r; lra).
  assert (u * (A * W) <= / 1024 * (A * W))%R by (apply Rmult_le_compat_r; lra). lra.
Qed.
Lemma hv_V2 : (19 / 10 * (A * A) <= V <= 43 / 10 * (A * A))%R.
Proof. pose proof hv_V. pose proof hv_AW. pose proof hv_W. assert (0 <= A)%R by apply Rabs_pos. nra. Qed.
(** The column itself becomes (a, 0, ..., 0). *)
Lemma hv_col : (0 < A)%R -> (Rabs (v - (x - a)) + Rabs (s - (a - (v - (x - a))) * (a - (v - (x - a)))) / V * sqrt V <= (2 * e + 5 * u) * sqrt s)%R.
Proof.
  intros PA. set (d := (v - (x - a))%R) in *. pose proof hv_W as [W1 W2]. pose proof hv_V as [V1 V2]. pose proof hv_V2 as [V3 V4]. pose proof (Rabs_pos d) as Pd. fold W in Hv.
  assert (P : (0 < A * W)%R) by nra. assert (PV : (0 < V)%R) by lra.
  assert (H1 : (Rabs (s - (a - d) * (a - d)) <= (16 / 15 * e + 201 / 100 * u) * (A * W))%R).
  { replace (s - (a - d) * (a - d))%R with ((s - a * a) + (2 * a * d + - (d * d)))%R by ring.
    assert (K1 : (Rabs (s - a * a) <= e * (16 / 15 * (A * W)))%R) by (rewrite Rabs_minus_sym; eapply Rle_trans; [exact Ha|]; pose proof hv_sAW; nra).
    assert (K3 : (Rabs (- (d * d)) <= / 1024 * u * (51 / 25 * (A * W)))%R).
    { rewrite Rabs_Ropp, Rabs_mult. pose proof hv_W2. apply Rle_trans with ((u * W) * (u * W))%R; [apply Rmult_le_compat; auto|].
      replace (u * W * (u * W))%R with (u * u * (W * W))%R by ring. apply Rmult_le_compat; nra. }
    assert (K4 : (Rabs (2 * a * d) <= 2 * u * (A * W))%R).
    { rewrite !Rabs_mult, (Rabs_pos_eq 2) by lra. fold A. apply Rle_trans with (2 * A * (u * W))%R; [apply Rmult_le_compat_l; nra|]. lra. }
    eapply Rle_trans; [apply Rabs_triang|]. eapply Rle_trans; [apply Rplus_le_compat_l, Rabs_triang|]. nra. }
  assert (S1 : (sqrt V <= 208 / 100 * A)%R).
  { apply Rsqr_incr_0_var; [|lra]. unfold Rsqr. rewrite sqrt_sqrt by lra. nra. }
  assert (S0 : (0 <= sqrt V)%R) by apply sqrt_pos.
  assert (H2 : (Rabs (s - (a - d) * (a - d)) / V <= (16 / 15 * e + 201 / 100 * u) * (10 / 19))%R).
  { apply (Rmult_le_reg_r V); auto. unfold Rdiv at 1. rewrite Rmult_assoc, Rinv_l by lra. rewrite Rmult_1_r. eapply Rle_trans; [exact H1|].
    apply Rle_trans with ((16 / 15 * e + 201 / 100 * u) * (10 / 19 * V))%R; [apply Rmult_le_compat_l; lra|]. lra. }
  assert (H3 : (Rabs (s - (a - d) * (a - d)) / V * sqrt V <= (16 / 15 * e + 201 / 100 * u) * (10 / 19) * (208 / 100 * A))%R).
  { apply Rmult_le_compat; auto. apply Rmult_le_pos; [apply Rabs_pos|]. left. apply Rinv_0_lt_compat. auto. }
  assert (S2 : (A <= 104 / 100 * sqrt s)%R).
  { pose proof (sqrt_pos s). apply Rsqr_incr_0_var; [|lra]. unfold Rsqr. pose proof hv_As. replace (104 / 100 * sqrt s * (104 / 100 * sqrt s))%R with (10816 / 10000 * (sqrt s * sqrt s))%R by field.
    rewrite sqrt_sqrt by apply hv_s0. pose proof hv_s0. lra. }
  apply Rle_trans with ((12 / 10 * e + 43 / 10 * u) * A)%R; [nra|]. apply Rle_trans with ((12 / 10 * e + 43 / 10 * u) * (104 / 100 * sqrt s))%R; [apply Rmult_le_compat_l; lra|].
  pose proof (sqrt_pos s). nra.
Qed.
Hypothesis Hc : (Rabs (c - a * v) <= u * Rabs (a * v))%R.
Lemma hv_c : (Rabs (c + V / 2) <= (e + 5 * u) * (V / 2))%R.
Proof.
  replace (c + V / 2)%R with ((c - a * v) + (V + 2 * (a * v)) / 2)%R by field.
  eapply Rle_trans; [apply Rabs_triang|]. unfold Rdiv at 1. rewrite (Rabs_mult _ (/ 2)), (Rabs_pos_eq (/ 2)) by lra.
  pose proof hv_diff as K. pose proof hv_av as [L1 L2]. pose proof hv_V as [V1 V2]. pose proof hv_W. assert (PA : (0 <= A)%R) by apply Rabs_pos. assert (P : (0 <= A * W)%R) by nra.
  rewrite (Rabs_left1 (a * v)) in Hc by nra. 
  apply Rle_trans with ((534 / 1000 * e + 411 / 100 * u) * (A * W))%R.
  { assert (u * - (a * v) <= u * ((1 + u) * (A * W)))%R by (apply Rmult_le_compat_l; lra). assert (u * u * (A * W) <= / 1024 * u * (A * W))%R by (apply Rmult_le_compat_r; nra). assert (0 <= e * (A * W))%R by nra. assert (0 <= u * (A * W))%R by nra. lra. }
  apply Rle_trans with ((534 / 1000 * e + 411 / 100 * u) * (10 / 19 * V))%R; [apply Rmult_le_compat_l; lra|]. nra.
Qed.
End Vector.

(** ** Applying the reflection *)
Section Apply.
Variables (m : Z) (v z zh : Z -> R) (c sg b e g t u ty : R).
Let V := dot m v v.
Hypothesis Hm : 0 <= m.
Hypothesis PV : (0 < V)%R.
Hypothesis Hu : (0 <= u <= / 1024)%R.
Hypothesis He : (0 <= e <= / 8)%R.
Hypothesis Hg : (0 <= g)%R.
Hypothesis Ht : (0 <= t)%R.
Hypothesis Hty : (0 <= ty)%R.
Hypothesis Hc : (Rabs (c + V / 2) <= e * (V / 2))%R.
Hypothesis Hsg : (Rabs (sg - dot m z v) <= g * (vlen m z * vlen m v) + t)%R.
Hypothesis Hb : (Rabs (b - sg / c) <= u * Rabs (sg / c) + ty)%R.
Hypothesis Hz : forall r, 0 <= r < m -> (Rabs (zh r - (z r + b * v r)) <= u * Rabs (z r) + 3 * u * (Rabs b * Rabs (v r)) + 2 * ty)%R.

Lemma ap_refl : (vlen m (fun r => zh r - mvec m (refl v (- (V / 2))) z r) <= (24 / 10 * (g + e) + 11 * u) * vlen m z + (24 / 10 * t / vlen m v + 12 / 10 * ty * vlen m v + 2 * IZR m * ty))%R.
Proof.
  set (L := vlen m v) in *. set (Z0 := vlen m z) in *. set (q := dot m z v) in *.
  assert (EV : (L * L = V)%R) by apply vlen_sq. assert (PL : (0 < L)%R) by (assert (0 <= L)%R by apply vlen_pos; nra).
  assert (PZ : (0 <= Z0)%R) by apply vlen_pos. set (b0 := (q / - (V / 2))%R).
  assert (Hq : (Rabs q <= Z0 * L)%R) by apply vlen_dot.
  assert (Nc : (7 / 16 * V <= Rabs c)%R).
  { replace c with ((c + V / 2) - V / 2)%R by ring. pose proof (Rabs_triang_inv (V / 2) (c + V / 2)) as K. rewrite (Rabs_minus_sym (V / 2)) in K. rewrite (Rabs_pos_eq (V / 2)) in K by lra. nra. }
  assert (c0 : (c <> 0)%R). { intros E. rewrite E, Rabs_R0 in Nc. lra. }
  assert (Pc : (0 < Rabs c)%R) by lra.
  (* the coefficient *)
  assert (E0 : (Rabs (sg / c - b0) * L <= 16 / 7 * ((g + e) * Z0 + t / L))%R).
  { assert (K : (Rabs (sg / c - b0) <= ((g + e) * (Z0 * L) + t) / Rabs c)%R).
    { replace (sg / c - b0)%R with (((sg - q) + q * ((c + V / 2) / (V / 2))) / c)%R by (unfold b0; field; split; lra).
      unfold Rdiv at 1. rewrite Rabs_mult, Rabs_inv. apply Rmult_le_compat_r; [left; apply Rinv_0_lt_compat; auto|].
      eapply Rle_trans; [apply Rabs_triang|]. rewrite Rabs_mult.
      assert (K2 : (Rabs ((c + V / 2) / (V / 2)) <= e)%R).
      { unfold Rdiv at 1. rewrite Rabs_mult, (Rabs_inv (V / 2)), (Rabs_pos_eq (V / 2)) by lra. apply (Rmult_le_reg_r (V / 2)); [lra|]. rewrite Rmult_assoc, Rinv_l by lra. lra. }
      assert (Rabs q * Rabs ((c + V / 2) / (V / 2)) <= Z0 * L * e)%R by (apply Rmult_le_compat; auto; apply Rabs_pos). lra. }
    assert (N0 : (0 <= (g + e) * (Z0 * L) + t)%R) by (assert (0 <= Z0 * L)%R by nra; nra).
    assert (K3 : (((g + e) * (Z0 * L) + t) / Rabs c <= ((g + e) * (Z0 * L) + t) / (7 / 16 * V))%R).
    { apply Rmult_le_compat_l; auto. apply Rinv_le_contravar; lra. }
    apply Rle_trans with (((g + e) * (Z0 * L) + t) / (7 / 16 * V) * L)%R; [apply Rmult_le_compat_r; lra|]. right. rewrite <- EV. field. lra. }
  assert (B0 : (Rabs b0 * L <= 2 * Z0)%R).
  { unfold b0, Rdiv. rewrite Rabs_mult, Rabs_inv, Rabs_Ropp, (Rabs_pos_eq (V * / 2)) by lra. apply Rle_trans with (Z0 * L * / (V * / 2) * L)%R.
    - apply Rmult_le_compat_r; [lra|]. apply Rmult_le_compat_r; [left; apply Rinv_0_lt_compat; lra|exact Hq].
    - right. rewrite <- EV. field. lra. }
  set (e0 := (Rabs (sg / c - b0) * L)%R) in *. assert (P0 : (0 <= e0)%R) by (apply Rmult_le_pos; [apply Rabs_pos|lra]).
  assert (B1 : (Rabs (sg / c) * L <= 2 * Z0 + e0)%R).
  { replace (sg / c)%R with (b0 + (sg / c - b0))%R by ring. pose proof (Rabs_triang b0 (sg / c - b0)) as T. unfold e0.
    apply Rle_trans with ((Rabs b0 + Rabs (sg / c - b0)) * L)%R; [apply Rmult_le_compat_r; lra|]. lra. }
  assert (E1 : (Rabs (b - b0) * L <= (1 + u) * e0 + 2 * u * Z0 + ty * L)%R).
  { replace (b - b0)%R with ((b - sg / c) + (sg / c - b0))%R by ring. pose proof (Rabs_triang (b - sg / c) (sg / c - b0)) as T.
    apply Rle_trans with ((u * Rabs (sg / c) + ty + Rabs (sg / c - b0)) * L)%R; [apply Rmult_le_compat_r; lra|].
    replace ((u * Rabs (sg / c) + ty + Rabs (sg / c - b0)) * L)%R with (u * (Rabs (sg / c) * L) + ty * L + e0)%R by (unfold e0; ring).
    assert (u * (Rabs (sg / c) * L) <= u * (2 * Z0 + e0))%R by (apply Rmult_le_compat_l; lra). lra. }
  set (e1 := (Rabs (b - b0) * L)%R) in *. assert (P1 : (0 <= e1)%R) by (apply Rmult_le_pos; [apply Rabs_pos|lra]).
  assert (B2 : (Rabs b * L <= 2 * Z0 + e1)%R).
  { replace b with (b0 + (b - b0))%R at 1 by ring. pose proof (Rabs_triang b0 (b - b0)) as T. unfold e1.
    apply Rle_trans with ((Rabs b0 + Rabs (b - b0)) * L)%R; [apply Rmult_le_compat_r; lra|]. lra. }
  (* the vectors *)
  rewrite (vlen_ext m _ (fun r => (b - b0) * v r + (zh r - (z r + b * v r)))%R).
  2:{ intros r Hr. rewrite refl_vec by auto. replace (Rs 0 m (fun r => v r * z r)%R) with q by (unfold q, dot; apply Rs_ext; intros; ring). unfold b0, Rdiv. ring. }
  eapply Rle_trans; [apply vlen_tri|]. rewrite vlen_scal. fold L. fold e1.
  assert (R1 : (vlen m (fun r => zh r - (z r + b * v r)) <= u * Z0 + 3 * u * (Rabs b * L) + 2 * IZR m * ty)%R).
  { eapply Rle_trans; [apply (vlen_le m _ (fun r => u * Rabs (z r) + (3 * u * Rabs b * Rabs (v r) + 2 * ty))%R); intros r Hr; specialize (Hz r Hr); lra|].
    eapply Rle_trans; [apply vlen_tri|]. eapply Rle_trans; [apply Rplus_le_compat_l, vlen_tri|].
    rewrite (vlen_scal m u (fun r => Rabs (z r))), (vlen_scal m (3 * u * Rabs b) (fun r => Rabs (v r))), !vlen_abs. fold Z0 L.
    pose proof (Rabs_pos b). rewrite (Rabs_pos_eq u), (Rabs_pos_eq (3 * u * Rabs b)) by nra. pose proof (vlen_const m (2 * ty)%R Hm ltac:(lra)). lra. }
  assert (R2 : (3 * u * (Rabs b * L) <= 3 * u * (2 * Z0 + e1))%R) by (apply Rmult_le_compat_l; lra).
  assert (R3 : ((1 + 3 * u) * e1 <= (1 + 3 * u) * ((1 + u) * e0 + 2 * u * Z0 + ty * L))%R) by (apply Rmult_le_compat_l; lra).
  assert (R4 : ((1 + 3 * u) * (1 + u) <= 1005 / 1000)%R) by nra.
  assert (R5 : ((1 + 3 * u) * (1 + u) * e0 <= 1005 / 1000 * (16 / 7 * ((g + e) * Z0 + t / L)))%R) by (apply Rmult_le_compat; lra || nra).
  assert (TL : (0 <= t / L)%R) by (apply Rmult_le_pos; auto; left; apply Rinv_0_lt_compat; auto).
  assert (0 <= (g + e) * Z0)%R by nra. assert (0 <= ty * L)%R by nra. assert (u * Z0 * u <= / 1024 * (u * Z0))%R by (assert (0 <= u * Z0)%R by nra; nra).
  assert (u * (ty * L) <= / 1024 * (ty * L))%R by nra. unfold Rdiv in *. nra.
Qed.
End Apply.

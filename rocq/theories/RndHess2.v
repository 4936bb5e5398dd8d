(** The reflection vector of a scaled column in float64. *)
From Coq Require Import ZArith List Reals Lia Lra Psatz Bool Floats.SpecFloat.
From Flocq Require Import Core BinarySingleNaN.
From Verif Require Import Base BaseLemmas Scalar Float64 VecSpec RealOps RSum House RealVec TabTac FSum QRSpec QRFacts QRReal RndSpec FloatR RndSum RndTri RndHouse RndRefl RndApply RndQRSpec RndQR SVDSpecR RndFrob HessFacts RndHess.
Open Scope Z_scope.

Lemma huge_8 : (8 <= huge)%R.
Proof. pose proof huge_ge. pose proof (bpow_le radix2 3 1023 ltac:(lia)) as H9. change (b2 3) with 8%R in H9. lra. Qed.
Lemma kap_7 n : 3 <= n -> (7 * ulp2 <= kap n)%R.
Proof. intros H. unfold kap. apply Rmult_le_compat_r; [left; apply ulp2_pos|]. apply IZR_le. lia. Qed.
Section Col.
Variables (pf n m : Z).
Notation SO := (SFOps pf).
Hypothesis Hn : 1 <= n.
Hypothesis Hkap : (kap n <= / 1024)%R.
Hypothesis Hm : 0 <= m < n.
Variable o : Z -> sf.
Definition q_h0 : sf := faddd (O := SO) (sf_zero : @F SO) m n (fun i => sf_mul (o i) (o i)).
Definition q_g : sf := if @fgt SO (o m) (@fzero SO) then sf_mul (sf_sqrt q_h0) (SFopp (sf_of_Z 1)) else sf_sqrt q_h0.
Definition q_h : sf := sf_sub q_h0 (sf_mul (o m) q_g).
Definition q_u (i : Z) : sf := if i =? m then sf_sub (o m) q_g else o i.
Hypothesis No : forall r, m <= r < n -> num (o r).
Let s : R := Rs m n (fun r => fR (o r) * fR (o r))%R.
Hypothesis Ls : (b2 (-44) <= s)%R.
Hypothesis Us : (s <= 2)%R.
Let N := n - m.
Notation kap := (kap n).

Lemma q_s0 : (0 < s)%R. Proof. pose proof (bpow_gt_0 radix2 (-44)). lra. Qed.
Lemma qs_term : (fR (o m) * fR (o m) <= s)%R.
Proof. apply (Rs_term m n (fun r => fR (o r) * fR (o r))%R m); [lia|]. intros. nra. Qed.
Lemma q_N : (0 <= IZR N * tiny <= b2 (-1032))%R.
Proof.
  assert (HN : (0 <= IZR N <= IZR n)%R) by (split; apply IZR_le; unfold N; lia). pose proof (m_b43 n Hn Hkap) as H1. pose proof tiny_pos. split; [nra|].
  apply Rle_trans with (b2 43 * tiny)%R; [nra|]. rewrite tiny_b, <- bpow_plus. apply Rle_refl.
Qed.
Lemma q_t : (11 / 10 * (IZR N * tiny) <= / 8 * ulp2 * s)%R.
Proof.
  pose proof q_N as [_ H]. assert (E : b2 (-101) = (/ 16 * (ulp2 * b2 (-44)))%R) by (rewrite ulp2_b, <- bpow_plus; change (/ 16)%R with (b2 (-4)); rewrite <- bpow_plus; reflexivity).
  pose proof (bpow_le radix2 (-1032) (-101) ltac:(lia)). pose proof ulp2_pos. assert (ulp2 * b2 (-44) <= ulp2 * s)%R by (apply Rmult_le_compat_l; [apply Rlt_le; assumption|exact Ls]). rewrite E in *. set (q := (ulp2 * b2 (-44))%R) in *. set (N1 := (IZR N * tiny)%R) in *. set (w := (ulp2 * s)%R) in *. replace (/ 8 * ulp2 * s)%R with (/ 8 * w)%R by (unfold w; ring). clear E. assert (0 < q)%R by (unfold q; apply Rmult_lt_0_compat; [assumption|apply bpow_gt_0]). lra.
Qed.
Lemma q_h0_apx : apx (Z.to_nat N) s s (IZR N * tiny) q_h0.
Proof.
  pose proof (faddd_apx pf m n 1 (fun r => sf_mul (o r) (o r)) (fun r => fR (o r) * fR (o r))%R (fun r => fR (o r) * fR (o r))%R (fun _ => tiny) ltac:(lia)) as K.
  rewrite Rs_const in K by lia. replace (1 + Z.to_nat (n - m) - 1)%nat with (Z.to_nat N) in K by (unfold N; lia). apply K. intros. apply apx_sqr. auto.
Qed.
Lemma q_h0_num : num q_h0.
Proof.
  destruct q_h0_apx as (V & _ & _ & _ & F). split; auto. apply F. pose proof (gw_kap n Hkap N ltac:(unfold N; lia)) as G. pose proof ulp2_pos. pose proof huge_8. pose proof q_t as T. pose proof ulp2_1024.
  pose proof q_s0. pose proof q_N as [T0 _]. assert (ulp2 * s <= / 1024 * 2)%R by (apply Rmult_le_compat; lra). pose proof (gw_ge1 (Z.to_nat N)).
  apply Rle_trans with (2 * 3)%R; [|lra]. apply Rmult_le_compat; lra.
Qed.
Lemma q_h0_err : (Rabs (fR q_h0 - s) <= (1002 / 1000 * kap - 388 / 100 * ulp2) * s)%R.
Proof.
  destruct q_h0_apx as (_ & _ & _ & H & _). specialize (H (proj2 q_h0_num)). eapply Rle_trans; [exact H|]. pose proof (gw_kap n Hkap N ltac:(unfold N; lia)) as G. pose proof q_t as T. pose proof q_N as [T0 _]. pose proof ulp2_1024.
  pose proof (bpow_gt_0 radix2 (-44)). assert (gw (Z.to_nat N) * (IZR N * tiny) <= 11 / 10 * (IZR N * tiny))%R by (apply Rmult_le_compat_r; lra).
  assert ((gw (Z.to_nat N) - 1) * s <= 1002 / 1000 * (kap - 4 * ulp2) * s)%R by (apply Rmult_le_compat_r; lra). lra.
Qed.
Lemma q_h0_pos : (99 / 100 * s <= fR q_h0 <= 101 / 100 * s)%R.
Proof. pose proof q_h0_err as H. pose proof q_s0. pose proof ulp2_1024. pose proof (kap_u n Hn). apply abs_in in H. assert (kap * s <= / 1024 * s)%R by (apply Rmult_le_compat_r; lra). assert (0 <= ulp2 * s)%R by nra. lra. Qed.
Notation nh := (sf_sqrt q_h0).
Lemma q_nh_num : num nh. Proof. apply sqrt_isfin; [apply q_h0_num|]. pose proof q_h0_pos. pose proof q_s0. lra. Qed.
Lemma q_nh_nonneg : (0 <= fR nh)%R.
Proof.
  pose proof (sqrt_rel q_h0 (proj1 q_h0_num) (proj2 q_nh_num)) as [K _]. pose proof (sqrt_pos (fR q_h0)) as P. rewrite (Rabs_pos_eq _ P) in K. apply abs_in in K. pose proof ulp2_1024. nra.
Qed.
Lemma q_nh_sq : (Rabs (fR nh * fR nh - fR q_h0) <= 2001 / 1000 * ulp2 * fR q_h0)%R.
Proof.
  pose proof (sqrt_rel q_h0 (proj1 q_h0_num) (proj2 q_nh_num)) as [K _]. pose proof (sqrt_pos (fR q_h0)) as P. rewrite (Rabs_pos_eq _ P) in K.
  pose proof (sqrt_nonneg q_h0 (proj2 q_nh_num)) as Q. pose proof (sqrt_sqrt _ Q) as E. set (q := sqrt (fR q_h0)) in *. pose proof ulp2_1024. apply abs_in in K.
  apply Rabs_le. rewrite <- E. assert (ulp2 * (ulp2 * (q * q)) <= / 1024 * (ulp2 * (q * q)))%R by (apply Rmult_le_compat_r; [|lra]; apply Rmult_le_pos; [lra|nra]).
  split; nra.
Qed.
Lemma q_g_nh : num q_g /\ Rabs (fR q_g) = fR nh /\ (fR q_g * fR q_g = fR nh * fR nh)%R /\ (fR q_g * fR (o m) <= 0)%R.
Proof.
  pose proof q_nh_num as Nn. pose proof q_nh_nonneg as P. unfold q_g. destruct (@fgt SO (o m) (@fzero SO)) eqn:E.
  - apply (fgt_ok pf (o m) sf_zero (No m ltac:(lia)) num0) in E. destruct (mul_m1 nh Nn) as [M1 M2].
    split; [exact M1|]. rewrite M2. rewrite Rabs_Ropp, Rabs_pos_eq by auto.
    split; auto. split; [ring|]. change (fR sf_zero) with 0%R in E. nra.
  - split; auto. split; [apply Rabs_pos_eq; auto|]. split; auto.
    assert (fR (o m) <= 0)%R; [|nra]. apply Rnot_lt_le. intros L. apply (proj2 (fgt_ok pf (o m) sf_zero (No m ltac:(lia)) num0)) in L. change (@fzero SO) with sf_zero in E; rewrite L in E; discriminate.
Qed.
Lemma q_g_sq : (Rabs (fR q_g * fR q_g - s) <= 101 / 100 * kap * s)%R.
Proof.
  destruct q_g_nh as (_ & _ & E & _). rewrite E. pose proof q_nh_sq as K. pose proof q_h0_err as H1. pose proof q_h0_pos. pose proof ulp2_1024. pose proof (kap_u n Hn). pose proof q_s0.
  replace (fR nh * fR nh - s)%R with ((fR nh * fR nh - fR q_h0) + (fR q_h0 - s))%R by ring. eapply Rle_trans; [apply Rabs_triang|].
  assert (2001 / 1000 * ulp2 * fR q_h0 <= 2001 / 1000 * ulp2 * (101 / 100 * s))%R by (apply Rmult_le_compat_l; lra).
  assert (0 <= ulp2 * s)%R by nra. assert (0 <= kap * s)%R by nra. lra.
Qed.
Let e := (101 / 100 * kap)%R.
Lemma q_e : (0 <= e <= / 16)%R. Proof. unfold e. pose proof (kap_u n Hn). pose proof ulp2_pos. lra. Qed.
Lemma q_hs : (fR q_g * fR (o m) <= 0)%R. Proof. apply q_g_nh. Qed.
Lemma q_g_bounds : (99 / 100 * s <= fR q_g * fR q_g <= 101 / 100 * s)%R.
Proof. pose proof q_g_sq as H. apply abs_in in H. pose proof q_s0. pose proof (kap_u n Hn). pose proof ulp2_pos. assert (kap * s <= / 1024 * s)%R by (apply Rmult_le_compat_r; lra). lra. Qed.
Lemma q_g_abs2 : (Rabs (fR q_g) * Rabs (fR q_g) = fR q_g * fR q_g)%R.
Proof. rewrite <- Rabs_mult. apply Rabs_pos_eq. nra. Qed.
Lemma q_g_le : (b2 (-23) <= Rabs (fR q_g) <= 3 / 2)%R.
Proof.
  pose proof q_g_bounds as [B1 B2]. pose proof q_g_abs2 as E. pose proof (Rabs_pos (fR q_g)) as P. split.
  - apply Rsqr_incr_0_var; auto. unfold Rsqr. rewrite E, <- bpow_plus. change (-23 + -23) with (-44 + -2). rewrite bpow_plus. change (b2 (-2)) with (/ 4)%R. pose proof q_s0. lra.
  - apply Rsqr_incr_0_var; [|lra]. unfold Rsqr. lra.
Qed.
Lemma q_g_ne : fR q_g <> 0%R. Proof. intros E. pose proof q_g_le as [H _]. rewrite E, Rabs_R0 in H. pose proof (bpow_gt_0 radix2 (-23)). lra. Qed.
Lemma q_w : (Rabs (fR q_g) <= Rabs (fR (o m) - fR q_g) <= 51 / 25 * Rabs (fR q_g))%R.
Proof. apply (hv_W s (fR (o m)) (fR q_g) 0%R e q_e qs_term q_g_sq q_hs). Qed.
Lemma q_u_m : q_u m = sf_sub (o m) q_g. Proof. unfold q_u. rewrite Z.eqb_refl. auto. Qed.
Lemma q_u_other r : r <> m -> q_u r = o r. Proof. intros. unfold q_u. rewrite (proj2 (Z.eqb_neq r m)); auto. Qed.
Lemma q_u_num r : m <= r < n -> num (q_u r).
Proof.
  intros Hr. destruct (Z.eq_dec r m) as [->|Hne]; [|rewrite q_u_other by auto; auto]. rewrite q_u_m. apply sub_fin; [auto|apply q_g_nh|].
  pose proof q_w. pose proof q_g_le. pose proof huge_8. lra.
Qed.
Lemma q_u_err : (Rabs (fR (q_u m) - (fR (o m) - fR q_g)) <= ulp2 * Rabs (fR (o m) - fR q_g))%R.
Proof. pose proof (q_u_num m ltac:(lia)) as [_ Fv]. rewrite q_u_m in *. apply sub_ok; auto; [apply No; lia|apply q_g_nh]. Qed.
Lemma q_u_abs : (99 / 100 * Rabs (fR q_g) <= Rabs (fR (q_u m)) <= 206 / 100 * Rabs (fR q_g))%R.
Proof.
  pose proof q_u_err as K. pose proof q_w as W. set (w := (fR (o m) - fR q_g)%R) in *. pose proof ulp2_1024. pose proof (Rabs_pos w).
  pose proof (Rabs_triang_inv (fR (q_u m)) w). pose proof (Rabs_triang_inv w (fR (q_u m))) as K2. rewrite (Rabs_minus_sym w) in K2. assert (ulp2 * Rabs w <= / 1024 * Rabs w)%R by (apply Rmult_le_compat_r; lra). lra.
Qed.
Let ur := cut m q_u.
Let V := dot n ur ur.
Lemma q_V_eq : V = (s - fR (o m) * fR (o m) + fR (q_u m) * fR (q_u m))%R.
Proof.
  unfold V, ur. rewrite cut_dot, (Rs_first m n) by lia. unfold s. rewrite (Rs_first m n (fun r => fR (o r) * fR (o r))%R) by lia.
  assert (E : Rs (m + 1) n (fun r => fR (q_u r) * cut m q_u r)%R = Rs (m + 1) n (fun r => fR (o r) * fR (o r))%R).
  { apply Rs_ext. intros r Hr. unfold cut. rewrite (proj2 (Z.ltb_ge _ _)) by lia. rewrite q_u_other by lia. auto. }
  rewrite E. unfold cut. rewrite (proj2 (Z.ltb_ge _ _)) by lia. ring.
Qed.
Lemma q_V_bounds : (19 / 10 * (fR q_g * fR q_g) <= V <= 43 / 10 * (fR q_g * fR q_g))%R.
Proof. rewrite q_V_eq, <- q_g_abs2. apply (hv_V2 s (fR (o m)) (fR q_g) (fR (q_u m)) e ulp2 q_e qs_term q_g_sq q_hs ulp2_1024 q_u_err). Qed.
Lemma q_V_pos : (0 < V)%R.
Proof. pose proof q_V_bounds as [H _]. pose proof q_g_bounds. pose proof q_s0. lra. Qed.
Lemma q_len : (b2 (-450) <= vlen n ur <= b2 513)%R.
Proof.
  pose proof q_V_bounds as [H1 H2]. pose proof q_g_bounds as [H3 H4]. pose proof q_s0. pose proof (vlen_pos n ur) as PL. pose proof (vlen_sq n ur) as E. fold V in E. split.
  - apply Rle_trans with (b2 (-22)); [apply bpow_le; lia|]. apply Rsqr_incr_0_var; auto. unfold Rsqr. rewrite E, <- bpow_plus. change (-22 + -22) with (-44). lra.
  - apply Rle_trans with (b2 2); [|apply bpow_le; lia]. change (b2 2) with 4%R. apply Rsqr_incr_0_var; [|lra]. unfold Rsqr. rewrite E. lra.
Qed.
(** The product of the two factors, and h, against half the square of the vector. *)
Lemma q_gu : (Rabs (fR q_g * fR (q_u m) + V / 2) <= (58 / 100 * kap + 34 / 10 * ulp2) * (V / 2))%R.
Proof.
  pose proof (hv_diff s (fR (o m)) (fR q_g) (fR (q_u m)) e ulp2 q_e qs_term q_g_sq q_hs ulp2_1024 q_u_err) as D. pose proof (hv_V s (fR (o m)) (fR q_g) (fR (q_u m)) e ulp2 q_e qs_term q_g_sq q_hs ulp2_1024 q_u_err) as [B _].
  rewrite <- q_V_eq in D, B. set (AW := (Rabs (fR q_g) * Rabs (fR (o m) - fR q_g))%R) in *. pose proof ulp2_pos. pose proof (kap_u n Hn).
  replace (fR q_g * fR (q_u m) + V / 2)%R with (/ 2 * (V + 2 * (fR q_g * fR (q_u m))))%R by field. rewrite Rabs_mult, (Rabs_pos_eq (/ 2)) by lra.
  pose proof q_V_pos. assert (P : (0 <= 16 / 15 * e + 62 / 10 * ulp2)%R) by (unfold e; lra).
  assert ((16 / 15 * e + 62 / 10 * ulp2) * AW <= (16 / 15 * e + 62 / 10 * ulp2) * (10 / 19 * V))%R by (apply Rmult_le_compat_l; lra).
  assert (0 <= ulp2 * V)%R by nra. assert (0 <= kap * V)%R by nra. unfold e in *. lra.
Qed.
Lemma q_ng : (fR q_g * fR q_g - fR (o m) * fR q_g = Rabs (fR q_g) * Rabs (fR (o m) - fR q_g))%R.
Proof. rewrite <- Rabs_mult. pose proof q_hs. rewrite <- Rabs_Ropp, Rabs_pos_eq; [ring|]. nra. Qed.
Lemma q_h_num : num q_h.
Proof.
  pose proof q_g_le as [_ G2]. pose proof q_g_nh as (Ng & _ & _ & Hs). pose proof (No m ltac:(lia)) as Nm. pose proof qs_term as T. pose proof huge_8 as H8. pose proof q_h0_pos as [P1 P2]. pose proof q_s0 as P0.
  assert (Om : (Rabs (fR (o m)) <= 3 / 2)%R) by (apply Rsqr_incr_0_var; [|lra]; unfold Rsqr; rewrite <- Rabs_mult, Rabs_pos_eq by nra; lra).
  assert (Pm : (Rabs (fR (o m) * fR q_g) <= 9 / 4)%R) by (rewrite Rabs_mult; pose proof (Rabs_pos (fR (o m))); pose proof (Rabs_pos (fR q_g)); nra).
  assert (Np : num (sf_mul (o m) q_g)) by (apply mul_fin; auto; lra). unfold q_h. apply sub_fin; auto; [apply q_h0_num|].
  destruct (mul_ok _ _ (proj1 Nm) (proj1 Ng) (proj2 Np)) as [K _]. pose proof ulp2_1024. pose proof q_N. assert (T1 : (tiny <= 1)%R) by (rewrite tiny_b; apply (bpow_le radix2 (-1075) 0); lia).
  assert (Rabs (fR (sf_mul (o m) q_g)) <= 4)%R. { replace (fR (sf_mul (o m) q_g)) with ((fR (sf_mul (o m) q_g) - fR (o m) * fR q_g) + fR (o m) * fR q_g)%R by ring. eapply Rle_trans; [apply Rabs_triang|]. nra. }
  eapply Rle_trans; [apply Rabs_triang|]. rewrite Rabs_Ropp, Rabs_pos_eq by lra. lra.
Qed.
Hypothesis Hn3 : 3 <= n.
Lemma q_tiny : (tiny <= / 100 * ulp2 * (fR q_g * fR q_g))%R.
Proof.
  pose proof q_t as T. pose proof tiny_pos. assert (1 <= IZR N)%R by (apply IZR_le; unfold N; lia). pose proof q_g_bounds as [B _]. pose proof ulp2_pos.
  pose proof q_N as [_ T2]. assert (T3 : (tiny <= b2 (-1032))%R) by nra.
  assert (E : b2 (-105) = (/ 256 * (ulp2 * b2 (-44)))%R) by (rewrite ulp2_b, <- bpow_plus; change (/ 256)%R with (b2 (-8)); rewrite <- bpow_plus; reflexivity).
  pose proof (bpow_le radix2 (-1032) (-105) ltac:(lia)). assert (ulp2 * b2 (-44) <= ulp2 * s)%R by (apply Rmult_le_compat_l; [lra|exact Ls]).
  assert (0 < ulp2 * b2 (-44))%R by (apply Rmult_lt_0_compat; [assumption|apply bpow_gt_0]).
  assert (ulp2 * (99 / 100 * s) <= ulp2 * (fR q_g * fR q_g))%R by (apply Rmult_le_compat_l; lra). lra.
Qed.
Lemma q_h_err : (Rabs (fR q_h - V / 2) <= 17 / 10 * kap * (V / 2))%R.
Proof.
  pose proof (hv_diff s (fR (o m)) (fR q_g) (fR (q_u m)) e ulp2 q_e qs_term q_g_sq q_hs ulp2_1024 q_u_err) as D. pose proof (hv_V s (fR (o m)) (fR q_g) (fR (q_u m)) e ulp2 q_e qs_term q_g_sq q_hs ulp2_1024 q_u_err) as [B _].
  pose proof (hv_av (fR (o m)) (fR q_g) (fR (q_u m)) ulp2 q_hs q_u_err) as [A1 A2].
  rewrite <- q_V_eq in D, B. pose proof q_ng as E. set (AW := (Rabs (fR q_g) * Rabs (fR (o m) - fR q_g))%R) in *. pose proof ulp2_1024 as U. pose proof (kap_7 n Hn3). pose proof q_tiny as T.
  pose proof q_h_num as [_ Fh]. pose proof q_g_nh as ([Vg Fg] & _ & Eg & Hs). pose proof (No m ltac:(lia)) as [Vm Fm]. pose proof q_h0_num as [V0 F0]. pose proof q_nh_sq as Q. rewrite <- Eg in Q.
  set (G := (fR q_g * fR q_g)%R) in *. assert (PG : (0 < G)%R) by (pose proof q_g_bounds; pose proof q_s0; unfold G; lra).
  unfold q_h in *. destruct (sf_sub_fin _ _ Fh) as [_ Fp]. destruct (mul_ok _ _ Vm Vg Fp) as [K1 _]. destruct (sub_ok _ _ V0 (mul_valid _ _ Vm Vg) Fh) as [K2 _].
  set (p := fR (sf_mul (o m) q_g)) in *. set (h := fR (sf_sub q_h0 (sf_mul (o m) q_g))) in *. set (x := (fR (o m) * fR q_g)%R) in *. set (h0 := fR q_h0) in *.
  assert (Px : (x <= 0)%R) by (unfold x; lra). rewrite (Rabs_left1 x) in K1 by auto.
  assert (H0 : (h0 <= 101 / 100 * G)%R) by (apply abs_in in Q; pose proof q_h0_pos as [P1 _]; pose proof q_s0; fold h0 in P1; nra).
  assert (Q2 : (Rabs (h0 - G) <= 203 / 100 * ulp2 * G)%R). { rewrite Rabs_minus_sym. eapply Rle_trans; [exact Q|]. assert (ulp2 * h0 <= ulp2 * (101 / 100 * G))%R by (apply Rmult_le_compat_l; lra). assert (0 <= ulp2 * G)%R by nra. lra. }
  assert (PA : (G <= AW)%R) by lra. assert (P1 : (0 <= ulp2 * G)%R) by nra. assert (P2 : (0 <= ulp2 * - x)%R) by (apply Rmult_le_pos; lra). assert (E2 : (ulp2 * AW = ulp2 * G + ulp2 * - x)%R) by (rewrite <- E; ring).
  assert (D1 : (Rabs (h0 - p - AW) <= 205 / 100 * (ulp2 * AW))%R).
  { replace (h0 - p - AW)%R with ((h0 - G) + - (p - x))%R by (rewrite <- E; ring). eapply Rle_trans; [apply Rabs_triang|]. rewrite Rabs_Ropp. lra. }
  assert (D2 : (Rabs (h - AW) <= 306 / 100 * (ulp2 * AW))%R).
  { replace (h - AW)%R with ((h - (h0 - p)) + (h0 - p - AW))%R by ring. eapply Rle_trans; [apply Rabs_triang|].
    assert (Rabs (h0 - p) <= 101 / 100 * AW)%R. { replace (h0 - p)%R with ((h0 - p - AW) + AW)%R by ring. eapply Rle_trans; [apply Rabs_triang|]. rewrite (Rabs_pos_eq AW) by lra. assert (ulp2 * AW <= / 1024 * AW)%R by (apply Rmult_le_compat_r; lra). lra. }
    assert (ulp2 * Rabs (h0 - p) <= ulp2 * (101 / 100 * AW))%R by (apply Rmult_le_compat_l; lra). lra. }
  assert (D3 : (Rabs (AW - V / 2) <= (8 / 15 * e + 41 / 10 * ulp2) * AW)%R).
  { replace (AW - V / 2)%R with ((AW + fR q_g * fR (q_u m)) + - (/ 2 * (V + 2 * (fR q_g * fR (q_u m)))))%R by field. eapply Rle_trans; [apply Rabs_triang|]. rewrite Rabs_Ropp, Rabs_mult, (Rabs_pos_eq (/ 2)) by lra.
    assert (Rabs (AW + fR q_g * fR (q_u m)) <= ulp2 * AW)%R by (apply Rabs_le; lra). lra. }
  replace (h - V / 2)%R with ((h - AW) + (AW - V / 2))%R by ring. eapply Rle_trans; [apply Rabs_triang|].
  apply Rle_trans with ((8 / 15 * e + 72 / 10 * ulp2) * AW)%R; [lra|]. apply Rle_trans with ((8 / 15 * e + 72 / 10 * ulp2) * (10 / 19 * V))%R; [apply Rmult_le_compat_l; unfold e; lra|].
  pose proof q_V_pos. assert (0 <= kap * V)%R by nra. assert (7 * ulp2 * V <= kap * V)%R by (apply Rmult_le_compat_r; lra). unfold e. lra.
Qed.
Lemma q_good : good n m q_u (SFopp q_h).
Proof.
  split; [exact q_u_num|]. split; [apply opp_num, q_h_num|]. pose proof q_V_pos as PV. split; [exact PV|]. split; [exact q_len|]. pose proof q_h_err as H. fold ur. fold V. rewrite opp_ok. split.
  - replace (- fR q_h + V / 2)%R with (- (fR q_h - V / 2))%R by ring. rewrite Rabs_Ropp. eapply Rle_trans; [exact H|]. pose proof (kap_u n Hn). pose proof ulp2_pos. apply Rmult_le_compat_r; lra.
  - rewrite Rabs_Ropp. pose proof (kap_u n Hn). pose proof ulp2_pos. pose proof q_V_bounds as [_ B]. pose proof q_g_bounds as [_ B2]. assert (kap * V <= / 1024 * V)%R by (apply Rmult_le_compat_r; lra). apply abs_in in H.
    apply Rle_trans with 16%R; [apply Rabs_le; lra|]. pose proof (bpow_le radix2 4 1022 ltac:(lia)) as H9. change (b2 4) with 16%R in H9. lra.
Qed.
Lemma q_own (y : Z -> R) : (forall r, m <= r < n -> y r = fR (o r)) ->
  (vlen n (fun r => (if r <? m then y r else if r =? m then fR q_g else 0) - mvec n (refl ur (- (V / 2))) y r) <= 3 * kap * vlen n y)%R.
Proof.
  intros Hy. pose proof q_V_pos as PV. pose proof q_hs as Hs. set (d := (fR (q_u m) - (fR (o m) - fR q_g))%R). set (be := (fR q_g - d)%R). set (th := ((be * be - s) / V)%R).
  assert (Hq : Rs 0 n (fun r => ur r * y r)%R = (s - fR (o m) * fR (o m) + fR (q_u m) * fR (o m))%R).
  { change (Rs 0 n (fun r => ur r * y r)%R) with (dot n ur y). unfold ur. rewrite cut_dot, (Rs_first m n) by lia. unfold s. rewrite (Rs_first m n (fun r => fR (o r) * fR (o r))%R) by lia.
    rewrite (Rs_ext (m + 1) n _ (fun r => fR (o r) * fR (o r))%R) by (intros r Hr; rewrite q_u_other, Hy by lia; auto). rewrite Hy by lia. ring. }
  assert (Ht : (1 + Rs 0 n (fun r => ur r * y r) / - (V / 2) = th)%R).
  { rewrite Hq. unfold th, be, d. rewrite q_V_eq. field. rewrite <- q_V_eq. lra. }
  rewrite (vlen_ext n _ (fun r => (if r =? m then d else 0) + - th * ur r)%R).
  2:{ intros r Hr. rewrite refl_vec by auto. unfold Rdiv at 1. rewrite Rmult_assoc. change (Rs 0 n (fun r => ur r * y r) * / - (V / 2))%R with (Rs 0 n (fun r => ur r * y r) / - (V / 2))%R.
      set (q := (Rs 0 n (fun r => ur r * y r) / - (V / 2))%R) in *. replace th with (1 + q)%R by auto. unfold ur, cut. destruct (Z.ltb_spec r m).
      - rewrite (proj2 (Z.eqb_neq r m)) by lia. ring.
      - destruct (Z.eqb_spec r m) as [->|].
        + rewrite Hy by lia. unfold d. ring.
        + rewrite Hy, q_u_other by lia. ring. }
  eapply Rle_trans; [apply vlen_tri|]. rewrite vlen_scal, Rabs_Ropp.
  assert (E1 : vlen n (fun r => if r =? m then d else 0)%R = Rabs d).
  { unfold vlen, dot. rewrite (Rs_pick 0 n m) by (try lia; intros i _ Hi; rewrite (proj2 (Z.eqb_neq i m)) by auto; ring). rewrite Z.eqb_refl. apply sqrt_Rsqr_abs. }
  rewrite E1. pose proof (hv_col s (fR (o m)) (fR q_g) (fR (q_u m)) e ulp2 q_e qs_term q_g_sq Hs ulp2_1024 q_u_err (Rabs_pos_lt _ q_g_ne)) as K. rewrite <- q_V_eq in K.
  fold d in K. fold be in K. replace (Rabs (s - be * be) / V)%R with (Rabs th) in K.
  2:{ unfold th, Rdiv. rewrite Rabs_mult, Rabs_minus_sym, Rabs_inv, (Rabs_pos_eq V) by lra. auto. }
  change (sqrt V) with (vlen n ur) in K. eapply Rle_trans; [exact K|]. pose proof (kap_7 n Hn3). pose proof ulp2_pos.
  assert (Es : (sqrt s <= vlen n y)%R).
  { unfold vlen. apply sqrt_le_1_alt. unfold dot. rewrite (Rs_split 0 m n) by lia. rewrite (Rs_ext m n (fun k0 => y k0 * y k0)%R (fun r => fR (o r) * fR (o r))%R) by (intros; rewrite !Hy by auto; auto).
    fold s. pose proof (Rs_nonneg 0 m (fun k0 => y k0 * y k0)%R ltac:(intros; nra)). lra. }
  pose proof (sqrt_pos s). unfold e. apply Rmult_le_compat; lra.
Qed.
End Col.

(** The form of the Hessenberg transform: z - (sum / h) u. *)
Section Form.
Variables (pf n m : Z).
Notation SO := (SFOps pf).
Hypothesis Hn : 1 <= n.
Hypothesis Hkap : (kap n <= / 1024)%R.
Hypothesis Hm : 0 <= m < n.
Variables (u : Z -> sf) (h : sf) (z zh : Z -> sf) (zr zhr : Z -> R).
Hypothesis G : good n m u (SFopp h).
Hypothesis Vz : forall r, m <= r < n -> sf_valid (z r) = true.
Hypothesis Fz : forall r, m <= r < n -> isfin (zh r) = true.
Hypothesis Hz : forall r, m <= r < n -> zr r = fR (z r).
Hypothesis Hh : forall r, m <= r < n -> zhr r = fR (zh r).
Hypothesis Hlo : forall r, 0 <= r < m -> zhr r = zr r.
Definition q_al : sf := sf_div (faddd (O := SO) (sf_zero : @F SO) m n (fun r => sf_mul (u r) (z r))) h.
Lemma form_hs : (forall r, m <= r < n -> zh r = sf_sub (z r) (sf_mul q_al (u r))) ->
  (vlen n (fun r => zhr r - mvec n (rP n m u) zr r) <= 10 * kap n * vlen n zr + omg n)%R.
Proof.
  intros E. assert (FF : forall r, m <= r < n -> num (z r) /\ isfin (sf_mul q_al (u r)) = true).
  { intros r Hr. specialize (Fz r Hr). rewrite E in Fz by auto. apply sf_sub_fin in Fz. destruct Fz. split; auto. split; auto. }
  destruct (sf_mul_fin _ _ (proj2 (FF m ltac:(lia)))) as [Fa _]. pose proof G as (Nv & [Vc Fc] & PV & _ & HcV & _). rewrite opp_valid in Vc. rewrite opp_fin in Fc. rewrite opp_ok in HcV.
  set (sg := faddd (O := SO) (sf_zero : @F SO) m n (fun r => sf_mul (u r) (z r))) in *.
  assert (AX : apx (Z.to_nat (n - m)) (Rs m n (fun r => fR (z r) * fR (u r))%R) (Rs m n (fun r => Rabs (fR (z r)) * Rabs (fR (u r)))%R) (IZR (n - m) * tiny) sg).
  { pose proof (faddd_apx pf m n 1 (fun r => sf_mul (u r) (z r)) (fun r => fR (z r) * fR (u r))%R (fun r => Rabs (fR (z r)) * Rabs (fR (u r)))%R (fun _ => tiny) ltac:(lia)) as K.
    rewrite Rs_const in K by lia. replace (1 + Z.to_nat (n - m) - 1)%nat with (Z.to_nat (n - m)) in K by lia. apply K. intros r Hr. rewrite (Rmult_comm (fR (z r))), (Rmult_comm (Rabs (fR (z r)))). apply apx_mul; [apply Nv; auto|apply FF; auto]. }
  destruct AX as (Vs & _ & _ & Es & _). specialize (Es (sf_div_fin _ _ Fa)).
  assert (Va : sf_valid q_al = true) by (apply div_valid; auto).
  assert (hN : fR h <> 0%R). { intros E0. rewrite E0 in HcV. rewrite Ropp_0, Rplus_0_l, Rabs_pos_eq in HcV by lra. nra. }
  apply (apply_real n Hn Hkap m u (SFopp h) zr zhr (fR sg) (- fR q_al)%R Hm G); auto.
  - eapply Rle_trans; [apply (sum_real n Hn Hkap m u z zr _ Hm Hz Es)|]. pose proof (kap_u n Hn). pose proof ulp2_pos. pose proof tiny_pos. assert (0 <= IZR n * tiny)%R by (apply Rmult_le_pos; [apply IZR_le; lia|lra]).
    apply Rplus_le_compat; [apply Rmult_le_compat_r; [apply Rmult_le_pos; apply vlen_pos|lra]|lra].
  - rewrite opp_ok. destruct (div_ok sg h Vs Vc Fa hN) as [D _]. fold q_al in D.
    replace (fR sg / - fR h)%R with (- (fR sg / fR h))%R by (field; auto). replace (- fR q_al - - (fR sg / fR h))%R with (- (fR q_al - fR sg / fR h))%R by ring. rewrite !Rabs_Ropp. exact D.
  - intros r Hr. rewrite Hh by auto. apply (entry_err (z r) (SFopp (sf_mul q_al (u r)))); auto.
    + rewrite opp_valid. apply mul_valid; auto. apply Nv. auto.
    + symmetry. auto.
    + rewrite E by auto. apply sub_add.
    + rewrite opp_ok. pose proof (prod_err n m u (SFopp h) G q_al r Hr Va (proj2 (FF r Hr))) as P.
      replace (- fR (sf_mul q_al (u r)) - - fR q_al * fR (u r))%R with (- (fR (sf_mul q_al (u r)) - fR q_al * fR (u r)))%R by ring.
      replace (- fR q_al * fR (u r))%R with (- (fR q_al * fR (u r)))%R by ring. rewrite !Rabs_Ropp. exact P.
Qed.
End Form.

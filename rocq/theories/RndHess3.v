(** A column of the Hessenberg transform, divided by its scale, in float64. *)
From Coq Require Import ZArith List Reals Lia Lra Psatz Bool Floats.SpecFloat.
From Flocq Require Import Core BinarySingleNaN.
From Verif Require Import Base BaseLemmas Scalar Float64 VecSpec RealOps RSum House RealVec TabTac FSum QRSpec QRFacts QRReal RndSpec FloatR RndSum RndTri RndHouse RndRefl RndApply RndQRSpec RndQR SVDSpecR RndFrob HessFacts HessReal RndHess RndHess2.
Open Scope Z_scope.

Lemma sf_min x : num x -> fR x <> 0%R -> (2 * tiny <= Rabs (fR x))%R.
Proof.
  intros [Vx Fx] H. destruct (to_bf x Vx) as [b <-]. rewrite of_bf_R in *. rewrite of_bf_fin in Fx. pose proof (abs_B2R_ge_emin 53 1024 b) as K. rewrite tiny_bpow.
  replace (2 * (/ 2 * bpow radix2 (-1074)))%R with (b2 (-1074)) by field. apply K. destruct b; try discriminate Fx; try reflexivity. exfalso. apply H. reflexivity.
Qed.
Section Scaled.
Variables (pf n m : Z).
Notation SO := (SFOps pf).
Hypothesis Hn3 : 3 <= n.
Hypothesis Hkap : (kap n <= / 1024)%R.
Hypothesis Hm : 0 <= m < n.
Variable x : Z -> sf.
Hypothesis Vx : forall r, m <= r < n -> sf_valid (x r) = true.
Definition c_s : sf := fadds (O := SO) (sf_zero : @F SO) m n (fun i => SFabs (x i)).
Hypothesis Fs : isfin c_s = true.
Definition c_o (i : Z) : sf := sf_div (x i) c_s.
Let g : sf := q_g pf n m c_o.
Let u : Z -> sf := q_u pf n m c_o.
Notation kap := (kap n).
Lemma c_n1 : 1 <= n. Proof. lia. Qed.
Lemma c_x r : m <= r < n -> num (x r).
Proof. intros Hr. split; auto. pose proof (fadds_fin pf n n m n _ Fs r Hr) as K. cbn beta in K. destruct (x r); auto. Qed.
Let S := Rs m n (fun r => Rabs (fR (x r))).
Lemma c_S0 : (0 <= S)%R. Proof. apply Rs_nonneg. intros. apply Rabs_pos. Qed.
Lemma c_apx : apx (Z.to_nat (n - m)) S S 0 c_s.
Proof.
  pose proof (fadds_apx pf m n 1 (fun r => SFabs (x r)) (fun r => Rabs (fR (x r))) (fun r => Rabs (fR (x r))) (fun _ => 0%R) ltac:(lia)) as K.
  rewrite Rs_const, Rmult_0_r in K by lia. replace (1 + Z.to_nat (n - m) - 1)%nat with (Z.to_nat (n - m)) in K by lia. apply K. intros r Hr.
  pose proof (apx_leaf (SFabs (x r)) (abs_num _ (c_x r Hr))) as A. rewrite abs_ok, Rabs_Rabsolu in A. apply (apx_mono 0 1); auto.
Qed.
Lemma c_s_num : num c_s. Proof. split; auto. apply c_apx. Qed.
Lemma c_s_err : (Rabs (fR c_s - S) <= / 100 * S)%R.
Proof.
  destruct c_apx as (_ & _ & _ & H & _). specialize (H Fs). rewrite Rmult_0_r, Rplus_0_r in H. eapply Rle_trans; [exact H|]. pose proof (gw_kap n Hkap (n - m) ltac:(lia)) as G. pose proof ulp2_pos. apply Rmult_le_compat_r; [apply c_S0|lra].
Qed.
Lemma c_s_nz : c_s <> S754_zero true.
Proof.
  assert (K : forall hi, 0 <= hi - m -> hi <= n -> isfin (fadds (O := SO) (sf_zero : @F SO) m hi (fun i => SFabs (x i))) = true ->
    let y := fadds (O := SO) (sf_zero : @F SO) m hi (fun i => SFabs (x i)) in num y /\ (0 <= fR y)%R /\ y <> S754_zero true).
  { intros hi Hd. remember (hi - m) as d eqn:Ed. revert d Hd hi Ed. refine (natlike_ind _ _ _).
    - intros hi Ed Hh F. rewrite fadds_nil in * by lia. cbv zeta. split; [apply num0|]. split; [change (fR sf_zero) with 0%R; lra|discriminate].
    - intros d Hd IH hi Ed Hh Fi. replace hi with (hi - 1 + 1) in Fi |- * by lia. rewrite (fadds_S (O := SO) (sf_zero : @F SO) m (hi - 1)) in Fi |- * by lia. cbv zeta in *.
      change (@fadd SO) with sf_add in *. destruct (sf_add_fin _ _ Fi) as [F1 F2]. destruct (IH (hi - 1) ltac:(lia) ltac:(lia) F1) as (N1 & P1 & Z1).
      pose proof (abs_num _ (c_x (hi - 1) ltac:(lia))) as N2. assert (P2 : (0 <= fR (SFabs (x (hi - 1))))%R) by (rewrite abs_ok; apply Rabs_pos).
      split; [split; auto; apply add_valid; [apply N1|apply N2]|]. split.
      + destruct (add_ok _ _ (proj1 N1) (proj1 N2) Fi) as [E _]. apply abs_in in E. rewrite Rabs_pos_eq in E by lra. pose proof ulp2_1024. nra.
      + apply add_pos_zero; auto. }
  apply (K n ltac:(lia) ltac:(lia) Fs).
Qed.
Hypothesis Hns : equalsWithULP pf c_s sf_zero 1 = false.
Lemma c_s_pos : (0 < fR c_s)%R.
Proof.
  pose proof c_s_err as E. apply abs_in in E. pose proof c_S0. destruct (Rle_lt_or_eq_dec 0 (fR c_s) ltac:(lra)) as [L|L]; auto. exfalso.
  assert (Z0 : c_s = sf_zero); [|rewrite Z0, ulp1_zero_refl in Hns; discriminate].
  pose proof c_s_nz as Nz. pose proof c_s_num as Nn. symmetry in L. apply (proj2 (eqb_ok c_s sf_zero Nn num0)) in L. destruct c_s as [[]|[]| |[] p e]; try discriminate L; auto. contradiction.
Qed.
Lemma c_S : (0 < S /\ 99 / 100 * S <= fR c_s <= 101 / 100 * S)%R.
Proof. pose proof c_s_err as E. apply abs_in in E. pose proof c_s_pos. lra. Qed.
Lemma c_x_le r : m <= r < n -> (Rabs (fR (x r)) <= S)%R.
Proof. intros Hr. apply (Rs_term m n (fun r => Rabs (fR (x r))) r Hr). intros. apply Rabs_pos. Qed.
Lemma c_o_num r : m <= r < n -> num (c_o r).
Proof.
  intros Hr. pose proof c_s_pos as P. apply div_fin; [apply c_x; auto|apply c_s_num|lra|]. apply Rle_trans with 8%R; [|apply huge_8]. unfold Rdiv. rewrite Rabs_mult, Rabs_inv, (Rabs_pos_eq (fR c_s)) by lra.
  pose proof (c_x_le r Hr). pose proof c_S. apply (Rmult_le_reg_r (fR c_s)); auto. rewrite Rmult_assoc, Rinv_l by lra. lra.
Qed.
Lemma c_o_err r : m <= r < n -> (Rabs (fR c_s * fR (c_o r) - fR (x r)) <= ulp2 * Rabs (fR (x r)) + fR c_s * tiny)%R.
Proof.
  intros Hr. pose proof c_s_pos as P. destruct (div_ok (x r) c_s (Vx r Hr) (proj1 c_s_num) (proj2 (c_o_num r Hr)) ltac:(lra)) as [K _]. fold (c_o r) in K.
  replace (fR c_s * fR (c_o r) - fR (x r))%R with (fR c_s * (fR (c_o r) - fR (x r) / fR c_s))%R by (field; lra). rewrite Rabs_mult, (Rabs_pos_eq (fR c_s)) by lra.
  apply Rle_trans with (fR c_s * (ulp2 * Rabs (fR (x r) / fR c_s) + tiny))%R; [apply Rmult_le_compat_l; lra|]. right. unfold Rdiv. rewrite Rabs_mult, Rabs_inv, (Rabs_pos_eq (fR c_s)) by lra. field. lra.
Qed.
Lemma c_nt : (0 <= IZR n * tiny <= b2 (-1032))%R.
Proof.
  pose proof (m_b43 n c_n1 Hkap) as H1. pose proof tiny_pos. assert (0 <= IZR n)%R by (apply IZR_le; lia). split; [nra|].
  apply Rle_trans with (b2 43 * tiny)%R; [nra|]. rewrite tiny_b, <- bpow_plus. apply Rle_refl.
Qed.
Lemma c_small : (b2 (-989) <= / 1024 * ulp2 * b2 (-450))%R.
Proof. rewrite ulp2_b. change (/ 1024)%R with (b2 (-10)). rewrite <- !bpow_plus. apply bpow_le. lia. Qed.
(** The sum of squares of the scaled column. *)
Let s : R := Rs m n (fun r => fR (c_o r) * fR (c_o r))%R.
Let A1 : R := Rs m n (fun r => Rabs (fR (c_o r))).
Lemma c_A1 : (97 / 100 <= A1 <= 103 / 100)%R.
Proof.
  pose proof c_s_pos as P. pose proof c_S as (PS & B1 & B2). pose proof ulp2_1024 as U. pose proof c_nt as [T0 T1].
  assert (T2 : (IZR n * tiny <= / 1024)%R) by (eapply Rle_trans; [exact T1|]; change (/ 1024)%R with (b2 (-10)); apply bpow_le; lia).
  assert (Hn0 : (IZR (n - m) * tiny <= IZR n * tiny)%R) by (pose proof tiny_pos; apply Rmult_le_compat_r; [lra|apply IZR_le; lia]).
  assert (E : (Rabs (fR c_s * A1 - S) <= / 1024 * S + fR c_s * / 1024)%R).
  { unfold A1, S. rewrite <- Rs_scal_l, <- Rs_minus. eapply Rle_trans; [apply Rs_abs|]. apply Rle_trans with (Rs m n (fun r => ulp2 * Rabs (fR (x r)) + fR c_s * tiny)%R).
    - apply Rs_le. intros r Hr. eapply Rle_trans; [|apply (c_o_err r Hr)]. pose proof (Rabs_triang_inv2 (fR c_s * fR (c_o r)) (fR (x r))) as K. rewrite Rabs_mult, (Rabs_pos_eq (fR c_s)) in K by lra. exact K.
    - rewrite Rs_plus, Rs_scal_l, Rs_const by lia. fold S. apply Rplus_le_compat; [apply Rmult_le_compat_r; lra|]. replace (IZR (n - m) * (fR c_s * tiny))%R with (fR c_s * (IZR (n - m) * tiny))%R by ring. apply Rmult_le_compat_l; lra. }
  apply abs_in in E. assert (0 <= A1)%R by (apply Rs_nonneg; intros; apply Rabs_pos). split; nra.
Qed.
Lemma c_s_ge : (b2 (-44) <= s)%R.
Proof.
  pose proof c_A1 as [H _]. pose proof (vlen_dot n (cut m (fun r => SFabs (c_o r))) (fun _ => 1%R)) as K. rewrite cut_dot in K by lia.
  assert (E : Rs m n (fun r => fR (SFabs (c_o r)) * 1)%R = A1) by (apply Rs_ext; intros; rewrite abs_ok; ring). rewrite E in K. rewrite Rabs_pos_eq in K by lra.
  assert (E1 : (vlen n (fun _ => 1) * vlen n (fun _ => 1) = IZR n)%R) by (rewrite vlen_sq; unfold dot; rewrite Rs_const by lia; rewrite Z.sub_0_r; ring).
  assert (E2 : (vlen n (cut m (fun r => SFabs (c_o r))) * vlen n (cut m (fun r => SFabs (c_o r))) = s)%R).
  { rewrite vlen_sq, cut_dot by lia. unfold s. apply Rs_ext. intros r Hr. unfold cut. rewrite (proj2 (Z.ltb_ge _ _)) by lia. rewrite abs_ok, <- Rabs_mult. apply Rabs_pos_eq. nra. }
  set (p := vlen n (cut m (fun r => SFabs (c_o r)))) in *. set (q := vlen n (fun _ => 1%R)) in *. assert (0 <= p)%R by apply vlen_pos. assert (0 <= q)%R by apply vlen_pos.
  assert (K2 : (94 / 100 <= s * IZR n)%R). { rewrite <- E1, <- E2. replace (p * p * (q * q))%R with (p * q * (p * q))%R by ring. nra. }
  pose proof (m_b43 n c_n1 Hkap) as Hb43. assert (S0 : (0 <= s)%R) by (apply Rs_nonneg; intros; nra). assert (K3 : (94 / 100 <= s * b2 43)%R) by (eapply Rle_trans; [exact K2|]; apply Rmult_le_compat_l; auto).
  apply (Rmult_le_reg_r (b2 43)); [apply bpow_gt_0|]. rewrite <- bpow_plus. change (b2 (-44 + 43)) with (/ 2)%R. lra.
Qed.
Lemma c_s_le : (s <= 2)%R.
Proof.
  pose proof c_A1 as [H1 H2]. apply Rle_trans with (A1 * A1)%R; [|nra]. unfold s. apply Rle_trans with (Rs m n (fun r => A1 * Rabs (fR (c_o r)))%R).
  - apply Rs_le. intros r Hr. replace (fR (c_o r) * fR (c_o r))%R with (Rabs (fR (c_o r)) * Rabs (fR (c_o r)))%R by (rewrite <- Rabs_mult; apply Rabs_pos_eq; nra).
    apply Rmult_le_compat_r; [apply Rabs_pos|]. apply (Rs_term m n (fun r => Rabs (fR (c_o r))) r Hr). intros. apply Rabs_pos.
  - rewrite Rs_scal_l. fold A1. lra.
Qed.
Let L := vlen n (cut m x).
Let Lo := vlen n (cut m c_o).
Lemma c_cut (f : Z -> sf) r : m <= r -> cut m f r = fR (f r). Proof. intros. unfold cut. rewrite (proj2 (Z.ltb_ge _ _)) by lia. auto. Qed.
Lemma c_cut0 (f : Z -> sf) r : r < m -> cut m f r = 0%R. Proof. intros. unfold cut. rewrite (proj2 (Z.ltb_lt _ _)) by lia. auto. Qed.
Lemma c_SL : (S <= IZR n * L)%R.
Proof.
  apply Rle_trans with (Rs m n (fun _ => L)).
  - apply Rs_le. intros r Hr. rewrite <- (c_cut x r) by lia. apply vlen_entry. lia.
  - rewrite Rs_const by lia. apply Rmult_le_compat_r; [apply vlen_pos|]. apply IZR_le. lia.
Qed.
Lemma c_st : (fR c_s * (IZR n * tiny) <= / 100 * ulp2 * L)%R.
Proof.
  pose proof c_S as (PS & B1 & B2). pose proof c_SL. pose proof c_nt as [T0 T1]. assert (PL : (0 <= L)%R) by apply vlen_pos. pose proof (m_b43 n c_n1 Hkap) as H1. assert (Pn : (0 <= IZR n)%R) by (apply IZR_le; lia).
  assert (K : (fR c_s <= 101 / 100 * (b2 43 * L))%R). { eapply Rle_trans; [exact B2|]. apply Rmult_le_compat_l; [lra|]. eapply Rle_trans; [eassumption|]. apply Rmult_le_compat_r; auto. }
  apply Rle_trans with (101 / 100 * (b2 43 * L) * b2 (-1032))%R; [apply Rmult_le_compat; lra|].
  replace (101 / 100 * (b2 43 * L) * b2 (-1032))%R with (101 / 100 * (b2 43 * b2 (-1032)) * L)%R by ring. rewrite <- bpow_plus. change (43 + -1032) with (-989). apply Rmult_le_compat_r; auto.
  pose proof c_small. pose proof ulp2_pos. assert (b2 (-450) <= 1)%R by (apply (bpow_le radix2 (-450) 0); lia). assert (ulp2 * b2 (-450) <= ulp2)%R by nra. lra.
Qed.
(** The column against its scaled form. *)
Lemma c_xo : (vlen n (fun r => fR c_s * cut m c_o r - cut m x r) <= 102 / 100 * ulp2 * L)%R.
Proof.
  pose proof c_s_pos as P. pose proof tiny_pos as PT. pose proof ulp2_pos as PU. assert (PL : (0 <= L)%R) by apply vlen_pos.
  apply Rle_trans with (vlen n (fun r => ulp2 * Rabs (cut m x r) + fR c_s * tiny)%R).
  - apply vlen_le. intros r Hr. destruct (Z_lt_ge_dec r m) as [H|H].
    + rewrite !c_cut0 by lia. rewrite Rmult_0_r, Rminus_0_r, Rabs_R0. nra.
    + rewrite !c_cut by lia. apply c_o_err. lia.
  - eapply Rle_trans; [apply vlen_tri|]. rewrite vlen_scal, vlen_abs, Rabs_pos_eq by lra. pose proof (vlen_const n (fR c_s * tiny) ltac:(lia) ltac:(nra)) as K. pose proof c_st. fold L. assert (0 <= ulp2 * L)%R by nra. lra.
Qed.
Lemma c_L : (99 / 100 * L <= fR c_s * Lo <= 101 / 100 * L)%R.
Proof.
  pose proof c_s_pos as P. pose proof c_xo as K. pose proof ulp2_1024. assert (PL : (0 <= L)%R) by apply vlen_pos. assert (ulp2 * L <= / 1024 * L)%R by (apply Rmult_le_compat_r; lra).
  pose proof (vlen_diff n (fun r => fR c_s * cut m c_o r)%R (cut m x)) as D1. pose proof (vlen_diff n (cut m x) (fun r => fR c_s * cut m c_o r)%R) as D2. rewrite vlen_sub in D2. rewrite vlen_scal, Rabs_pos_eq in D1, D2 by lra. fold L Lo in D1, D2. lra.
Qed.
Lemma c_Lo : (Lo * Lo = s)%R.
Proof. unfold Lo. rewrite vlen_sq, cut_dot by lia. unfold s. apply Rs_ext. intros r Hr. rewrite c_cut by lia. auto. Qed.
Lemma c_Lmin : (2 * tiny <= L)%R.
Proof.
  apply Rnot_lt_le. intros H. pose proof c_S as (PS & _). apply (Rlt_irrefl 0). apply (Rlt_le_trans _ S); auto. right. unfold S. rewrite (Rs_ext m n _ (fun _ => 0%R)); [rewrite Rs_const by lia; ring|].
  intros r Hr. destruct (Req_dec (fR (x r)) 0) as [->|N0]; [apply Rabs_R0|]. exfalso. pose proof (sf_min (x r) (c_x r Hr) N0). pose proof (vlen_entry n (cut m x) r ltac:(lia)) as K. rewrite c_cut in K by lia. fold L in K. lra.
Qed.
Notation GB := (q_g_bounds pf n m c_n1 Hkap Hm c_o c_o_num c_s_ge c_s_le).
Lemma c_sg : (97 / 100 * L <= fR c_s * Rabs (fR g) <= 103 / 100 * L)%R.
Proof.
  pose proof GB as [B1 B2]. fold g s in B1, B2. rewrite <- c_Lo in B1, B2. pose proof c_L as [C1 C2]. pose proof c_s_pos as P. assert (PL : (0 <= L)%R) by apply vlen_pos. assert (PO : (0 <= Lo)%R) by apply vlen_pos. pose proof (Rabs_pos (fR g)) as Pg.
  assert (E : (Rabs (fR g) * Rabs (fR g) = fR g * fR g)%R) by (rewrite <- Rabs_mult; apply Rabs_pos_eq; nra). rewrite <- E in B1, B2.
  assert (H1 : (99 / 100 * Lo <= Rabs (fR g))%R) by (apply Rsqr_incr_0_var; auto; unfold Rsqr; nra).
  assert (H2 : (Rabs (fR g) <= 101 / 100 * Lo)%R) by (apply Rsqr_incr_0_var; [|nra]; unfold Rsqr; nra).
  assert (fR c_s * (99 / 100 * Lo) <= fR c_s * Rabs (fR g))%R by (apply Rmult_le_compat_l; lra). assert (fR c_s * Rabs (fR g) <= fR c_s * (101 / 100 * Lo))%R by (apply Rmult_le_compat_l; lra). lra.
Qed.
Definition c_T : sf := sf_mul c_s (q_g pf n m c_o).
Hypothesis FT : isfin c_T = true.
Lemma c_g_num : num g. Proof. apply (q_g_nh pf n m c_n1 Hkap Hm c_o c_o_num c_s_ge c_s_le). Qed.
Lemma c_T_num : num c_T. Proof. split; auto. apply mul_valid; [apply c_s_num|apply c_g_num]. Qed.
Lemma c_T_near : near_rnd (fR c_s * fR g) (fR c_T). Proof. apply mul_ok; auto; [apply c_s_num|apply c_g_num]. Qed.
Lemma c_T_ne : fR c_T <> 0%R.
Proof.
  intros E. destruct c_T_near as [K _]. rewrite E in K. rewrite Rminus_0_l, Rabs_Ropp, Rabs_mult, (Rabs_pos_eq (fR c_s)) in K by (pose proof c_s_pos; lra).
  pose proof c_sg as [H _]. pose proof c_Lmin. pose proof tiny_pos. pose proof ulp2_1024. set (p := (fR c_s * Rabs (fR g))%R) in *. assert (ulp2 * p <= / 1024 * p)%R by (apply Rmult_le_compat_r; lra). lra.
Qed.
Hypothesis RT : (b2 (-450) <= Rabs (fR c_T) <= b2 511)%R.
Lemma c_tT : (tiny <= / 1000 * ulp2 * Rabs (fR c_T))%R.
Proof.
  destruct RT as [R1 _]. pose proof ulp2_pos. assert (E : (tiny <= / 1024 * ulp2 * b2 (-450))%R) by (rewrite tiny_b, ulp2_b; change (/ 1024)%R with (b2 (-10)); rewrite <- !bpow_plus; apply bpow_le; lia).
  eapply Rle_trans; [exact E|]. pose proof (bpow_gt_0 radix2 (-450)). apply Rmult_le_compat; try lra.
Qed.
Lemma c_sgT : (Rabs (fR c_T - fR c_s * fR g) <= 1001 / 1000 * ulp2 * Rabs (fR c_T) /\ 99 / 100 * Rabs (fR c_T) <= fR c_s * Rabs (fR g) <= 101 / 100 * Rabs (fR c_T))%R.
Proof.
  destruct c_T_near as [_ K]. pose proof c_tT as T. pose proof ulp2_1024. pose proof (Rabs_pos (fR c_T)) as P0. assert (K0 : (Rabs (fR c_T - fR c_s * fR g) <= 1001 / 1000 * ulp2 * Rabs (fR c_T))%R) by lra. split; auto.
  assert (E : (fR c_s * Rabs (fR g) = Rabs (fR c_s * fR g))%R) by (rewrite Rabs_mult, (Rabs_pos_eq (fR c_s)) by (pose proof c_s_pos; lra); auto). rewrite E.
  pose proof (Rabs_triang_inv (fR c_T) (fR c_s * fR g)) as D1. pose proof (Rabs_triang_inv (fR c_s * fR g) (fR c_T)) as D2. rewrite (Rabs_minus_sym (fR c_s * fR g)) in D2. assert (ulp2 * Rabs (fR c_T) <= / 1024 * Rabs (fR c_T))%R by (apply Rmult_le_compat_r; lra). lra.
Qed.
Notation UA := (q_u_abs pf n m c_n1 Hkap Hm c_o c_o_num c_s_ge c_s_le).
Notation UN := (q_u_num pf n m c_n1 Hkap Hm c_o c_o_num c_s_ge c_s_le).
Lemma c_su : (97 / 100 * Rabs (fR c_T) <= fR c_s * Rabs (fR (u m)) <= 21 / 10 * Rabs (fR c_T))%R.
Proof.
  pose proof UA as [U1 U2]. fold u g in U1, U2. pose proof c_sgT as (_ & S1 & S2). pose proof c_s_pos as P. pose proof (Rabs_pos (fR c_T)).
  assert (fR c_s * (99 / 100 * Rabs (fR g)) <= fR c_s * Rabs (fR (u m)))%R by (apply Rmult_le_compat_l; lra). assert (fR c_s * Rabs (fR (u m)) <= fR c_s * (206 / 100 * Rabs (fR g)))%R by (apply Rmult_le_compat_l; lra). lra.
Qed.
Definition c_D : sf := sf_mul c_s (q_u pf n m c_o m).
Definition c_w (i : Z) : sf := if i =? m then c_D else x i.
Lemma c_D_num : num c_D.
Proof.
  apply mul_fin; [apply c_s_num|apply UN; lia|]. fold u. rewrite Rabs_mult, (Rabs_pos_eq (fR c_s)) by (pose proof c_s_pos; lra). pose proof c_su as [_ H]. destruct RT as [_ R2]. eapply Rle_trans; [exact H|].
  pose proof huge_ge. pose proof (bpow_le radix2 (511 + 2) 1023 ltac:(lia)) as K. rewrite bpow_plus in K. change (b2 2) with 4%R in K. pose proof (bpow_gt_0 radix2 511). lra.
Qed.
Lemma c_w_num r : m <= r < n -> num (c_w r).
Proof. intros Hr. unfold c_w. destruct (r =? m); [apply c_D_num|apply c_x; auto]. Qed.
Lemma c_w_m : c_w m = c_D. Proof. unfold c_w. rewrite Z.eqb_refl. auto. Qed.
Lemma c_w_other r : r <> m -> c_w r = x r. Proof. intros. unfold c_w. rewrite (proj2 (Z.eqb_neq r m)); auto. Qed.
Lemma c_D_err : (Rabs (fR c_D - fR c_s * fR (u m)) <= 1003 / 1000 * ulp2 * (fR c_s * Rabs (fR (u m))))%R.
Proof.
  pose proof c_s_pos as P. destruct (mul_ok c_s (u m) (proj1 c_s_num) (proj1 (UN m ltac:(lia))) (proj2 c_D_num)) as [K _]. fold c_D in K. rewrite Rabs_mult, (Rabs_pos_eq (fR c_s)) in K by lra. pose proof c_tT as T. pose proof c_su as [S1 _]. pose proof ulp2_pos.
  assert (ulp2 * (97 / 100 * Rabs (fR c_T)) <= ulp2 * (fR c_s * Rabs (fR (u m))))%R by (apply Rmult_le_compat_l; lra). change (fR (sf_mul c_s (u m))) with (fR c_D) in K. pose proof (Rabs_pos (fR c_T)). assert (0 <= ulp2 * Rabs (fR c_T))%R by nra. lra.
Qed.
(** The stored vector against the vector in use. *)
Let a (r : Z) : R := (fR c_s * cut m u r)%R.
Lemma c_a_len : (vlen n a = fR c_s * vlen n (cut m u))%R.
Proof. unfold a. rewrite vlen_scal, Rabs_pos_eq by (pose proof c_s_pos; lra). auto. Qed.
Lemma c_u_len : (0 < vlen n (cut m u) /\ b2 (-450) <= vlen n (cut m u))%R.
Proof. pose proof (q_len pf n m c_n1 Hkap Hm c_o c_o_num c_s_ge c_s_le) as [H _]. fold u in H. pose proof (bpow_gt_0 radix2 (-450)). lra. Qed.
Lemma c_u_V : (137 / 100 * Rabs (fR g) <= vlen n (cut m u) <= 208 / 100 * Rabs (fR g))%R.
Proof.
  pose proof (q_V_bounds pf n m c_n1 Hkap Hm c_o c_o_num c_s_ge c_s_le) as [V1 V2]. fold u g in V1, V2. rewrite <- vlen_sq in V1, V2. pose proof (vlen_pos n (cut m u)) as P. pose proof (Rabs_pos (fR g)) as Pg.
  assert (E : (Rabs (fR g) * Rabs (fR g) = fR g * fR g)%R) by (rewrite <- Rabs_mult; apply Rabs_pos_eq; nra). rewrite <- E in V1, V2. split; (apply Rsqr_incr_0_var; [|lra]); unfold Rsqr; nra.
Qed.
Lemma c_a_T : (135 / 100 * Rabs (fR c_T) <= vlen n a <= 2102 / 1000 * Rabs (fR c_T))%R.
Proof.
  rewrite c_a_len. pose proof c_u_V as [U1 U2]. pose proof c_sgT as (_ & S1 & S2). pose proof c_s_pos as P. pose proof (Rabs_pos (fR c_T)).
  assert (fR c_s * (137 / 100 * Rabs (fR g)) <= fR c_s * vlen n (cut m u))%R by (apply Rmult_le_compat_l; lra). assert (fR c_s * vlen n (cut m u) <= fR c_s * (208 / 100 * Rabs (fR g)))%R by (apply Rmult_le_compat_l; lra). lra.
Qed.
Lemma c_st2 : (fR c_s * (IZR n * tiny) <= / 1000 * ulp2 * vlen n a)%R.
Proof.
  rewrite c_a_len. pose proof c_u_len as [_ U]. pose proof c_s_pos as P. pose proof c_nt as [_ T]. pose proof c_small. pose proof (bpow_le radix2 (-1032) (-989) ltac:(lia)). pose proof ulp2_pos. pose proof (bpow_gt_0 radix2 (-450)).
  replace (/ 1000 * ulp2 * (fR c_s * vlen n (cut m u)))%R with (fR c_s * (/ 1000 * ulp2 * vlen n (cut m u)))%R by ring. apply Rmult_le_compat_l; [lra|].
  assert (ulp2 * b2 (-450) <= ulp2 * vlen n (cut m u))%R by (apply Rmult_le_compat_l; lra). assert (0 < ulp2 * b2 (-450))%R by nra. lra.
Qed.
Lemma c_aw : (vlen n (fun r => a r - cut m c_w r) <= 102 / 100 * ulp2 * vlen n a)%R.
Proof.
  pose proof c_s_pos as P. pose proof tiny_pos as PT. pose proof ulp2_1024 as PU. pose proof (vlen_pos n a) as PL.
  apply Rle_trans with (vlen n (fun r => 101 / 100 * ulp2 * Rabs (a r) + 101 / 100 * (fR c_s * tiny))%R).
  - apply vlen_le. intros r Hr. unfold a. assert (PST : (0 < fR c_s * tiny)%R) by nra. destruct (Z_lt_ge_dec r m) as [H|H].
    + rewrite !c_cut0 by lia. rewrite Rmult_0_r, Rminus_0_r, Rabs_R0. lra.
    + rewrite !c_cut by lia. destruct (Z.eq_dec r m) as [->|Hne].
      * rewrite c_w_m. rewrite Rabs_mult, (Rabs_pos_eq (fR c_s)) by lra. rewrite Rabs_minus_sym. pose proof c_D_err. pose proof (Rabs_pos (fR (u m))). assert (0 <= ulp2 * (fR c_s * Rabs (fR (u m))))%R by (apply Rmult_le_pos; [lra|nra]). lra.
      * rewrite c_w_other by auto. unfold u. rewrite q_u_other by auto. pose proof (c_o_err r ltac:(lia)) as E. set (p := (fR c_s * fR (c_o r))%R) in *. set (q := fR (x r)) in *.
        pose proof (Rabs_triang_inv q p) as D. rewrite (Rabs_minus_sym q) in D. pose proof (Rabs_pos p). pose proof (Rabs_pos q).
        assert (B1 : (Rabs q <= 1002 / 1000 * Rabs p + 1002 / 1000 * (fR c_s * tiny))%R) by (assert (ulp2 * Rabs q <= / 1024 * Rabs q)%R by (apply Rmult_le_compat_r; lra); lra).
        assert (ulp2 * Rabs q <= ulp2 * (1002 / 1000 * Rabs p + 1002 / 1000 * (fR c_s * tiny)))%R by (apply Rmult_le_compat_l; lra).
        assert (ulp2 * (fR c_s * tiny) <= / 1024 * (fR c_s * tiny))%R by (apply Rmult_le_compat_r; lra). assert (0 <= ulp2 * Rabs p)%R by nra. lra.
  - eapply Rle_trans; [apply vlen_tri|]. rewrite vlen_scal, vlen_abs, Rabs_pos_eq by lra. pose proof (vlen_const n (101 / 100 * (fR c_s * tiny)) ltac:(lia) ltac:(nra)) as K. pose proof c_st2. assert (0 <= ulp2 * vlen n a)%R by nra. lra.
Qed.
Lemma c_w_len : (vlen n a - vlen n (cut m c_w) <= 102 / 100 * ulp2 * vlen n a /\ vlen n (cut m c_w) - vlen n a <= 102 / 100 * ulp2 * vlen n a)%R.
Proof.
  pose proof c_aw as K. pose proof (vlen_diff n a (cut m c_w)) as D1. pose proof (vlen_diff n (cut m c_w) a) as D2. rewrite vlen_sub in D2. lra.
Qed.
Lemma c_a_pos : (0 < vlen n a)%R.
Proof. pose proof c_a_T. destruct RT as [R1 _]. pose proof (bpow_gt_0 radix2 (-450)). lra. Qed.
Lemma c_w_pos : (0 < vlen n (cut m c_w))%R.
Proof. pose proof c_w_len. pose proof c_a_pos. pose proof ulp2_1024. assert (ulp2 * vlen n a <= / 1024 * vlen n a)%R by (apply Rmult_le_compat_r; lra). lra. Qed.
Lemma c_near z : (vlen n (fun r => mvec n (rP n m u) z r - mvec n (rP n m c_w) z r) <= 9 * ulp2 * vlen n z)%R.
Proof.
  pose proof (refl_near n a (cut m c_w) z (102 / 100 * ulp2) c_a_pos c_w_pos c_aw) as K. pose proof c_s_pos as P.
  assert (E : forall r, 0 <= r < n -> mvec n (refl a (- (dot n a a / 2))) z r = mvec n (rP n m u) z r).
  { intros r Hr. unfold mvec. apply Rs_ext. intros t Ht. f_equal. unfold rP. rewrite <- (refl_scale (fR c_s) (cut m u)) by lra. unfold a. f_equal. unfold dot.
    rewrite (Rs_ext 0 n _ (fun k => fR c_s * fR c_s * (cut m u k * cut m u k))%R) by (intros; ring). rewrite Rs_scal_l. field. }
  rewrite (vlen_ext n _ (fun r => mvec n (refl a (- (dot n a a / 2))) z r - mvec n (refl (cut m c_w) (- (dot n (cut m c_w) (cut m c_w) / 2))) z r)%R).
  - eapply Rle_trans; [exact K|]. pose proof ulp2_pos. pose proof (vlen_pos n z). assert (0 <= ulp2 * vlen n z)%R by nra. lra.
  - intros r Hr. rewrite E by auto. reflexivity.
Qed.
Notation k7 := (kap_7 n Hn3).
(** A vector the transform turns. *)
Lemma c_apply (z zh : Z -> sf) (zr zhr : Z -> R) : (forall r, m <= r < n -> sf_valid (z r) = true) -> (forall r, m <= r < n -> isfin (zh r) = true) ->
  (forall r, m <= r < n -> zr r = fR (z r)) -> (forall r, m <= r < n -> zhr r = fR (zh r)) -> (forall r, 0 <= r < m -> zhr r = zr r) ->
  (forall r, m <= r < n -> zh r = sf_sub (z r) (sf_mul (q_al pf n m u (q_h pf n m c_o) z) (u r))) ->
  (vlen n (fun r => zhr r - mvec n (rP n m c_w) zr r) <= 12 * kap * vlen n zr + omg n)%R.
Proof.
  intros Vz Fz Ez Eh Elo E. pose proof (form_hs pf n m c_n1 Hkap Hm u (q_h pf n m c_o) z zh zr zhr (q_good pf n m c_n1 Hkap Hm c_o c_o_num c_s_ge c_s_le Hn3) Vz Fz Ez Eh Elo E) as K.
  pose proof (c_near zr) as K2. rewrite (vlen_ext n _ (fun r => (zhr r - mvec n (rP n m u) zr r) + (mvec n (rP n m u) zr r - mvec n (rP n m c_w) zr r))%R) by (intros; ring).
  eapply Rle_trans; [apply vlen_tri|]. pose proof k7. pose proof (vlen_pos n zr). pose proof ulp2_pos. assert (7 * ulp2 * vlen n zr <= kap * vlen n zr)%R by (apply Rmult_le_compat_r; lra). assert (0 <= ulp2 * vlen n zr)%R by nra. lra.
Qed.
(** The column itself. *)
Lemma c_column (y : Z -> R) : (forall r, m <= r < n -> y r = fR (x r)) ->
  (vlen n (fun r => (if r <? m then y r else if r =? m then fR c_T else 0) - mvec n (rP n m c_w) y r) <= 12 * kap * vlen n y + omg n)%R.
Proof.
  intros Hy. pose proof c_s_pos as P. set (y0 := fun r => if r <? m then (y r / fR c_s)%R else fR (c_o r)).
  pose proof (q_own pf n m c_n1 Hkap Hm c_o c_o_num c_s_ge c_s_le Hn3 y0) as K. fold u g in K. change (refl (cut m u) (- (dot n (cut m u) (cut m u) / 2))) with (rP n m u) in K.
  assert (H0 : forall r, m <= r < n -> y0 r = fR (c_o r)) by (intros r Hr; unfold y0; rewrite (proj2 (Z.ltb_ge _ _)) by lia; auto). specialize (K H0).
  set (o1 := fun r => ((if r <? m then y0 r else if r =? m then fR g else 0) - mvec n (rP n m u) y0 r)%R) in *.
  assert (Ly : (vlen n (cut m x) <= vlen n y)%R).
  { rewrite <- (vlen_abs n y). apply vlen_le. intros r Hr. destruct (Z_lt_ge_dec r m); [rewrite c_cut0 by lia; rewrite Rabs_R0; apply Rabs_pos|rewrite c_cut, Hy by lia; lra]. }
  assert (Dy : (vlen n (fun r => fR c_s * y0 r - y r) <= 102 / 100 * ulp2 * vlen n y)%R).
  { rewrite (vlen_ext n _ (fun r => fR c_s * cut m c_o r - cut m x r)%R).
    - eapply Rle_trans; [apply c_xo|]. pose proof ulp2_pos. apply Rmult_le_compat_l; [lra|exact Ly].
    - intros r Hr. destruct (Z_lt_ge_dec r m); [rewrite !c_cut0 by lia; unfold y0; rewrite (proj2 (Z.ltb_lt _ _)) by lia; field; lra|rewrite !c_cut, H0, Hy by lia; auto]. }
  assert (L0 : (fR c_s * vlen n y0 <= 101 / 100 * vlen n y)%R).
  { pose proof (vlen_diff n y (fun r => fR c_s * y0 r)%R) as D. rewrite vlen_sub in D. rewrite vlen_scal, Rabs_pos_eq in D by lra. pose proof ulp2_1024. pose proof (vlen_pos n y). assert (ulp2 * vlen n y <= / 1024 * vlen n y)%R by (apply Rmult_le_compat_r; lra). lra. }
  rewrite (vlen_ext n _ (fun r => (if r =? m then fR c_T - fR c_s * fR g else 0) + (fR c_s * o1 r + (mvec n (rP n m u) (fun r => fR c_s * y0 r - y r) r + (mvec n (rP n m u) y r - mvec n (rP n m c_w) y r))))%R).
  2:{ intros r Hr. assert (E : mvec n (rP n m u) (fun r => fR c_s * y0 r - y r)%R r = (fR c_s * mvec n (rP n m u) y0 r - mvec n (rP n m u) y r)%R).
      { unfold mvec. rewrite <- Rs_scal_l, <- Rs_minus. apply Rs_ext. intros. ring. }
      rewrite E. unfold o1. destruct (Z.ltb_spec r m).
      - rewrite (proj2 (Z.eqb_neq r m)) by lia. unfold y0 at 1. rewrite (proj2 (Z.ltb_lt r m)) by lia. field. lra.
      - destruct (Z.eqb_spec r m); ring. }
  eapply Rle_trans; [apply vlen_tri|]. eapply Rle_trans; [apply Rplus_le_compat_l, vlen_tri|]. eapply Rle_trans; [apply Rplus_le_compat_l, Rplus_le_compat_l, vlen_tri|].
  rewrite vlen_scal, (vlen_orth n (rP n m u)) by apply rP_orth. rewrite (Rabs_pos_eq (fR c_s)) by lra. pose proof (c_near y) as K2.
  assert (E1 : vlen n (fun r => if r =? m then fR c_T - fR c_s * fR g else 0)%R = Rabs (fR c_T - fR c_s * fR g)).
  { unfold vlen, dot. rewrite (Rs_pick 0 n m) by (try lia; intros i _ Hi; rewrite (proj2 (Z.eqb_neq i m)) by auto; ring). rewrite Z.eqb_refl. apply sqrt_Rsqr_abs. }
  rewrite E1. pose proof c_sgT as (S1 & S2 & _). pose proof c_sg as [_ S3]. pose proof k7. pose proof (vlen_pos n y) as PY. pose proof ulp2_pos as PU. pose proof (omg_pos n c_n1).
  assert (T1 : (Rabs (fR c_T) <= 105 / 100 * vlen n y)%R) by (fold L in Ly; lra). assert (ulp2 * Rabs (fR c_T) <= ulp2 * (105 / 100 * vlen n y))%R by (apply Rmult_le_compat_l; lra).
  assert (Q1 : (fR c_s * vlen n o1 <= 3 * kap * (101 / 100 * vlen n y))%R).
  { apply Rle_trans with (fR c_s * (3 * kap * vlen n y0))%R; [apply Rmult_le_compat_l; lra|]. replace (fR c_s * (3 * kap * vlen n y0))%R with (3 * kap * (fR c_s * vlen n y0))%R by ring. apply Rmult_le_compat_l; lra. }
  assert (7 * ulp2 * vlen n y <= kap * vlen n y)%R by (apply Rmult_le_compat_r; lra). assert (0 <= ulp2 * vlen n y)%R by nra. lra.
Qed.
(** ** The product of the transform uses the stored vector *)
Let Vw := dot n (cut m c_w) (cut m c_w).
Lemma c_Vw : (vlen n a * vlen n a - Vw <= 206 / 100 * ulp2 * (vlen n a * vlen n a) /\ Vw - vlen n a * vlen n a <= 206 / 100 * ulp2 * (vlen n a * vlen n a))%R.
Proof.
  unfold Vw. rewrite <- vlen_sq. pose proof c_w_len as [A1' A2']. pose proof c_a_pos as PA. pose proof c_w_pos as PW. pose proof ulp2_1024 as U. set (p := vlen n a) in *. set (q := vlen n (cut m c_w)) in *.
  assert (U2 : (ulp2 * p <= / 1024 * p)%R) by (apply Rmult_le_compat_r; lra). assert (PU : (0 <= ulp2 * p)%R) by nra.
  assert (K1 : ((p - q) * (p + q) <= 102 / 100 * ulp2 * p * (2002 / 1000 * p))%R) by (apply Rle_trans with (102 / 100 * ulp2 * p * (p + q))%R; [apply Rmult_le_compat_r; lra|apply Rmult_le_compat_l; lra]).
  assert (K2 : ((q - p) * (p + q) <= 102 / 100 * ulp2 * p * (2002 / 1000 * p))%R) by (apply Rle_trans with (102 / 100 * ulp2 * p * (p + q))%R; [apply Rmult_le_compat_r; lra|apply Rmult_le_compat_l; lra]).
  assert (0 <= ulp2 * p * p)%R by nra. split; lra.
Qed.
Lemma c_Vw_pos : (0 < Vw)%R. Proof. unfold Vw. rewrite <- vlen_sq. pose proof c_w_pos. nra. Qed.
Lemma c_DT : (Rabs (fR c_D * fR c_T + Vw / 2) <= 17 / 10 * kap * (Vw / 2))%R.
Proof.
  pose proof (q_gu pf n m c_n1 Hkap Hm c_o c_o_num c_s_ge c_s_le) as K. fold u g in K. pose proof c_a_len as La. pose proof (vlen_sq n (cut m u)) as Lu. set (V := dot n (cut m u) (cut m u)) in *.
  pose proof c_s_pos as P. pose proof ulp2_1024 as U. pose proof k7 as K7. pose proof c_Vw as [W1 W2]. set (Va := (vlen n a * vlen n a)%R) in *.
  assert (EV : Va = (fR c_s * fR c_s * V)%R) by (unfold Va; rewrite La, <- Lu; ring). assert (PVa : (0 < Va)%R) by (unfold Va; pose proof c_a_pos; nra).
  set (p := (fR c_s * fR g)%R). set (q := (fR c_s * fR (u m))%R).
  assert (K1 : (Rabs (p * q + Va / 2) <= (58 / 100 * kap + 34 / 10 * ulp2) * (Va / 2))%R).
  { rewrite EV. unfold p, q. replace (fR c_s * fR g * (fR c_s * fR (u m)) + fR c_s * fR c_s * V / 2)%R with (fR c_s * fR c_s * (fR g * fR (u m) + V / 2))%R by field.
    rewrite Rabs_mult, (Rabs_pos_eq (fR c_s * fR c_s)) by nra. replace ((58 / 100 * kap + 34 / 10 * ulp2) * (fR c_s * fR c_s * V / 2))%R with (fR c_s * fR c_s * ((58 / 100 * kap + 34 / 10 * ulp2) * (V / 2)))%R by field.
    apply Rmult_le_compat_l; [nra|exact K]. }
  pose proof c_D_err as D1. pose proof c_sgT as (S1 & S2 & S3). replace (fR c_s * Rabs (fR (u m)))%R with (Rabs q) in D1 by (unfold q; rewrite Rabs_mult, (Rabs_pos_eq (fR c_s)) by lra; auto).
  replace (fR c_s * Rabs (fR g))%R with (Rabs p) in S2, S3 by (unfold p; rewrite Rabs_mult, (Rabs_pos_eq (fR c_s)) by lra; auto). fold p in S1. fold q in D1.
  assert (Uv : (ulp2 * Va <= / 1024 * Va)%R) by (apply Rmult_le_compat_r; lra). assert (Kv : (kap * Va <= / 1024 * Va)%R) by (apply Rmult_le_compat_r; lra). assert (U0 : (0 <= ulp2 * Va)%R) by nra.
  assert (Ppq : (Rabs (p * q) <= 101 / 100 * (Va / 2))%R). { replace (p * q)%R with ((p * q + Va / 2) - Va / 2)%R by ring. eapply Rle_trans; [apply Rabs_triang|]. rewrite Rabs_Ropp, (Rabs_pos_eq (Va / 2)) by lra. lra. }
  pose proof (Rabs_pos p) as Pp. pose proof (Rabs_pos q) as Pq. pose proof (Rabs_pos (fR c_T)) as PT0.
  assert (K2 : (Rabs (fR c_D * fR c_T - p * q) <= 203 / 100 * ulp2 * Rabs (p * q))%R).
  { replace (fR c_D * fR c_T - p * q)%R with ((fR c_D - q) * fR c_T + q * (fR c_T - p))%R by ring. eapply Rle_trans; [apply Rabs_triang|]. rewrite !Rabs_mult.
    assert (Q0 : (0 <= ulp2 * Rabs q)%R) by nra. assert (B1 : (Rabs (fR c_D - q) * Rabs (fR c_T) <= 1003 / 1000 * ulp2 * Rabs q * (100 / 99 * Rabs p))%R) by (apply Rmult_le_compat; try lra; apply Rabs_pos).
    assert (B2 : (Rabs q * Rabs (fR c_T - p) <= Rabs q * (1001 / 1000 * ulp2 * (100 / 99 * Rabs p)))%R).
    { apply Rmult_le_compat_l; auto. eapply Rle_trans; [exact S1|]. apply Rmult_le_compat_l; lra. }
    assert (0 <= ulp2 * Rabs q * Rabs p)%R by nra. nra. }
  assert (K3 : (Rabs (fR c_D * fR c_T - p * q) <= 203 / 100 * ulp2 * (101 / 100 * (Va / 2)))%R) by (eapply Rle_trans; [exact K2|]; apply Rmult_le_compat_l; lra).
  assert (K4 : (Rabs (Vw / 2 - Va / 2) <= 206 / 100 * ulp2 * (Va / 2))%R) by (apply Rabs_le; lra).
  replace (fR c_D * fR c_T + Vw / 2)%R with ((p * q + Va / 2) + ((fR c_D * fR c_T - p * q) + (Vw / 2 - Va / 2)))%R by ring.
  eapply Rle_trans; [apply Rabs_triang|]. eapply Rle_trans; [apply Rplus_le_compat_l, Rabs_triang|].
  assert (Q1 : (Va <= 1003 / 1000 * Vw)%R) by lra. assert (7 * ulp2 * Va <= kap * Va)%R by (apply Rmult_le_compat_r; lra).
  apply Rle_trans with (169 / 100 * kap * (Va / 2))%R; [lra|]. apply Rle_trans with (169 / 100 * kap * (1003 / 1000 * (Vw / 2)))%R; [apply Rmult_le_compat_l; lra|]. pose proof c_Vw_pos. assert (0 <= kap * Vw)%R by nra. lra.
Qed.
Lemma c_applyP (z zh : Z -> sf) (zr zhr : Z -> R) (sg : sf) : (forall r, m <= r < n -> sf_valid (z r) = true) -> (forall r, m <= r < n -> isfin (zh r) = true) ->
  (forall r, m <= r < n -> zr r = fR (z r)) -> (forall r, m <= r < n -> zhr r = fR (zh r)) -> (forall r, 0 <= r < m -> zhr r = zr r) ->
  sg = fadds (O := SO) (sf_zero : @F SO) m n (fun r => sf_mul (c_w r) (z r)) ->
  (forall r, m <= r < n -> zh r = sf_add (z r) (sf_mul (sf_div (sf_div sg c_D) c_T) (c_w r))) ->
  (vlen n (fun r => zhr r - mvec n (rP n m c_w) zr r) <= 10 * kap * vlen n zr + omg n)%R.
Proof.
  intros Vz Fz Hz Hh Hlo Esg E. set (al := sf_div (sf_div sg c_D) c_T) in *. pose proof c_w_num as Nw. pose proof c_D_num as [VD FD]. pose proof c_T_num as [VT FT0]. pose proof c_T_ne as TN.
  assert (FF : forall r, m <= r < n -> num (z r) /\ isfin (sf_mul al (c_w r)) = true).
  { intros r Hr. specialize (Fz r Hr). rewrite E in Fz by auto. apply sf_add_fin in Fz. destruct Fz. split; auto. split; auto. }
  destruct (sf_mul_fin _ _ (proj2 (FF m ltac:(lia)))) as [Fa _]. pose proof (sf_div_fin _ _ Fa) as Fd. pose proof (sf_div_fin _ _ Fd) as Fsg.
  assert (AX : apx (Z.to_nat (n - m)) (Rs m n (fun r => fR (z r) * fR (c_w r))%R) (Rs m n (fun r => Rabs (fR (z r)) * Rabs (fR (c_w r)))%R) (IZR (n - m) * tiny) sg).
  { rewrite Esg. pose proof (fadds_apx pf m n 1 (fun r => sf_mul (c_w r) (z r)) (fun r => fR (z r) * fR (c_w r))%R (fun r => Rabs (fR (z r)) * Rabs (fR (c_w r)))%R (fun _ => tiny) ltac:(lia)) as K.
    rewrite Rs_const in K by lia. replace (1 + Z.to_nat (n - m) - 1)%nat with (Z.to_nat (n - m)) in K by lia. apply K. intros r Hr. rewrite (Rmult_comm (fR (z r))), (Rmult_comm (Rabs (fR (z r)))). apply apx_mul; [apply Nw; auto|apply FF; auto]. }
  destruct AX as (Vs & _ & _ & Es & _). specialize (Es Fsg).
  assert (DN : fR c_D <> 0%R). { apply (div_zero_fin sg); auto. }
  pose proof (div_ok sg c_D Vs VD Fd DN) as [D1 _]. pose proof (div_ok (sf_div sg c_D) c_T (div_valid _ _ Vs VD) VT Fa TN) as [D2 _]. fold al in D2.
  pose proof ulp2_pos as PU. assert (U4 : (ulp2 <= / 4096)%R) by (rewrite ulp2_b; change (/ 4096)%R with (b2 (-12)); apply bpow_le; lia). pose proof tiny_pos as PT. set (At := Rabs (fR c_T)) in *. assert (PAt : (0 < At)%R) by (apply Rabs_pos_lt; auto).
  pose proof k7 as K7. pose proof c_n1 as Hn. assert (Pn : (1 <= IZR n)%R) by (apply IZR_le; lia). set (ty := (2 * (tiny / At) + 2 * tiny)%R). assert (Pti : (0 < tiny / At)%R) by (apply Rdiv_lt_0_compat; auto).
  assert (Hb : (Rabs (fR al - fR sg / (fR c_D * fR c_T)) <= 201 / 100 * ulp2 * Rabs (fR sg / (fR c_D * fR c_T)) + ty)%R).
  { set (q1 := fR (sf_div sg c_D)) in *. set (c0 := (fR sg / (fR c_D * fR c_T))%R). assert (E1 : (Rabs (q1 / fR c_T - c0) <= ulp2 * Rabs c0 + tiny / At)%R).
    { replace (q1 / fR c_T - c0)%R with ((q1 - fR sg / fR c_D) / fR c_T)%R by (unfold c0; field; auto). unfold Rdiv at 1. rewrite Rabs_mult, Rabs_inv. fold At.
      apply Rle_trans with ((ulp2 * Rabs (fR sg / fR c_D) + tiny) * / At)%R; [apply Rmult_le_compat_r; [left; apply Rinv_0_lt_compat; auto|exact D1]|].
      right. replace (Rabs c0) with (Rabs (fR sg / fR c_D) / At)%R; [field; lra|]. unfold c0, At. replace (fR sg / (fR c_D * fR c_T))%R with (fR sg / fR c_D * / fR c_T)%R by (field; auto). rewrite Rabs_mult, Rabs_inv. reflexivity. }
    assert (E2 : (Rabs (q1 / fR c_T) <= Rabs c0 + (ulp2 * Rabs c0 + tiny / At))%R) by (replace (q1 / fR c_T)%R with (c0 + (q1 / fR c_T - c0))%R by ring; eapply Rle_trans; [apply Rabs_triang|]; lra).
    replace (fR al - c0)%R with ((fR al - q1 / fR c_T) + (q1 / fR c_T - c0))%R by ring. eapply Rle_trans; [apply Rabs_triang|]. pose proof (Rabs_pos c0).
    assert (ulp2 * Rabs (q1 / fR c_T) <= ulp2 * (Rabs c0 + (ulp2 * Rabs c0 + tiny / At)))%R by (apply Rmult_le_compat_l; lra). assert (0 <= ulp2 * Rabs c0)%R by nra.
    assert (ulp2 * (ulp2 * Rabs c0) <= / 4096 * (ulp2 * Rabs c0))%R by (apply Rmult_le_compat_r; lra). assert (ulp2 * (tiny / At) <= / 4096 * (tiny / At))%R by (apply Rmult_le_compat_r; lra). unfold ty. lra. }
  assert (Hs2 : (Rabs (fR sg - dot n zr (cut m c_w)) <= 1002 / 1000 * (kap - 4 * ulp2) * (vlen n zr * vlen n (cut m c_w)) + 101 / 100 * (IZR n * tiny))%R) by (apply (sum_real n Hn Hkap m c_w z zr _ Hm Hz Es)).
  assert (Pty : (0 <= ty)%R) by (unfold ty; lra).
  pose proof (ap_refl n (cut m c_w) zr zhr (fR c_D * fR c_T)%R (fR sg) (fR al) (17 / 10 * kap)%R (1002 / 1000 * (kap - 4 * ulp2))%R (101 / 100 * (IZR n * tiny))%R (201 / 100 * ulp2)%R ty ltac:(lia) c_Vw_pos ltac:(lra) ltac:(lra) ltac:(lra) ltac:(apply Rmult_le_pos; [lra|apply Rmult_le_pos; lra]) Pty c_DT Hs2 Hb) as AP.
  assert (HZ : forall r, 0 <= r < n -> (Rabs (zhr r - (zr r + fR al * cut m c_w r)) <= 201 / 100 * ulp2 * Rabs (zr r) + 3 * (201 / 100 * ulp2) * (Rabs (fR al) * Rabs (cut m c_w r)) + 2 * ty)%R).
  { intros r Hr. destruct (Z_lt_ge_dec r m) as [H|H].
    - rewrite c_cut0 by lia. rewrite Hlo by lia. rewrite Rmult_0_r, Rplus_0_r, Rminus_diag_eq, Rabs_R0 by auto. pose proof (Rabs_pos (zr r)). assert (0 <= ulp2 * Rabs (zr r))%R by nra. rewrite Rmult_0_r. lra.
    - rewrite c_cut, Hh by lia. eapply Rle_trans; [apply (entry_err (z r) (sf_mul al (c_w r)) (zh r) (zr r) (fR al) (fR (c_w r))); auto|].
      + apply Vz. lia.
      + apply mul_valid; [apply div_valid; auto; apply div_valid; auto|apply Nw; lia].
      + symmetry. apply Hz. lia.
      + apply E. lia.
      + apply Fz. lia.
      + apply mul_ok; [apply div_valid; auto; apply div_valid; auto|apply Nw; lia|apply FF; lia].
      + pose proof (Rabs_pos (zr r)). assert (0 <= ulp2 * Rabs (zr r))%R by nra. assert (0 <= ulp2 * (Rabs (fR al) * Rabs (fR (c_w r))))%R by (apply Rmult_le_pos; [lra|apply Rmult_le_pos; apply Rabs_pos]). unfold ty. lra. }
  specialize (AP HZ). fold Vw in AP. change (refl (cut m c_w) (- (Vw / 2))) with (rP n m c_w) in AP. eapply Rle_trans; [exact AP|]. pose proof (vlen_pos n zr) as PZ.
  apply Rplus_le_compat; [apply Rmult_le_compat_r; lra|].
  (* the absolute part *)
  destruct RT as [R1 R2]. fold At in R1, R2. pose proof c_a_T as [T1 T2]. fold At in T1, T2. pose proof c_w_len as [W1 W2]. pose proof c_a_pos as PA. set (lw := vlen n (cut m c_w)) in *. assert (Ua : (ulp2 * vlen n a <= / 4096 * vlen n a)%R) by (apply Rmult_le_compat_r; lra).
  assert (W3 : (At <= lw <= 22 / 10 * At)%R) by lra. pose proof (bpow_gt_0 radix2 (-450)) as P450.
  assert (I1 : (tiny / At <= b2 (-625))%R). { apply (Rmult_le_reg_r At); auto. unfold Rdiv. rewrite Rmult_assoc, Rinv_l, Rmult_1_r by lra. rewrite tiny_b. change (-1075) with (-625 + -450). rewrite bpow_plus. apply Rmult_le_compat_l; [apply bpow_ge_0|auto]. }
  assert (I2 : (tiny <= b2 (-625))%R) by (rewrite tiny_b; apply bpow_le; lia).
  assert (I3 : (tiny * At <= b2 (-564))%R). { apply Rle_trans with (tiny * b2 511)%R; [apply Rmult_le_compat_l; lra|]. rewrite tiny_b, <- bpow_plus. apply Rle_refl. }
  assert (I4 : (tiny <= b2 (-564))%R) by (rewrite tiny_b; apply bpow_le; lia). assert (I5 : (b2 (-625) <= b2 (-564))%R) by (apply bpow_le; lia).
  assert (J1 : (24 / 10 * (101 / 100 * (IZR n * tiny)) / lw <= IZR n * (3 * b2 (-564)))%R).
  { apply Rle_trans with (IZR n * (25 / 10 * (tiny / At)))%R; [|apply Rmult_le_compat_l; lra].
    replace (24 / 10 * (101 / 100 * (IZR n * tiny)) / lw)%R with (IZR n * (2424 / 1000 * (tiny / lw)))%R by (field; lra). apply Rmult_le_compat_l; [lra|].
    assert (tiny / lw <= tiny / At)%R by (apply Rmult_le_compat_l; [lra|]; apply Rinv_le_contravar; lra). lra. }
  assert (J2 : (12 / 10 * ty * lw <= 14 * b2 (-564))%R).
  { apply Rle_trans with (12 / 10 * ty * (22 / 10 * At))%R; [apply Rmult_le_compat_l; lra|]. unfold ty. replace (12 / 10 * (2 * (tiny / At) + 2 * tiny) * (22 / 10 * At))%R with (528 / 100 * tiny + 528 / 100 * (tiny * At))%R by (field; lra). pose proof (bpow_gt_0 radix2 (-564)). lra. }
  assert (J3 : (2 * IZR n * ty <= IZR n * (8 * b2 (-564)))%R). { unfold ty. replace (2 * IZR n * (2 * (tiny / At) + 2 * tiny))%R with (IZR n * (4 * (tiny / At) + 4 * tiny))%R by ring. apply Rmult_le_compat_l; lra. }
  unfold omg. change (-537) with (5 + (-564 + 22)). rewrite !bpow_plus. change (b2 5) with 32%R. assert (1 <= b2 22)%R by (apply (bpow_le radix2 0 22); lia). pose proof (bpow_gt_0 radix2 (-564)) as P5.
  assert (b2 (-564) <= b2 (-564) * b2 22)%R by nra. assert (IZR n * (25 * b2 (-564)) <= IZR n * (32 * (b2 (-564) * b2 22)))%R by (apply Rmult_le_compat_l; lra). assert (b2 (-564) <= IZR n * b2 (-564))%R by nra. lra.
Qed.
(** No overflow on the way to the product. *)
Lemma c_finP (z : Z -> sf) (zr : Z -> R) (sg : sf) : (forall r, m <= r < n -> num (z r)) -> (forall r, m <= r < n -> zr r = fR (z r)) -> (vlen n zr <= 2)%R ->
  sg = fadds (O := SO) (sf_zero : @F SO) m n (fun r => sf_mul (c_w r) (z r)) ->
  forall r, m <= r < n -> isfin (sf_add (z r) (sf_mul (sf_div (sf_div sg c_D) c_T) (c_w r))) = true.
Proof.
  intros Nz Hz Lz Esg r Hr. pose proof c_w_num as Nw. pose proof c_D_num as ND. pose proof c_T_num as NT. pose proof c_T_ne as TN. pose proof c_n1 as Hn. destruct RT as [R1 R2]. set (At := Rabs (fR c_T)) in *.
  pose proof ulp2_1024 as U. pose proof tiny_pos as PT. pose proof c_a_T as [T1 T2]. fold At in T1, T2. pose proof c_w_len as [W1 W2]. pose proof c_a_pos as PA. set (lw := vlen n (cut m c_w)) in *.
  assert (Ua : (ulp2 * vlen n a <= / 1024 * vlen n a)%R) by (apply Rmult_le_compat_r; lra). assert (W3 : (At <= lw <= 22 / 10 * At)%R) by lra. pose proof (bpow_gt_0 radix2 (-450)) as P450. assert (PAt : (0 < At)%R) by lra.
  assert (WE : forall t, m <= t < n -> (Rabs (fR (c_w t)) <= 22 / 10 * At)%R).
  { intros t Ht. pose proof (vlen_entry n (cut m c_w) t ltac:(lia)) as K. rewrite c_cut in K by lia. fold lw in K. lra. }
  assert (ZE : forall t, m <= t < n -> (Rabs (fR (z t)) <= 2)%R) by (intros t Ht; rewrite <- Hz by auto; pose proof (vlen_entry n zr t ltac:(lia)); lra).
  assert (DA : (9 / 10 * At <= Rabs (fR c_D))%R).
  { pose proof c_D_err as K. pose proof c_su as [S1 _]. fold At in S1. pose proof c_s_pos as P. pose proof (Rabs_triang_inv (fR c_s * fR (u m)) (fR c_D)) as K2. rewrite Rabs_minus_sym, Rabs_mult, (Rabs_pos_eq (fR c_s)) in K2 by lra.
    set (q := (fR c_s * Rabs (fR (u m)))%R) in *. assert (ulp2 * q <= / 1024 * q)%R by (apply Rmult_le_compat_r; lra). lra. }
  assert (DN : fR c_D <> 0%R) by (intros E; rewrite E, Rabs_R0 in DA; lra).
  (* the sum *)
  assert (AX : apx (Z.to_nat (n - m)) (Rs m n (fun r => fR (z r) * fR (c_w r))%R) (Rs m n (fun r => Rabs (fR (z r)) * Rabs (fR (c_w r)))%R) (IZR (n - m) * tiny) sg).
  { rewrite Esg. pose proof (fadds_apx pf m n 1 (fun r => sf_mul (c_w r) (z r)) (fun r => fR (z r) * fR (c_w r))%R (fun r => Rabs (fR (z r)) * Rabs (fR (c_w r)))%R (fun _ => tiny) ltac:(lia)) as K.
    rewrite Rs_const in K by lia. replace (1 + Z.to_nat (n - m) - 1)%nat with (Z.to_nat (n - m)) in K by lia. apply K. intros t Ht. rewrite (Rmult_comm (fR (z t))), (Rmult_comm (Rabs (fR (z t)))). apply apx_mul; [apply Nw; auto|apply Nz; auto]. }
  assert (SA : (Rs m n (fun r => Rabs (fR (z r)) * Rabs (fR (c_w r))) <= 2 * lw)%R).
  { pose proof (vlen_dot n (fun r => Rabs (cut m c_w r)) (fun r => Rabs (zr r))) as K. rewrite !vlen_abs in K. fold lw in K. apply Rle_trans with (lw * vlen n zr)%R; [|assert (lw * vlen n zr <= lw * 2)%R by (apply Rmult_le_compat_l; lra); lra].
    eapply Rle_trans; [|eapply Rle_trans; [apply Rle_abs|exact K]]. right. unfold dot. rewrite (Rs_low 0 m n) by (try lia; intros t Ht; rewrite c_cut0 by lia; rewrite Rabs_R0; ring). apply Rs_ext. intros t Ht. rewrite c_cut, Hz by lia. ring. }
  pose proof (gw_kap n Hkap (n - m) ltac:(lia)) as G. pose proof (gw_ge1 (Z.to_nat (n - m))) as G1. pose proof c_nt as [T0 TB]. assert (TB2 : (b2 (-1032) <= b2 (-450))%R) by (apply bpow_le; lia). assert (TB3 : (IZR (n - m) * tiny <= IZR n * tiny)%R) by (apply Rmult_le_compat_r; [lra|apply IZR_le; lia]).
  set (gg := gw (Z.to_nat (n - m))) in *. assert (G2 : (gg <= 101 / 100)%R) by lra. set (tt := (IZR (n - m) * tiny)%R) in *. set (aa := Rs m n (fun r => Rabs (fR (z r)) * Rabs (fR (c_w r)))%R) in *.
  destruct AX as (Vs & As & Ts & Es & Fs'). fold gg in Es, Fs'.
  assert (HU : (b2 520 <= huge)%R). { pose proof huge_ge as HG. pose proof (bpow_le radix2 520 1023 ltac:(lia)) as HG2. pose proof (bpow_gt_0 radix2 1023) as HG3. lra. } assert (H512 : (b2 520 = 512 * b2 511)%R) by (change 520 with (9 + 511); rewrite bpow_plus; reflexivity).
  assert (PA0 : (0 <= aa)%R) by (eapply Rle_trans; [apply Rabs_pos|exact As]).
  assert (SG : isfin sg = true).
  { apply Fs'. apply Rle_trans with (101 / 100 * (aa + tt))%R; [apply Rmult_le_compat_r; lra|]. lra. }
  specialize (Es SG). assert (SB : (Rabs (fR sg) <= 6 * At)%R).
  { assert ((gg - 1) * aa <= 1 / 100 * aa)%R by (apply Rmult_le_compat_r; lra). assert (gg * tt <= 101 / 100 * tt)%R by (apply Rmult_le_compat_r; lra).
    set (ss := Rs m n (fun r => fR (z r) * fR (c_w r))%R) in *. pose proof (Rabs_triang_inv (fR sg) ss). lra. }
  (* the quotients *)
  assert (B1 : (Rabs (fR sg / fR c_D) <= 7)%R).
  { unfold Rdiv. rewrite Rabs_mult, Rabs_inv. apply (Rmult_le_reg_r (Rabs (fR c_D))); [lra|]. rewrite Rmult_assoc, Rinv_l by lra. lra. }
  assert (N1 : num (sf_div sg c_D)) by (apply div_fin; auto; [split; auto|pose proof huge_8; lra]).
  destruct (div_ok sg c_D Vs (proj1 ND) (proj2 N1) DN) as [E1 _]. set (q1 := fR (sf_div sg c_D)) in *.
  assert (T8 : (tiny <= / 1024)%R) by (rewrite tiny_b; change (/ 1024)%R with (b2 (-10)); apply bpow_le; lia). pose proof ulp2_pos as PU.
  assert (B2 : (Rabs q1 <= 8)%R). { pose proof (Rabs_triang_inv q1 (fR sg / fR c_D)). assert (ulp2 * Rabs (fR sg / fR c_D) <= / 1024 * 7)%R by (apply Rmult_le_compat; [lra|apply Rabs_pos|lra|lra]). lra. }
  assert (B3 : (Rabs (q1 / fR c_T) <= 8 / At)%R) by (unfold Rdiv; rewrite Rabs_mult, Rabs_inv; fold At; apply Rmult_le_compat_r; [left; apply Rinv_0_lt_compat; auto|exact B2]).
  assert (I7 : (8 / At <= b2 453)%R).
  { apply (Rmult_le_reg_r At); auto. unfold Rdiv. rewrite Rmult_assoc, Rinv_l, Rmult_1_r by lra. apply Rle_trans with (b2 453 * b2 (-450))%R; [rewrite <- bpow_plus; change (b2 (453 + -450)) with 8%R; lra|apply Rmult_le_compat_l; [apply bpow_ge_0|exact R1]]. }
  assert (N2 : num (sf_div (sf_div sg c_D) c_T)). { apply div_fin; auto. fold q1. pose proof (bpow_le radix2 453 520 ltac:(lia)). lra. }
  destruct (div_ok (sf_div sg c_D) c_T (proj1 N1) (proj1 NT) (proj2 N2) TN) as [E2 _]. fold q1 in E2. set (al := sf_div (sf_div sg c_D) c_T) in *.
  assert (B4 : (Rabs (fR al) <= 9 / At + tiny)%R).
  { pose proof (Rabs_triang_inv (fR al) (q1 / fR c_T)). assert (P7 : (0 < / At)%R) by (apply Rinv_0_lt_compat; auto). assert (ulp2 * Rabs (q1 / fR c_T) <= / 1024 * (8 / At))%R by (apply Rmult_le_compat; [lra|apply Rabs_pos|lra|lra]). unfold Rdiv in *. lra. }
  pose proof (WE r Hr) as Wr. assert (TA : (tiny * At <= 1)%R). { apply Rle_trans with (tiny * b2 511)%R; [apply Rmult_le_compat_l; lra|]. rewrite tiny_b, <- bpow_plus. apply (bpow_le radix2 _ 0). lia. }
  assert (B5 : (Rabs (fR al * fR (c_w r)) <= 23)%R).
  { rewrite Rabs_mult. apply Rle_trans with ((9 / At + tiny) * (22 / 10 * At))%R; [apply Rmult_le_compat; try apply Rabs_pos; lra|]. replace ((9 / At + tiny) * (22 / 10 * At))%R with (198 / 10 + 22 / 10 * (tiny * At))%R by (field; lra). lra. }
  assert (H32 : (64 <= b2 520)%R) by (apply (bpow_le radix2 6 520); lia).
  assert (N3 : num (sf_mul al (c_w r))) by (apply mul_fin; auto; lra). destruct (mul_ok al (c_w r) (proj1 N2) (proj1 (Nw r Hr)) (proj2 N3)) as [E3 _].
  assert (B6 : (Rabs (fR (sf_mul al (c_w r))) <= 24)%R). { pose proof (Rabs_triang_inv (fR (sf_mul al (c_w r))) (fR al * fR (c_w r))). assert (ulp2 * Rabs (fR al * fR (c_w r)) <= / 1024 * 23)%R by (apply Rmult_le_compat; [lra|apply Rabs_pos|lra|lra]). lra. }
  apply add_fin; auto. eapply Rle_trans; [apply Rabs_triang|]. pose proof (ZE r Hr). lra.
Qed.
End Scaled.

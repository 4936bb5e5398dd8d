(** One step of the tridiagonal transform in floating point: the symmetric rank two update, over the reals with explicit errors. *)
From Coq Require Import ZArith List Reals Lia Lra Psatz Bool Floats.SpecFloat.
From Flocq Require Import Core.
From Verif Require Import Base BaseLemmas Scalar Float64 RealOps RSum House RealVec FSum QRFacts QRReal RndSpec FloatR RndSum RndTri RndHouse RndRefl RndApply RndQR SVDSpecR RndFrob.
Open Scope Z_scope.

(** Two vectors differing by an entrywise bound. *)
Lemma vlen_tri3 n x y z t : (forall i, 0 <= i < n -> (Rabs (x i) <= y i + z i + t)%R) -> 0 <= n -> (0 <= t)%R -> (vlen n x <= vlen n y + vlen n z + IZR n * t)%R.
Proof.
  intros H Hn Ht. apply Rle_trans with (vlen n (fun i => y i + z i + t)%R); [apply vlen_le; auto|].
  eapply Rle_trans; [apply (vlen_tri n (fun i => y i + z i)%R (fun _ => t))|]. apply Rplus_le_compat; [apply vlen_tri|apply vlen_const; auto].
Qed.
(** The length of the rows times a vector. *)
Lemma rows_len n Y v : 0 <= n -> (vlen n (fun i => Rs 0 n (fun t => Rabs (Y i t) * Rabs (v t))) <= frob n n Y * vlen n v)%R.
Proof.
  intros Hn. rewrite frob_rows. rewrite Rmult_comm, <- (Rabs_pos_eq (vlen n v)) by apply vlen_pos. rewrite <- vlen_scal. apply vlen_le. intros i Hi.
  rewrite Rabs_pos_eq. 2:{ apply Rs_nonneg. intros. apply Rmult_le_pos; apply Rabs_pos. }
  rewrite Rmult_comm. apply abs_dot_le. lia.
Qed.
Lemma frob_outer n x y : frob n n (fun i j => x i * y j)%R = (vlen n x * vlen n y)%R.
Proof.
  rewrite frob_rows. rewrite (vlen_ext n _ (fun i => vlen n y * Rabs (x i))%R). 2:{ intros. rewrite vlen_scal. ring. }
  rewrite vlen_scal, vlen_abs, Rabs_pos_eq by apply vlen_pos. ring.
Qed.
Lemma frob_le n X Y : (forall i j, 0 <= i < n -> 0 <= j < n -> (Rabs (X i j) <= Y i j)%R) -> (frob n n X <= frob n n Y)%R.
Proof.
  intros H. rewrite !frob_rows. apply vlen_le. intros i Hi. rewrite Rabs_pos_eq by apply vlen_pos. apply vlen_le. intros j Hj. auto.
Qed.
Lemma frob_const n c : 0 <= n -> (0 <= c)%R -> (frob n n (fun _ _ => c) <= IZR n * c)%R.
Proof.
  intros Hn Hc. pose proof (frob_col_le n n (fun _ _ => c) (fun _ _ => 0%R) 0 (sqrt (IZR n) * c)) as K. unfold frob.
  rewrite (Rs_ext 0 n _ (fun _ => IZR n * (c * c))%R). 2:{ intros. rewrite Rs_const by lia. rewrite Z.sub_0_r. auto. }
  rewrite Rs_const by lia. rewrite Z.sub_0_r. replace (IZR n * (IZR n * (c * c)))%R with ((IZR n * c) * (IZR n * c))%R by ring.
  rewrite sqrt_square; [lra|]. apply Rmult_le_pos; auto. apply IZR_le. lia.
Qed.

Section Rank2.
Variables (m k0 : Z) (Y : Z -> Z -> R) (v z1 z2 : Z -> R) (sh : Z -> R) (be g be2 ga : R) (K u t1 ty gg : R).
Hypothesis Hm : 0 <= m.
Hypothesis HK : (0 <= K <= / 1024)%R.
Hypothesis Hu : (0 <= u)%R.
Hypothesis HuK : (5 * u <= K)%R.
Hypothesis Ht1 : (0 <= t1)%R.
Hypothesis Hty : (0 <= ty)%R.
Hypothesis Hgg : (0 <= gg <= 1002 / 1000 * (K - 4 * u))%R.
Let V := dot m v v.
Let L := vlen m v.
Let b := frob m m Y.
Let b0 := (2 / V)%R.
Let hi (i : Z) (x : R) : R := if i <? k0 then 0%R else x.
Hypothesis HV : (0 < V)%R.
Hypothesis Hv : forall i, i < k0 -> v i = 0%R.
Hypothesis Hz1l : forall i, i < k0 -> z1 i = 0%R.
Hypothesis Hz2l : forall i, i < k0 -> z2 i = 0%R.
Let s (i : Z) : R := Rs 0 m (fun t => Y i t * v t)%R.
Let ta (i : Z) : R := Rs 0 m (fun t => Rabs (Y i t) * Rabs (v t))%R.
Hypothesis Hbe : (Rabs (be - b0) <= 24 / 10 * K * b0)%R.
Hypothesis Hbe2 : (Rabs (be2 - b0 / 2) <= 29 / 10 * K * (b0 / 2))%R.
Hypothesis Hsh : forall i, k0 <= i < m -> (Rabs (sh i - s i) <= gg * ta i + t1)%R.
Hypothesis Hz1 : forall i, k0 <= i < m -> (Rabs (z1 i - be * sh i) <= u * Rabs (be * sh i) + ty)%R.
Hypothesis Hg : (Rabs (g - dot m z1 v) <= gg * (vlen m z1 * L) + t1)%R.
Hypothesis Hga : (Rabs (ga - g * be2) <= u * Rabs (g * be2) + ty)%R.
Hypothesis Hz2 : forall i, k0 <= i < m -> (Rabs (z2 i - (z1 i - ga * v i)) <= u * Rabs (z1 i) + 3 * u * (Rabs ga * Rabs (v i)) + 2 * ty)%R.
Definition r2_q (i : Z) : R := hi i (b0 * s i)%R.
Definition r2_g0 : R := (b0 / 2 * dot m r2_q v)%R.
Definition r2_w (i : Z) : R := (r2_q i - r2_g0 * v i)%R.
Notation q := r2_q. Notation g0 := r2_g0. Notation w := r2_w.

Lemma r2_L : (0 < L)%R /\ (L * L = V)%R.
Proof.
  pose proof (vlen_sq m v) as E. fold V L in E. split; auto. pose proof (vlen_pos m v) as P. fold L in P. destruct P as [P|P]; auto. rewrite <- P in E. nra.
Qed.
Lemma r2_b0 : (0 < b0)%R /\ (b0 * L * L = 2)%R /\ (b0 / 2 * V = 1)%R.
Proof.
  destruct r2_L as [H1 H2]. assert (0 < b0)%R by (unfold b0; apply Rdiv_lt_0_compat; lra). split; auto. rewrite Rmult_assoc, H2. unfold b0. split; field; lra.
Qed.
Lemma r2_ta i : 0 <= i < m -> (Rabs (s i) <= ta i)%R.
Proof. intros Hi. unfold s, ta. eapply Rle_trans; [apply Rs_abs|]. right. apply Rs_ext. intros. apply Rabs_mult. Qed.
Lemma r2_ta_len : (vlen m (fun i => hi i (ta i)) <= b * L)%R.
Proof.
  eapply Rle_trans; [|apply (rows_len m Y v Hm)]. apply vlen_le. intros i Hi. unfold hi. fold (ta i).
  assert (0 <= ta i)%R by (pose proof (r2_ta i Hi); pose proof (Rabs_pos (s i)); lra). destruct (i <? k0); [rewrite Rabs_R0|rewrite Rabs_pos_eq]; auto; lra.
Qed.
Lemma r2_qlen : (vlen m q * L <= 2 * b)%R.
Proof.
  destruct r2_b0 as (P & E & _). destruct r2_L as [PL _]. apply Rle_trans with (b0 * (b * L) * L)%R; [|right; replace (b0 * (b * L) * L)%R with (b * (b0 * L * L))%R by ring; rewrite E; ring].
  apply Rmult_le_compat_r; [lra|]. apply Rle_trans with (vlen m (fun i => b0 * hi i (ta i))%R).
  - apply vlen_le. intros i Hi. unfold r2_q, hi. destruct (i <? k0); [rewrite Rabs_R0; lra|]. rewrite Rabs_mult, (Rabs_pos_eq b0) by lra. apply Rmult_le_compat_l; [lra|]. apply r2_ta; auto.
  - rewrite vlen_scal, Rabs_pos_eq by lra. apply Rmult_le_compat_l; [lra|apply r2_ta_len].
Qed.
(** *** The product A v *)
Definition r2_d1 : R := (vlen m (fun i => z1 i - q i)%R * L)%R.
Definition r2_e1 : R := (IZR m * (202 / 100 * t1 + ty * V) / L)%R.
Lemma r2_e1_pos : (0 <= r2_e1)%R.
Proof.
  destruct r2_L as [PL EL]. unfold r2_e1. apply Rmult_le_pos; [|left; apply Rinv_0_lt_compat; auto]. apply Rmult_le_pos; [apply IZR_le; lia|]. assert (0 <= ty * V)%R by (apply Rmult_le_pos; lra). lra.
Qed.
Lemma r2_step1 : (r2_d1 <= 69 / 10 * K * b + r2_e1)%R.
Proof.
  destruct r2_b0 as (P & E & E2). destruct r2_L as [PL EL].
  assert (B1 : (0 <= be <= 1003 / 1000 * b0)%R). { apply abs_in in Hbe. assert (K * b0 <= / 1024 * b0)%R by (apply Rmult_le_compat_r; lra). lra. }
  assert (H : (vlen m (fun i => z1 i - q i)%R <= 69 / 20 * K * b0 * (b * L) + 0 + IZR m * (101 / 100 * b0 * t1 + ty))%R).
  { assert (Pc : (0 <= 69 / 20 * K * b0)%R) by (apply Rmult_le_pos; lra). assert (Pt : (0 <= b0 * t1)%R) by (apply Rmult_le_pos; lra).
    eapply Rle_trans; [apply (vlen_tri3 m _ (fun i => 69 / 20 * K * b0 * hi i (ta i))%R (fun _ => 0%R) (101 / 100 * b0 * t1 + ty)%R); auto; try lra|].
    - intros i Hi. unfold r2_q, hi. destruct (Z.ltb_spec i k0) as [Hl|Hl]; [rewrite Hz1l by auto; rewrite Rminus_0_r, Rabs_R0; lra|].
      pose proof (r2_ta i Hi) as A. pose proof (Rabs_pos (s i)) as A0. specialize (Hsh i ltac:(lia)). specialize (Hz1 i ltac:(lia)).
      set (S := Rabs (s i)) in *. set (T := ta i) in *.
      replace (z1 i - b0 * s i)%R with ((z1 i - be * sh i) + (be * (sh i - s i) + (be - b0) * s i))%R by ring.
      eapply Rle_trans; [apply Rabs_triang|]. eapply Rle_trans; [apply Rplus_le_compat_l, Rabs_triang|]. rewrite !Rabs_mult in *. fold S. rewrite (Rabs_pos_eq be) in * by lra.
      assert (Hs1 : (Rabs (sh i) <= T + gg * T + t1)%R). { replace (sh i) with ((sh i - s i) + s i)%R by ring. eapply Rle_trans; [apply Rabs_triang|]. fold S. lra. }
      assert (PT : (0 <= T)%R) by lra.
      assert (G1 : (gg * T <= 1002 / 1000 * (K * T) - 4008 / 1000 * (u * T))%R). { apply Rle_trans with (1002 / 1000 * (K - 4 * u) * T)%R; [apply Rmult_le_compat_r; lra|right; field]. }
      assert (G0 : (0 <= u * T)%R) by (apply Rmult_le_pos; lra). assert (G2 : (K * T <= / 1024 * T)%R) by (apply Rmult_le_compat_r; lra). assert (G3 : (5 * (u * T) <= K * T)%R) by (rewrite <- Rmult_assoc; apply Rmult_le_compat_r; lra).
      assert (M1 : (u * (be * Rabs (sh i)) <= u * (1003 / 1000 * b0 * (1001 / 1000 * T + t1)))%R).
      { apply Rmult_le_compat_l; auto. apply Rmult_le_compat; try lra. apply Rabs_pos. }
      assert (M2 : (be * Rabs (sh i - s i) <= 1003 / 1000 * b0 * (gg * T + t1))%R) by (apply Rmult_le_compat; try lra; apply Rabs_pos).
      assert (M3 : (Rabs (be - b0) * S <= 24 / 10 * K * b0 * T)%R) by (apply Rmult_le_compat; try lra; apply Rabs_pos).
      assert (N1 : (b0 * (gg * T) <= b0 * (1002 / 1000 * (K * T) - 4008 / 1000 * (u * T)))%R) by (apply Rmult_le_compat_l; lra).
      assert (N2 : (u * (b0 * t1) <= / 5120 * (b0 * t1))%R) by (apply Rmult_le_compat_r; lra).
      assert (N3 : (0 <= b0 * (u * T))%R) by (apply Rmult_le_pos; lra). assert (N4 : (0 <= b0 * (K * T))%R) by (apply Rmult_le_pos; [lra|apply Rmult_le_pos; lra]).
      replace (69 / 20 * K * b0 * T)%R with (69 / 20 * (b0 * (K * T)))%R by ring.
      replace (u * (1003 / 1000 * b0 * (1001 / 1000 * T + t1)))%R with (1003 / 1000 * (1001 / 1000 * (b0 * (u * T)) + u * (b0 * t1)))%R in M1 by ring.
      replace (24 / 10 * K * b0 * T)%R with (24 / 10 * (b0 * (K * T)))%R in M3 by ring.
      replace (1003 / 1000 * b0 * (gg * T + t1))%R with (1003 / 1000 * (b0 * (gg * T) + b0 * t1))%R in M2 by ring.
      replace (b0 * (1002 / 1000 * (K * T) - 4008 / 1000 * (u * T)))%R with (1002 / 1000 * (b0 * (K * T)) - 4008 / 1000 * (b0 * (u * T)))%R in N1 by ring.
      lra.
    - rewrite (vlen_zero m (fun _ => 0%R)) by auto. rewrite vlen_scal, (Rabs_pos_eq (69 / 20 * K * b0)) by lra. apply Rplus_le_compat_r. apply Rplus_le_compat_r. apply Rmult_le_compat_l; [lra|apply r2_ta_len]. }
  unfold r2_d1. apply Rle_trans with ((69 / 20 * K * b0 * (b * L) + 0 + IZR m * (101 / 100 * b0 * t1 + ty)) * L)%R; [apply Rmult_le_compat_r; lra|].
  right. unfold r2_e1. replace ((69 / 20 * K * b0 * (b * L) + 0 + IZR m * (101 / 100 * b0 * t1 + ty)) * L)%R with (69 / 20 * K * b * (b0 * L * L) + (IZR m * (101 / 100 * (b0 * L * L) * t1 + ty * (L * L))) / L)%R by (field; lra).
  rewrite E, EL. field. lra.
Qed.
Lemma r2_z1len : (vlen m z1 * L <= 2 * b + r2_d1)%R.
Proof.
  pose proof r2_qlen. unfold r2_d1. destruct r2_L as [PL _]. pose proof (vlen_diff m q z1) as A. rewrite vlen_sub in A.
  assert (vlen m z1 * L <= (vlen m q + vlen m (fun r => z1 r - q r)) * L)%R by (apply Rmult_le_compat_r; lra). lra.
Qed.
(** *** The coefficient gamma *)
Lemma r2_bpos : (0 <= b)%R. Proof. apply frob_pos. Qed.
Lemma r2_qv : (Rabs (dot m q v) <= 2 * b)%R.
Proof. eapply Rle_trans; [apply (vlen_dot m q v)|]. apply r2_qlen. Qed.
Lemma r2_g0V : (Rabs g0 * V <= 2 * b)%R.
Proof.
  destruct r2_b0 as (P & E & E2). unfold r2_g0. rewrite Rabs_mult, (Rabs_pos_eq (b0 / 2)) by lra. replace (b0 / 2 * Rabs (dot m q v) * V)%R with (Rabs (dot m q v) * (b0 / 2 * V))%R by ring.
  rewrite E2, Rmult_1_r. apply r2_qv.
Qed.
Lemma r2_step2 : (Rabs (ga - g0) * V <= 148 / 10 * K * b - 5 * (u * b) + 102 / 100 * (r2_e1 + t1) + ty * V)%R.
Proof.
  destruct r2_b0 as (P & E & E2). destruct r2_L as [PL EL]. pose proof r2_step1 as S1. pose proof r2_z1len as S2. pose proof r2_qv as S3. pose proof r2_e1_pos as Pe. pose proof r2_bpos as Pb.
  assert (Pd : (0 <= r2_d1)%R) by (unfold r2_d1; apply Rmult_le_pos; [apply vlen_pos|lra]).
  assert (B2 : (0 <= be2 <= 1003 / 1000 * (b0 / 2))%R). { apply abs_in in Hbe2. assert (K * (b0 / 2) <= / 1024 * (b0 / 2))%R by (apply Rmult_le_compat_r; lra). lra. }
  set (Q := dot m q v) in *. set (N := (vlen m z1 * L)%R) in *. assert (PN : (0 <= N)%R) by (unfold N; apply Rmult_le_pos; [apply vlen_pos|lra]).
  assert (KB : (K * b <= / 1024 * b)%R) by (apply Rmult_le_compat_r; lra). assert (UB : (5 * (u * b) <= K * b)%R) by (rewrite <- Rmult_assoc; apply Rmult_le_compat_r; lra). assert (U0 : (0 <= u * b)%R) by (apply Rmult_le_pos; lra).
  (* g against q.v *)
  assert (G : (Rabs (g - Q) <= 892 / 100 * (K * b) - 8 * (u * b) + 1002 / 1000 * r2_e1 + t1)%R).
  { replace (g - Q)%R with ((g - dot m z1 v) + dot m (fun i => z1 i - q i)%R v)%R. 2:{ unfold Q, dot. rewrite (Rs_ext 0 m (fun k => (z1 k - q k) * v k)%R (fun k => z1 k * v k - q k * v k)%R) by (intros; ring). rewrite Rs_minus. ring. }
    eapply Rle_trans; [apply Rabs_triang|]. pose proof (vlen_dot m (fun i => z1 i - q i)%R v) as A. fold L in A. fold r2_d1 in A.
    assert (gg * N <= 1002 / 1000 * (K - 4 * u) * (2 * b + 69 / 10 * K * b + r2_e1))%R by (apply Rmult_le_compat; lra).
    assert (X1 : (K * (K * b) <= / 1024 * (K * b))%R) by (apply Rmult_le_compat_r; lra). assert (X2 : (K * r2_e1 <= / 1024 * r2_e1)%R) by (apply Rmult_le_compat_r; lra).
    assert (X3 : (0 <= u * (K * b))%R) by (apply Rmult_le_pos; lra). assert (X4 : (0 <= u * r2_e1)%R) by (apply Rmult_le_pos; lra).
    replace (1002 / 1000 * (K - 4 * u) * (2 * b + 69 / 10 * K * b + r2_e1))%R with (1002 / 1000 * (2 * (K * b) + 69 / 10 * (K * (K * b)) + K * r2_e1 - 8 * (u * b) - 276 / 10 * (u * (K * b)) - 4 * (u * r2_e1)))%R in H by field.
    lra. }
  set (G0 := Rabs (g - Q)) in *.
  assert (Hgb : (Rabs g <= 2 * b + G0)%R). { replace g with (Q + (g - Q))%R by ring. eapply Rle_trans; [apply Rabs_triang|]. fold G0. lra. }
  assert (PG : (0 <= G0)%R) by apply Rabs_pos. pose proof (Rabs_pos g) as Pg.
  assert (H : (Rabs (ga - g0) <= u * (1003 / 1000 * (b0 / 2) * (2 * b + G0)) + ty + 1003 / 1000 * (b0 / 2) * G0 + 29 / 10 * K * (b0 / 2) * (2 * b))%R).
  { unfold r2_g0. fold Q. replace (ga - b0 / 2 * Q)%R with ((ga - g * be2) + (be2 * (g - Q) + (be2 - b0 / 2) * Q))%R by ring.
    eapply Rle_trans; [apply Rabs_triang|]. eapply Rle_trans; [apply Rplus_le_compat_l, Rabs_triang|]. rewrite !Rabs_mult in *. fold G0. rewrite (Rabs_pos_eq be2) in * by lra.
    assert (Rabs g * be2 <= 1003 / 1000 * (b0 / 2) * (2 * b + G0))%R by (rewrite Rmult_comm; apply Rmult_le_compat; lra).
    assert (u * (Rabs g * be2) <= u * (1003 / 1000 * (b0 / 2) * (2 * b + G0)))%R by (apply Rmult_le_compat_l; lra).
    assert (be2 * G0 <= 1003 / 1000 * (b0 / 2) * G0)%R by (apply Rmult_le_compat_r; lra).
    assert (Rabs (be2 - b0 / 2) * Rabs Q <= 29 / 10 * K * (b0 / 2) * (2 * b))%R by (apply Rmult_le_compat; try lra; apply Rabs_pos). lra. }
  apply Rle_trans with ((u * (1003 / 1000 * (b0 / 2) * (2 * b + G0)) + ty + 1003 / 1000 * (b0 / 2) * G0 + 29 / 10 * K * (b0 / 2) * (2 * b)) * V)%R; [apply Rmult_le_compat_r; lra|].
  replace ((u * (1003 / 1000 * (b0 / 2) * (2 * b + G0)) + ty + 1003 / 1000 * (b0 / 2) * G0 + 29 / 10 * K * (b0 / 2) * (2 * b)) * V)%R
    with (1003 / 1000 * (b0 / 2 * V) * (2 * (u * b) + u * G0) + ty * V + 1003 / 1000 * (b0 / 2 * V) * G0 + 58 / 10 * (K * b) * (b0 / 2 * V))%R by field.
  rewrite E2. assert (u * G0 <= / 5120 * G0)%R by (apply Rmult_le_compat_r; lra). lra.
Qed.
(** *** The second vector *)
Definition r2_d2 : R := (vlen m (fun i => z2 i - w i)%R * L)%R.
Definition r2_e2 : R := (21 / 10 * (r2_e1 + t1 + ty * V + IZR m * ty * L))%R.
Lemma r2_e2_pos : (0 <= r2_e2)%R.
Proof.
  pose proof r2_e1_pos. destruct r2_L as [PL EL]. unfold r2_e2. assert (0 <= IZR m * ty * L)%R by (apply Rmult_le_pos; [apply Rmult_le_pos; auto; apply IZR_le; lia|lra]). assert (0 <= ty * V)%R by (apply Rmult_le_pos; lra). lra.
Qed.
Lemma r2_step3 : (r2_d2 <= 224 / 10 * K * b + r2_e2)%R.
Proof.
  destruct r2_b0 as (P & E & E2). destruct r2_L as [PL EL]. pose proof r2_step1 as S1. pose proof r2_z1len as S2. pose proof r2_step2 as S3. pose proof r2_e1_pos as Pe. pose proof r2_bpos as Pb. pose proof r2_g0V as S4.
  assert (Pd : (0 <= r2_d1)%R) by (unfold r2_d1; apply Rmult_le_pos; [apply vlen_pos|lra]). set (D := (Rabs (ga - g0) * V)%R) in *.
  assert (HgaV : (Rabs ga * V <= 2 * b + D)%R). { unfold D. replace ga with (g0 + (ga - g0))%R at 1 by ring. apply Rle_trans with ((Rabs g0 + Rabs (ga - g0)) * V)%R; [apply Rmult_le_compat_r; [lra|apply Rabs_triang]|lra]. }
  assert (H : (vlen m (fun i => z2 i - w i) <= vlen m (fun i => z1 i - q i) + Rabs (ga - g0) * L + (u * vlen m z1 + 3 * u * Rabs ga * L) + IZR m * (2 * ty))%R).
  { apply Rle_trans with (vlen m (fun i => (Rabs (z1 i - q i) + Rabs (ga - g0) * Rabs (v i)) + (u * Rabs (z1 i) + 3 * u * Rabs ga * Rabs (v i)) + 2 * ty)%R).
    - apply vlen_le. intros i Hi. unfold r2_w. destruct (Z_lt_ge_dec i k0) as [Hl|Hl].
      + unfold r2_q, hi. rewrite (proj2 (Z.ltb_lt _ _)) by auto. rewrite Hz2l, Hz1l, Hv by auto. replace (0 - (0 - g0 * 0))%R with 0%R by ring. rewrite Rminus_0_r, Rabs_R0. lra.
      + replace (z2 i - (q i - g0 * v i))%R with ((z2 i - (z1 i - ga * v i)) + ((z1 i - q i) + - ((ga - g0) * v i)))%R by ring.
        eapply Rle_trans; [apply Rabs_triang|]. eapply Rle_trans; [apply Rplus_le_compat_l, Rabs_triang|]. rewrite Rabs_Ropp, Rabs_mult. specialize (Hz2 i ltac:(lia)). lra.
    - eapply Rle_trans; [apply vlen_tri3 with (y := fun i => (Rabs (z1 i - q i) + Rabs (ga - g0) * Rabs (v i))%R) (z := fun i => (u * Rabs (z1 i) + 3 * u * Rabs ga * Rabs (v i))%R) (t := (2 * ty)%R); auto; [|lra]|].
      + intros i Hi. rewrite Rabs_pos_eq; [lra|]. pose proof (Rabs_pos (z1 i - q i)). assert (0 <= Rabs (ga - g0) * Rabs (v i))%R by (apply Rmult_le_pos; apply Rabs_pos). assert (0 <= u * Rabs (z1 i))%R by (apply Rmult_le_pos; auto; apply Rabs_pos).
        assert (0 <= 3 * u * Rabs ga * Rabs (v i))%R by (apply Rmult_le_pos; [apply Rmult_le_pos; [lra|apply Rabs_pos]|apply Rabs_pos]). lra.
      + apply Rplus_le_compat_r. apply Rplus_le_compat; (eapply Rle_trans; [apply vlen_tri|]); rewrite ?vlen_scal, !vlen_abs.
        * rewrite Rabs_Rabsolu. fold L. lra.
        * rewrite (Rabs_pos_eq u), (Rabs_pos_eq (3 * u * Rabs ga)) by first [exact Hu | apply Rmult_le_pos; [lra|apply Rabs_pos]]. fold L. lra. }
  unfold r2_d2. eapply Rle_trans; [apply Rmult_le_compat_r; [left; exact PL|exact H]|].
  replace ((vlen m (fun i => z1 i - q i) + Rabs (ga - g0) * L + (u * vlen m z1 + 3 * u * Rabs ga * L) + IZR m * (2 * ty)) * L)%R
    with (r2_d1 + Rabs (ga - g0) * (L * L) + u * (vlen m z1 * L) + 3 * u * (Rabs ga * (L * L)) + 2 * (IZR m * ty * L))%R by (unfold r2_d1; ring).
  rewrite EL. fold D.
  assert (KB : (K * b <= / 1024 * b)%R) by (apply Rmult_le_compat_r; lra). assert (UB : (5 * (u * b) <= K * b)%R) by (rewrite <- Rmult_assoc; apply Rmult_le_compat_r; lra). assert (U0 : (0 <= u * b)%R) by (apply Rmult_le_pos; lra).
  assert (PD : (0 <= D)%R) by (unfold D; apply Rmult_le_pos; [apply Rabs_pos|lra]).
  assert (M1 : (u * (vlen m z1 * L) <= u * (2 * b + (69 / 10 * K * b + r2_e1)))%R) by (apply Rmult_le_compat_l; lra).
  assert (M2 : (u * (Rabs ga * V) <= u * (2 * b + D))%R) by (apply Rmult_le_compat_l; lra).
  assert (M3 : (u * D <= / 5120 * D)%R) by (apply Rmult_le_compat_r; lra).
  assert (M4 : (u * (K * b) <= / 5120 * (K * b))%R) by (apply Rmult_le_compat_r; [lra|lra]). assert (M5 : (u * r2_e1 <= / 5120 * r2_e1)%R) by (apply Rmult_le_compat_r; lra).
  assert (0 <= IZR m * ty * L)%R by (apply Rmult_le_pos; [apply Rmult_le_pos; auto; apply IZR_le; lia|lra]). assert (0 <= ty * V)%R by (apply Rmult_le_pos; lra).
  unfold r2_e2. lra.
Qed.
Lemma r2_wlen : (vlen m w * L <= 4 * b)%R.
Proof.
  destruct r2_L as [PL EL]. pose proof r2_qlen. pose proof r2_g0V. unfold r2_w.
  assert (vlen m (fun i => q i - g0 * v i) <= vlen m q + Rabs g0 * L)%R.
  { eapply Rle_trans; [right; apply (vlen_ext m _ (fun i => q i + (- g0) * v i)%R); intros; ring|]. eapply Rle_trans; [apply vlen_tri|]. rewrite vlen_scal, Rabs_Ropp. fold L. lra. }
  apply Rle_trans with ((vlen m q + Rabs g0 * L) * L)%R; [apply Rmult_le_compat_r; lra|]. rewrite Rmult_plus_distr_r, Rmult_assoc, EL. lra.
Qed.
(** *** The update *)
Variable Yh : Z -> Z -> R.
Hypothesis HYh : forall i j, k0 <= i < m -> k0 <= j < m ->
  (Rabs (Yh i j - (Y i j - (v i * z2 j + z2 i * v j))) <= u * Rabs (Y i j) + 4 * u * (Rabs (v i) * Rabs (z2 j) + Rabs (z2 i) * Rabs (v j)) + 3 * ty)%R.
Lemma r2_update : (frob m m (fun i j => if (k0 <=? i) && (k0 <=? j) then Yh i j - (Y i j - (v i * w j + w i * v j)) else 0)%R <= 516 / 10 * K * b + 21 / 10 * r2_e2 + 3 * (IZR m * ty))%R.
Proof.
  destruct r2_L as [PL EL]. pose proof r2_step3 as S3. pose proof r2_wlen as S4. pose proof r2_bpos as Pb. pose proof r2_e2_pos as Pe.
  set (d := fun i => (z2 i - w i)%R).
  set (B := fun i j => ((u * Rabs (Y i j) + (Rabs (v i) * Rabs (d j) + Rabs (d i) * Rabs (v j))) + (4 * u * (Rabs (v i) * Rabs (z2 j)) + 4 * u * (Rabs (z2 i) * Rabs (v j))) + 3 * ty)%R).
  assert (PB : forall i j, (0 <= B i j)%R).
  { intros i j. unfold B. pose proof (Rabs_pos (Y i j)). pose proof (Rabs_pos (v i)). pose proof (Rabs_pos (v j)). pose proof (Rabs_pos (z2 i)). pose proof (Rabs_pos (z2 j)). pose proof (Rabs_pos (d i)). pose proof (Rabs_pos (d j)).
    repeat first [apply Rplus_le_le_0_compat | apply Rmult_le_pos | lra | auto]. }
  apply Rle_trans with (frob m m B).
  { apply frob_le. intros i j Hi Hj. destruct (Z.leb_spec k0 i) as [L1|L1]; cbn [andb]; [|rewrite Rabs_R0; auto]. destruct (Z.leb_spec k0 j) as [L2|L2]; [|rewrite Rabs_R0; auto].
    replace (Yh i j - (Y i j - (v i * w j + w i * v j)))%R with ((Yh i j - (Y i j - (v i * z2 j + z2 i * v j))) + - (v i * d j + d i * v j))%R by (unfold d; ring).
    eapply Rle_trans; [apply Rabs_triang|]. rewrite Rabs_Ropp. pose proof (Rabs_triang (v i * d j) (d i * v j)) as T. rewrite !Rabs_mult in T. specialize (HYh i j ltac:(lia) ltac:(lia)). unfold B. lra. }
  unfold B. eapply Rle_trans; [apply (frob_add m m (fun i j => (u * Rabs (Y i j) + (Rabs (v i) * Rabs (d j) + Rabs (d i) * Rabs (v j))) + (4 * u * (Rabs (v i) * Rabs (z2 j)) + 4 * u * (Rabs (z2 i) * Rabs (v j))))%R (fun _ _ => (3 * ty)%R))|].
  pose proof (frob_const m (3 * ty) Hm ltac:(lra)) as C.
  assert (F1 : (frob m m (fun i j => u * Rabs (Y i j)) <= u * b)%R).
  { pose proof (frob_col_le m m (fun i j => u * Rabs (Y i j))%R Y u 0 Hm Hu ltac:(lra)) as A. fold b in A. rewrite Rmult_0_r, Rplus_0_r in A. apply A. intros j Hj. rewrite vlen_scal, vlen_abs, Rabs_pos_eq by auto. lra. }
  assert (OA : forall x y, frob m m (fun i j => Rabs (x i) * Rabs (y j))%R = (vlen m x * vlen m y)%R) by (intros; rewrite (frob_outer m (fun i => Rabs (x i)) (fun j => Rabs (y j))), !vlen_abs; auto).
  assert (OB : forall x y, frob m m (fun i j => 4 * u * (Rabs (x i) * Rabs (y j)))%R = (4 * u * (vlen m x * vlen m y))%R).
  { intros x y. rewrite (frob_eq m m _ (fun i j => (4 * u * Rabs (x i)) * Rabs (y j))%R) by (intros; ring). rewrite (frob_outer m (fun i => 4 * u * Rabs (x i))%R (fun j => Rabs (y j))), vlen_scal, !vlen_abs, Rabs_pos_eq by lra. ring. }
  assert (F2 : (frob m m (fun i j => (u * Rabs (Y i j) + (Rabs (v i) * Rabs (d j) + Rabs (d i) * Rabs (v j))) + (4 * u * (Rabs (v i) * Rabs (z2 j)) + 4 * u * (Rabs (z2 i) * Rabs (v j))))%R
    <= (u * b + (L * vlen m d + vlen m d * L)) + (4 * u * (L * vlen m z2) + 4 * u * (vlen m z2 * L)))%R).
  { eapply Rle_trans; [apply (frob_add m m (fun i j => u * Rabs (Y i j) + (Rabs (v i) * Rabs (d j) + Rabs (d i) * Rabs (v j)))%R (fun i j => 4 * u * (Rabs (v i) * Rabs (z2 j)) + 4 * u * (Rabs (z2 i) * Rabs (v j)))%R)|].
    apply Rplus_le_compat.
    - eapply Rle_trans; [apply frob_add|]. apply Rplus_le_compat; auto. eapply Rle_trans; [apply frob_add|]. rewrite !OA. fold L. lra.
    - eapply Rle_trans; [apply frob_add|]. rewrite !OB. fold L. lra. }
  fold r2_d2 in *. assert (ED : (vlen m d * L = r2_d2)%R) by reflexivity.
  assert (Z2 : (vlen m z2 * L <= 4 * b + r2_d2)%R).
  { pose proof (vlen_diff m w z2) as A. rewrite vlen_sub in A. assert (vlen m z2 * L <= (vlen m w + vlen m d) * L)%R by (apply Rmult_le_compat_r; [lra|exact A]). lra. }
  assert (UB : (5 * (u * b) <= K * b)%R) by (rewrite <- Rmult_assoc; apply Rmult_le_compat_r; lra). assert (U0 : (0 <= u * b)%R) by (apply Rmult_le_pos; lra).
  assert (M1 : (u * (vlen m z2 * L) <= u * (4 * b + (224 / 10 * K * b + r2_e2)))%R) by (apply Rmult_le_compat_l; lra).
  assert (M4 : (u * (K * b) <= / 5120 * (K * b))%R) by (apply Rmult_le_compat_r; [apply Rmult_le_pos; lra|lra]). assert (M5 : (u * r2_e2 <= / 5120 * r2_e2)%R) by (apply Rmult_le_compat_r; lra).
  replace (L * vlen m d)%R with r2_d2 in F2 by (rewrite <- ED; ring). rewrite ED in F2. replace (L * vlen m z2)%R with (vlen m z2 * L)%R in F2 by ring. lra.
Qed.
End Rank2.

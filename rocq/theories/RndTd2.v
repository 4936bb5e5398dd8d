(** One step of the tridiagonal transform in float64. *)
From Coq Require Import ZArith List Reals Lia Lra Psatz Bool Floats.SpecFloat QArith FunctionalExtensionality.
From Flocq Require Import Core BinarySingleNaN.
From Verif Require Import Base BaseLemmas Scalar Float64 VecSpec RealOps RSum House RealVec TabTac FSum CholFacts QRSpec QRFacts QRReal RndSpec FloatR RndSum RndTri RndHouse RndRefl RndApply RndQRSpec RndQR SVDSpecR RndFrob TridiagFacts BidiagFacts RndBidiag RndTd.
Open Scope Z_scope.

Lemma two_num : num (sf_lit (2#1)) /\ fR (sf_lit (2#1)) = 2%R.
Proof. split; [split; vm_compute; reflexivity|]. replace (sf_lit (2#1)) with (S754_finite false 4503599627370496 (-51)) by (vm_compute; reflexivity). unfold fR. cbv iota. rewrite pz. change (-51) with (-(51)). rewrite bpow_opp. apply (Rmult_eq_reg_r (b2 51)); [|pose proof (bpow_gt_0 radix2 51); lra].
  rewrite Rmult_assoc, Rinv_l by (pose proof (bpow_gt_0 radix2 51); lra). rewrite Rmult_1_r. change (b2 51) with (IZR (2 ^ 51)). rewrite <- mult_IZR. apply f_equal. reflexivity. Qed.
(** The entry of the update. *)
Lemma upd_err (x a b c d : sf) : sf_valid x = true -> sf_valid a = true -> sf_valid b = true -> sf_valid c = true -> sf_valid d = true ->
  isfin (sf_sub x (sf_add (sf_mul a b) (sf_mul c d))) = true ->
  (Rabs (fR (sf_sub x (sf_add (sf_mul a b) (sf_mul c d))) - (fR x - (fR a * fR b + fR c * fR d))) <= ulp2 * Rabs (fR x) + 4 * ulp2 * (Rabs (fR a) * Rabs (fR b) + Rabs (fR c) * Rabs (fR d)) + 3 * tiny)%R.
Proof.
  intros Vx Va Vb Vc Vd H. pose proof (mul_valid _ _ Va Vb) as Vp. pose proof (mul_valid _ _ Vc Vd) as Vq. pose proof (add_valid _ _ Vp Vq) as Vs.
  destruct (sf_sub_fin _ _ H) as [Fx Fs]. destruct (sf_add_fin _ _ Fs) as [Fp Fq].
  destruct (mul_ok a b Va Vb Fp) as [Kp _]. destruct (mul_ok c d Vc Vd Fq) as [Kq _]. destruct (add_ok _ _ Vp Vq Fs) as [Ks _]. destruct (sub_ok _ _ Vx Vs H) as [Kr _].
  rewrite <- !Rabs_mult. set (p := (fR a * fR b)%R) in *. set (q := (fR c * fR d)%R) in *. set (P := fR (sf_mul a b)) in *. set (Q := fR (sf_mul c d)) in *.
  set (S := fR (sf_add (sf_mul a b) (sf_mul c d))) in *. set (r := fR (sf_sub x (sf_add (sf_mul a b) (sf_mul c d)))) in *. clearbody r S P Q p q. clear H Fs Fp Fq Vp Vq Vs. set (X := fR x) in *. clearbody X.
  pose proof ulp2_1024 as U. pose proof ulp2_small. pose proof tiny_pos as Pt. pose proof (Rabs_pos p) as Pp. pose proof (Rabs_pos q) as Pq. pose proof (Rabs_pos X) as PX.
  assert (A1 : (Rabs P <= Rabs p + (ulp2 * Rabs p + tiny))%R). { replace P with (p + (P - p))%R by ring. eapply Rle_trans; [apply Rabs_triang|]. lra. }
  assert (A2 : (Rabs Q <= Rabs q + (ulp2 * Rabs q + tiny))%R). { replace Q with (q + (Q - q))%R by ring. eapply Rle_trans; [apply Rabs_triang|]. lra. }
  assert (UP : (ulp2 * Rabs p <= / 1024 * Rabs p)%R) by (apply Rmult_le_compat_r; lra). assert (UQ : (ulp2 * Rabs q <= / 1024 * Rabs q)%R) by (apply Rmult_le_compat_r; lra).
  assert (A3 : (Rabs (S - (P + Q)) <= ulp2 * (1025 / 1024 * (Rabs p + Rabs q) + 2 * tiny))%R).
  { eapply Rle_trans; [exact Ks|]. apply Rmult_le_compat_l; [lra|]. eapply Rle_trans; [apply Rabs_triang|]. lra. }
  assert (A4 : (Rabs (S - (p + q)) <= ulp2 * (1025 / 1024 * (Rabs p + Rabs q) + 2 * tiny) + (ulp2 * Rabs p + tiny) + (ulp2 * Rabs q + tiny))%R).
  { replace (S - (p + q))%R with ((S - (P + Q)) + ((P - p) + (Q - q)))%R by ring. eapply Rle_trans; [apply Rabs_triang|]. pose proof (Rabs_triang (P - p) (Q - q)). lra. }
  assert (Ut : (ulp2 * tiny <= / 1024 * tiny)%R) by (apply Rmult_le_compat_r; lra). assert (Up0 : (0 <= ulp2 * Rabs p)%R) by (apply Rmult_le_pos; lra). assert (Uq0 : (0 <= ulp2 * Rabs q)%R) by (apply Rmult_le_pos; lra).
  assert (A5 : (Rabs S <= 101 / 100 * (Rabs p + Rabs q) + 3 * tiny)%R).
  { replace S with ((S - (p + q)) + (p + q))%R by ring. eapply Rle_trans; [apply Rabs_triang|]. pose proof (Rabs_triang p q). lra. }
  assert (A6 : (Rabs (r - (X - S)) <= ulp2 * (Rabs X + (101 / 100 * (Rabs p + Rabs q) + 3 * tiny)))%R).
  { eapply Rle_trans; [exact Kr|]. apply Rmult_le_compat_l; [lra|]. unfold Rminus. eapply Rle_trans; [apply Rabs_triang|]. rewrite Rabs_Ropp. lra. }
  replace (r - (X - (p + q)))%R with ((r - (X - S)) + - (S - (p + q)))%R by ring. eapply Rle_trans; [apply Rabs_triang|]. rewrite Rabs_Ropp. lra.
Qed.
Lemma frob_row0 n k y : 0 <= k < n -> frob n n (fun i j => if i =? k then y j else 0)%R = vlen n y.
Proof.
  intros Hk. rewrite (frob_eq n n _ (fun i j => (if i =? k then 1 else 0) * y j)%R) by (intros; destruct (i =? k); ring). rewrite (frob_outer n (fun i => if i =? k then 1 else 0)%R y).
  replace (vlen n (fun i => if i =? k then 1 else 0)%R) with 1%R; [ring|]. unfold vlen, dot. rewrite (Rs_ext 0 n _ (fun i => if i =? k then 1 else 0)%R) by (intros; destruct (_ =? _); ring).
  rewrite (Rs_pick 0 n k) by (auto; intros i Hi Hn; rewrite (proj2 (Z.eqb_neq i k)) by auto; auto). rewrite Z.eqb_refl, sqrt_1. auto.
Qed.

(** A chain step on both sides at once. *)
Lemma near_both eta om m Y0 s L R Y P Y' : (0 <= eta)%R -> (0 <= om)%R -> 0 <= s -> near eta om m m Y0 s L R Y -> orthogonal m P -> (forall i j, P i j = P j i) ->
  (frob m m (fun i j => Y' i j - mmul m (mmul m P Y) P i j) <= eta * frob m m Y + om)%R -> near eta om m m Y0 (s + 1) (mmul m L P) (mmul m R P) Y'.
Proof.
  intros He Ho Hs (OL & OR & H) OP SP HY. assert (N1 : near eta om m m Y0 s L (mmul m R P) (mmul m Y P)).
  { split; auto. split; [apply orth_mmul; auto|]. eapply Rle_trans; [|exact H]. right. apply frob_eq. intros i j Hi Hj. f_equal.
    assert (AS : forall A B C, mmul m (mmul m A B) C = mmul m A (mmul m B C)) by (intros; do 2 (apply functional_extensionality; intros); apply mmul_assoc).
    assert (ET : trm (mmul m R P) = mmul m P (trm R)).
    { do 2 (apply functional_extensionality; intros). rewrite trm_mmul. apply Rs_ext. intros. unfold trm. rewrite SP. auto. }
    rewrite ET. replace (mmul m (mmul m L (mmul m Y P)) (mmul m P (trm R))) with (mmul m (mmul m (mmul m L Y) (mmul m P P)) (trm R)) by (rewrite !AS; reflexivity). apply mmul_ext; auto. intros r Hr. rewrite (mmul_ext m _ (mmul m L Y) (mmul m P P) idm) by (auto; intros; apply sym_P; auto). apply mmul_1_r. auto. }
  apply (near_left eta om He Ho m m Y0 s L (mmul m R P) (mmul m Y P) P Y' Hs N1 OP SP).
  replace (frob m m (mmul m Y P)) with (frob m m Y).
  - eapply Rle_trans; [|exact HY]. right. apply frob_eq. intros. f_equal. symmetry. apply mmul_assoc.
  - rewrite <- (frob_orth_r m m P Y OP). apply frob_eq. intros i j Hi Hj. apply Rs_ext. intros. unfold trm. rewrite (SP j). auto.
Qed.

(** The rounding theorems on the rank-revealing QR decomposition. *)
From Coq Require Import ZArith List Reals Lia Lra Psatz Bool Floats.SpecFloat.
From Flocq Require Import Core IEEE754.BinarySingleNaN.
From Verif Require Import Base BaseLemmas Scalar Vector VecSpec Matrix MatSpec Array2D BlockM Diagonal RealMatrixM MatFacts MatrixOps BlockMul Float64 RealOps RSum RealMat House RealVec TabTac FSum LUSpec QR QRSpec QRFacts QRFacts2 QRFacts3 QRProps QRReal QRProps2 RRPerm RndSpec FloatR RndSum RndTri RndHouse RndRefl RndApply RndQRSpec RndQR RndQR2.
Open Scope Z_scope.

(** ** A relation kept by additions is kept by the library's sums *)
Section Rel.
Variables (c : Z) (Rel : R -> sf -> Prop).
Hypothesis R0 : Rel 0 sf_zero.
Hypothesis Rp : forall a b x y, Rel a x -> Rel b y -> Rel (a + b)%R (sf_add x y).
Notation SO := (SFOps c).
Lemma accum_rel (s : Z -> R) (g : Z -> sf) n z zs : Rel zs z -> (forall k, 0 <= k < Z.of_nat n -> Rel (s k) (g k)) ->
  Rel (accum (fun k x => (x + s k)%R) n zs) (accum (fun k x => sf_add x (g k)) n z).
Proof. intros Hz. induction n as [|n IH]; intros H; cbn [accum]; auto. apply Rp; [apply IH; intros; apply H; lia|apply H; lia]. Qed.
Lemma fsum_rel n (s : Z -> R) (g : Z -> sf) : 0 <= n -> (forall k, 0 <= k < n -> Rel (s k) (g k)) -> Rel (fsum (O := ROps) n s) (fsum (O := SO) n g).
Proof. intros Hn H. apply accum_rel; auto. intros. apply H. lia. Qed.
Lemma sum4_rel n (s : Z -> R) (g : Z -> sf) : 0 <= n -> (forall k, 0 <= k < n -> Rel (s k) (g k)) -> Rel (sum4 (O := ROps) n s) (sum4 (O := SO) n g).
Proof.
  intros Hn H. unfold sum4. pose proof (Z.div_mod n 4 ltac:(lia)). pose proof (Z.mod_pos_bound n 4 ltac:(lia)).
  apply (accum_rel (fun k => s (n / 4 * 4 + k)) (fun k => g (n / 4 * 4 + k))); [|intros; apply H; lia].
  apply (accum_rel (fun k => quad (O := ROps) s (4 * k)) (fun k => quad (O := SO) g (4 * k))); auto.
  intros k Hk. unfold quad. repeat apply Rp; apply H; lia.
Qed.
Lemma bsum_rel (sum : forall O : Ops, Z -> (Z -> @F O) -> @F O) n (s : Z -> R) (g : Z -> sf) : 1 <= n ->
  (forall w (s : Z -> R) (g : Z -> sf), 0 <= w -> (forall k, 0 <= k < w -> Rel (s k) (g k)) -> Rel (sum ROps w s) (sum SO w g)) ->
  (forall k, 0 <= k < n -> Rel (s k) (g k)) -> Rel (bsum (O := ROps) (sum ROps) n s) (bsum (O := SO) (sum SO) n g).
Proof.
  intros Hn HS H. unfold bsum.
  assert (Hb : 1 <= nblk n /\ (nblk n - 1) * 52 < n <= nblk n * 52).
  { unfold nblk. pose proof (Z.div_mod (n + 51) 52 ltac:(lia)). pose proof (Z.mod_pos_bound (n + 51) 52 ltac:(lia)). lia. }
  apply (accum_rel (fun K => sum ROps (bw n K) (fun k => s (K * 52 + k))) (fun K => sum SO (bw n K) (fun k => g (K * 52 + k)))); auto.
  intros K HK. assert (0 <= bw n K <= Z.min 52 n) by (unfold bw; nia). apply HS; [lia|]. intros k Hk. apply H. unfold bw in *. nia.
Qed.
Lemma sums_rel n (s : Z -> R) (g : Z -> sf) : 1 <= n -> (forall k, 0 <= k < n -> Rel (s k) (g k)) ->
  Rel (Rs 0 n s) (fsum (O := SO) n g) /\ Rel (Rs 0 n s) (bsum (O := SO) fsum n g) /\ Rel (Rs 0 n s) (bsum (O := SO) sum4 n g).
Proof.
  intros Hn H. split; [|split].
  - rewrite <- fsum_Rs. apply fsum_rel; auto. lia.
  - rewrite <- bsumf_Rs by auto. apply (bsum_rel (@fsum)); auto. intros. apply fsum_rel; auto.
  - rewrite <- bsum4_Rs by auto. apply (bsum_rel (@sum4)); auto. intros. apply sum4_rel; auto.
Qed.
End Rel.

(** ** A permutation matrix moves numbers exactly *)
Lemma one_mul x : num x -> num (sf_mul (sf_of_Z 1) x) /\ fR (sf_mul (sf_of_Z 1) x) = fR x.
Proof.
  intros [V N]. pose proof (mul_valid _ _ (proj1 num_one) V) as HV. pose proof fR_one as E1. pose proof num_one as [V1 N1]. set (o := sf_of_Z 1) in *. clearbody o.
  destruct (to_bf x V) as (b & <-). destruct (to_bf o V1) as (b1 & <-). rewrite of_bf_fin in *. rewrite mul_eq in *. rewrite !of_bf_R in *.
  pose proof (Bmult_correct 53 1024 Hprec Hmax mode_NE b1 b) as K. rewrite E1, Rmult_1_l in K. change (SpecFloat.fexp 53 1024) with (fexp 53 1024) in K.
  replace (round radix2 (fexp 53 1024) (round_mode mode_NE) (B2R b)) with (B2R b) in K.
  2:{ symmetry. apply round_generic; [apply valid_rnd_N|]. apply generic_format_B2R. }
  rewrite Rlt_bool_true in K by apply abs_B2R_lt_emax. destruct K as (K1 & K2 & _). split; [split; auto|auto]. rewrite of_bf_fin, K2, N, N1. reflexivity.
Qed.
Lemma num_zero x : num x -> fR x = 0%R -> exists s, x = S754_zero s. Proof. apply fzero_zero. Qed.
Lemma zero_mul x : num x -> num (sf_mul sf_zero x) /\ fR (sf_mul sf_zero x) = 0%R.
Proof. intros [V N]. destruct x as [s|s| |s m e]; try discriminate; split; try split; reflexivity. Qed.
Definition pickR (X : R) (a : R) (y : sf) : Prop := (a = 0 /\ num y /\ fR y = 0)%R \/ (a = 1 /\ num y /\ fR y = X)%R \/ (2 <= a)%R.
Lemma add_zero_l s y : num y -> num (sf_add (S754_zero s) y) /\ fR (sf_add (S754_zero s) y) = fR y.
Proof. intros [V N]. split; [split; [apply add_valid; auto|]|]; destruct y as [[]|[]| |t m e]; try discriminate; destruct s; reflexivity. Qed.
Lemma add_zero_r s y : num y -> num (sf_add y (S754_zero s)) /\ fR (sf_add y (S754_zero s)) = fR y.
Proof. intros [V N]. split; [split; [apply add_valid; auto|]|]; destruct y as [[]|[]| |t m e]; try discriminate; destruct s; reflexivity. Qed.
Lemma pick_add X a b x y : pickR X a x -> pickR X b y -> pickR X (a + b)%R (sf_add x y).
Proof.
  intros [(-> & Nx & Ex)|[(-> & Nx & Ex)|Ha]] [(-> & Ny & Ey)|[(-> & Ny & Ey)|Hb]]; try (right; right; lra).
  - left. destruct (num_zero x Nx Ex) as (s & ->). destruct (add_zero_l s y Ny) as [H1 H2]. rewrite H2. split; [lra|auto].
  - right; left. destruct (num_zero x Nx Ex) as (s & ->). destruct (add_zero_l s y Ny) as [H1 H2]. rewrite H2. split; [lra|auto].
  - right; left. destruct (num_zero y Ny Ey) as (s & ->). destruct (add_zero_r s x Nx) as [H1 H2]. rewrite H2. split; [lra|auto].
Qed.
Definition finR (a : R) (y : sf) : Prop := (0 <= a)%R /\ (isfin y = true -> a = 0%R).
Lemma fin_add a b x y : finR a x -> finR b y -> finR (a + b)%R (sf_add x y).
Proof. intros [H1 H2] [H3 H4]. split; [lra|]. intros F. destruct (sf_add_fin _ _ F) as [Fx Fy]. rewrite H2, H4 by auto. lra. Qed.
Section Perm.
Variables (c n : Z) (q : Z -> Z).
Hypothesis Hn : 1 <= n.
Hypothesis Hq : permutes n q.
Notation SO := (SFOps c).
Definition moved (sum : Z -> (Z -> sf) -> sf) (x : Z -> sf) (i : Z) : sf := sum n (fun k => sf_mul (tabPt (O := SO) q i k) (x k)).
Lemma moved_ok sum x : sum = fsum (O := SO) \/ sum = bsum (O := SO) (fsum (O := SO)) \/ sum = bsum (O := SO) (sum4 (O := SO)) ->
  (forall k, 0 <= k < n -> sf_valid (x k) = true) -> (exists i, 0 <= i < n /\ isfin (moved sum x i) = true) ->
  nums n x /\ forall j, 0 <= j < n -> num (moved sum x (q j)) /\ fR (moved sum x (q j)) = fR (x j).
Proof.
  intros Hs V (i & Hi & F). pose proof Hq as (P1 & P2 & P3).
  assert (Nx : nums n x).
  { set (s k := if isfin (sf_mul (tabPt (O := SO) q i k) (x k)) then 0%R else 1%R).
    destruct (sums_rel c finR ltac:(split; [lra|auto]) fin_add n s (fun k => sf_mul (tabPt (O := SO) q i k) (x k)) Hn) as (S1 & S2 & S3).
    { intros k Hk. unfold s, finR. cbn beta. destruct (isfin (sf_mul _ _)); split; [lra|auto|lra|intros H; discriminate H]. }
    assert (E : Rs 0 n s = 0%R) by (unfold moved in F; destruct Hs as [-> | [-> | ->]]; [apply S1|apply S2|apply S3]; exact F).
    assert (Z : forall k, 0 <= k < n -> s k = 0%R).
    { intros k Hk. assert (P : forall k, (0 <= s k)%R) by (intros; unfold s; destruct (isfin (sf_mul _ _)); lra).
      rewrite (Rs_split 0 k n), (Rs_first k n) in E by lia. pose proof (Rs_nonneg 0 k s ltac:(auto)). pose proof (Rs_nonneg (k + 1) n s ltac:(auto)). specialize (P k). lra. }
    intros k Hk. split; [auto|]. specialize (Z k Hk). unfold s in Z. destruct (isfin (sf_mul (tabPt (O := SO) q i k) (x k))) eqn:Ek; [|lra]. apply sf_mul_fin in Ek. apply Ek. }
  split; [auto|]. intros j Hj.
  set (s k := if k =? j then 1%R else 0%R).
  destruct (sums_rel c (pickR (fR (x j))) ltac:(left; split; [auto|split; [split; reflexivity|reflexivity]]) (pick_add _) n s (fun k => sf_mul (tabPt (O := SO) q (q j) k) (x k)) Hn) as (S1 & S2 & S3).
  { intros k Hk. unfold s, tabPt. change (@fone SO) with (sf_of_Z 1). change (@fzero SO) with sf_zero. destruct (Z.eqb_spec k j) as [->|Hne].
    - rewrite Z.eqb_refl. right; left. destruct (one_mul (x j) (Nx j Hj)). auto.
    - destruct (Z.eqb_spec (q j) (q k)) as [E|_]; [apply P2 in E; auto; lia|]. left. destruct (zero_mul (x k) (Nx k Hk)). auto. }
  assert (E : Rs 0 n s = 1%R) by (unfold s; rewrite (Rs_pick 0 n j); auto; [rewrite Z.eqb_refl; auto|intros k Hk Hne; destruct (Z.eqb_spec k j); [lia|auto]]).
  rewrite E in *. assert (G : forall y, pickR (fR (x j)) 1 y -> num y /\ fR y = fR (x j)) by (intros y [H|[H|H]]; [lra|apply H|lra]).
  unfold moved. destruct Hs as [-> | [-> | ->]]; apply G; auto.
Qed.
Definition qinv (k : Z) : Z := accum (fun j a => if q j =? k then j else a) (Z.to_nat n) 0.
Lemma qinv_q j : 0 <= j < n -> qinv (q j) = j.
Proof.
  intros Hj. pose proof Hq as (P1 & P2 & P3). unfold qinv. enough (G : forall t, 0 <= t <= n -> accum (fun i a => if q i =? q j then i else a) (Z.to_nat t) 0 = if j <? t then j else 0) by (rewrite G by lia; destruct (Z.ltb_spec j n); lia).
  intros t [Ht Htn]. revert Htn. pattern t. apply natlike_ind; auto; clear t Ht.
  - intros _. cbn. destruct (Z.ltb_spec j 0); lia.
  - intros t Ht IH Htn. change (Z.succ t) with (t + 1) in *. rewrite accum_S by lia. rewrite IH by lia. destruct (Z.eqb_spec (q t) (q j)) as [E|Hne].
    + apply P2 in E; try lia. subst. destruct (Z.ltb_spec j (j + 1)); lia.
    + destruct (Z.ltb_spec j t), (Z.ltb_spec j (t + 1)); try lia. assert (j = t) by lia. subst. congruence.
Qed.
Lemma q_qinv k : 0 <= k < n -> 0 <= qinv k < n /\ q (qinv k) = k.
Proof. intros Hk. pose proof Hq as (_ & _ & P3). destruct (P3 k Hk) as (j & Hj & <-). rewrite qinv_q by auto. auto. Qed.
Lemma ls_perm m A b x y : ls_backward m n (fun i j => A i (q j)) b x -> (forall j, 0 <= j < n -> fR (y (q j)) = fR (x j)) -> ls_backward m n A b y.
Proof.
  intros (E & f & HE & Hf & H1 & H2) Hxy. exists (fun i k => E i (qinv k)), f. cbv zeta in *.
  split; [|split; [exact Hf|]].
  { intros k Hk. destruct (q_qinv k Hk) as [Hi Ek]. specialize (HE (qinv k) Hi). rewrite Ek in HE. exact HE. }
  set (A' i j := (fR (A i j) + E i (qinv j))%R). set (B i j := (fR (A i (q j)) + E i j)%R) in *.
  assert (EM : forall z i, mvec n A' z i = mvec n B (fun j => z (q j)) i).
  { intros z i. rewrite (mvec_ext n A' A' z (mvec n (tabPt (O := ROps) q) (fun j => z (q j)))) by (auto; intros; rewrite perm_back; auto).
    rewrite perm_mvec by auto. apply mvec_ext; auto. intros k Hk. unfold A', B. rewrite qinv_q by auto. auto. }
  assert (EY : forall i, mvec n A' (fun i => fR (y i)) i = mvec n B (fun i => fR (x i)) i) by (intros i; rewrite EM; apply mvec_ext; auto).
  split.
  - intros z. specialize (H1 (fun j => z (q j))). unfold residual2 in *. rewrite (Rs_ext 0 m (fun i => (mvec n A' (fun i => fR (y i)) i - (fR (b i) + f i)) * (mvec n A' (fun i => fR (y i)) i - (fR (b i) + f i)))%R (fun i => (mvec n B (fun i => fR (x i)) i - (fR (b i) + f i)) * (mvec n B (fun i => fR (x i)) i - (fR (b i) + f i)))%R) by (intros; rewrite EY; auto).
    eapply Rle_trans; [exact H1|]. right. apply Rs_ext. intros. rewrite EM. auto.
  - intros Hmn i Hi. rewrite EY. apply H2; auto.
Qed.
End Perm.

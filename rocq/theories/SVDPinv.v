(** Real tables in singular value form: products, pseudo-inverse, least squares,
    operator norm. *)
From Coq Require Import ZArith Reals Lra Lia Psatz Bool.
From Verif Require Import RSum RealVec SVDSpecR.
Open Scope Z_scope.

Lemma recompose_mul q c U S V T W i j : orthonormal_columns c q V ->
  mmul c (recompose q U S V) (recompose q V T W) i j = recompose q U (fun k => S k * T k)%R W i j.
Proof.
  intros HV. unfold mmul, recompose.
  rewrite (Rs_ext 0 c _ (fun l => Rs 0 q (fun k => Rs 0 q (fun h => U i k * S k * T h * W j h * (V l k * V l h))))%R).
  - rewrite Rs_swap. apply Rs_ext. intros k Hk. rewrite Rs_swap. rewrite (Rs_pick 0 q k); auto.
    + rewrite Rs_scal_l, HV by auto. rewrite Z.eqb_refl. ring.
    + intros h Hh Hne. rewrite Rs_scal_l, HV by auto. destruct (Z.eqb_spec k h); [congruence|ring].
  - intros l Hl. rewrite <- Rs_scal_r. apply Rs_ext. intros k Hk. rewrite <- Rs_scal_l. apply Rs_ext. intros h Hh. ring.
Qed.
Lemma recompose_ext q U S T V i j : (forall k, 0 <= k < q -> S k = T k) -> recompose q U S V i j = recompose q U T V i j.
Proof. intros H. apply Rs_ext. intros k Hk. rewrite H by auto. auto. Qed.
Lemma recompose_tr q U S V i j : trm (recompose q U S V) i j = recompose q V S U i j.
Proof. unfold trm, recompose. apply Rs_ext. intros. ring. Qed.
Lemma mmul_ext2 n A A' B B' i j : (forall k, 0 <= k < n -> A i k = A' i k) -> (forall k, 0 <= k < n -> B k j = B' k j) -> mmul n A B i j = mmul n A' B' i j.
Proof. intros H K. unfold mmul. apply Rs_ext. intros k Hk. rewrite H, K by auto. auto. Qed.
Lemma svd_pinv r c q U S T V : orthonormal_columns r q U -> orthonormal_columns c q V -> (forall k, 0 <= k < q -> (S k * T k * S k = S k /\ T k * S k * T k = T k)%R) ->
  pseudo_inverse r c (recompose q U S V) (recompose q V T U).
Proof.
  intros HU HV H. split; [|split; [|split]].
  - intros i j Hi Hj. rewrite (mmul_ext2 r _ (recompose q U (fun k => S k * T k)%R U) _ (recompose q U S V)) by (intros; auto; apply recompose_mul; auto).
    rewrite recompose_mul by auto. apply recompose_ext. intros k Hk. apply H. auto.
  - intros i j Hi Hj. rewrite (mmul_ext2 c _ (recompose q V (fun k => T k * S k)%R V) _ (recompose q V T U)) by (intros; auto; apply recompose_mul; auto).
    rewrite recompose_mul by auto. apply recompose_ext. intros k Hk. apply H. auto.
  - intros i j Hi Hj. unfold trm. rewrite !recompose_mul by auto. unfold recompose. apply Rs_ext. intros. ring.
  - intros i j Hi Hj. unfold trm. rewrite !recompose_mul by auto. unfold recompose. apply Rs_ext. intros. ring.
Qed.

(** ** Least squares from the Penrose conditions *)
Section LS.
Variables r c : Z.
Variables B X : Z -> Z -> R.
Hypothesis H : pseudo_inverse r c B X.
Definition dist2 (y b : Z -> R) : R := Rs 0 r (fun i => (mvec c B y i - b i) * (mvec c B y i - b i))%R.
Lemma mvec_mvec m n (P Q : Z -> Z -> R) b i : mvec m P (mvec n Q b) i = mvec n (mmul m P Q) b i.
Proof.
  unfold mvec, mmul. rewrite (Rs_ext 0 m _ (fun k => Rs 0 n (fun l => P i k * Q k l * b l)%R)).
  - rewrite Rs_swap. apply Rs_ext. intros l Hl. rewrite Rs_scal_r. auto.
  - intros k Hk. rewrite <- Rs_scal_l. apply Rs_ext. intros. ring.
Qed.
Lemma dot_mvec m n (P : Z -> Z -> R) x y : Rs 0 m (fun i => mvec n P x i * y i)%R = Rs 0 n (fun k => x k * mvec m (trm P) y k)%R.
Proof.
  unfold mvec, trm. rewrite (Rs_ext 0 m _ (fun i => Rs 0 n (fun k => x k * (P i k * y i)))%R).
  - rewrite Rs_swap. apply Rs_ext. intros. rewrite Rs_scal_l. auto.
  - intros i Hi. rewrite <- Rs_scal_r. apply Rs_ext. intros. ring.
Qed.
(** The residual of X b is orthogonal to the range of B. *)
Lemma ls_orth b z : Rs 0 r (fun i => mvec c B z i * (mvec c B (mvec r X b) i - b i))%R = 0%R.
Proof.
  destruct H as (H1 & _ & H3 & _). rewrite dot_mvec. apply Rs_zero. intros k Hk. enough (E : mvec r (trm B) (fun i => mvec c B (mvec r X b) i - b i)%R k = 0%R) by (rewrite E; ring).
  unfold mvec at 1. rewrite (Rs_ext 0 r _ (fun i => trm B k i * mvec r (mmul c B X) b i - trm B k i * b i)%R) by (intros; rewrite mvec_mvec; ring).
  rewrite Rs_minus. change (Rs 0 r (fun i => trm B k i * mvec r (mmul c B X) b i)%R) with (mvec r (trm B) (mvec r (mmul c B X) b) k). rewrite mvec_mvec.
  apply Rminus_diag_eq. unfold mvec. apply Rs_ext. intros i Hi. f_equal. transitivity (mmul r (mmul c B X) B i k); [|exact (H1 i k Hi Hk)]. unfold mmul at 1 3.
  apply Rs_ext. intros l Hl. rewrite Rmult_comm. unfold trm at 1. f_equal. exact (H3 i l Hi Hl).
Qed.
Lemma ls_pyth b y : dist2 y b = (dist2 (mvec r X b) b + Rs 0 r (fun i => mvec c B (fun k => y k - mvec r X b k) i * mvec c B (fun k => y k - mvec r X b k) i))%R.
Proof.
  pose proof (ls_orth b (fun k => y k - mvec r X b k)%R) as E. unfold dist2. set (w := mvec r X b) in *.
  assert (L : forall i, mvec c B y i = (mvec c B w i + mvec c B (fun k => y k - w k) i)%R). { intros i. unfold mvec. rewrite <- Rs_plus. apply Rs_ext. intros. ring. }
  rewrite <- Rs_plus. rewrite (Rs_ext 0 r _ (fun i => ((mvec c B w i - b i) * (mvec c B w i - b i) + mvec c B (fun k => y k - w k) i * mvec c B (fun k => y k - w k) i) + 2 * (mvec c B (fun k => y k - w k) i * (mvec c B w i - b i)))%R).
  - rewrite (Rs_plus 0 r _ (fun i => 2 * (mvec c B (fun k => y k - w k) i * (mvec c B w i - b i)))%R). rewrite Rs_scal_l, E. ring.
  - intros i Hi. rewrite L. ring.
Qed.
Lemma ls_min b y : (dist2 (mvec r X b) b <= dist2 y b)%R.
Proof. rewrite (ls_pyth b y). assert (0 <= Rs 0 r (fun i => mvec c B (fun k => y k - mvec r X b k) i * mvec c B (fun k => y k - mvec r X b k) i))%R; [|lra]. apply Rs_nonneg. intros. nra. Qed.
Lemma ls_norm b y : dist2 y b = dist2 (mvec r X b) b -> (Rs 0 c (fun k => mvec r X b k * mvec r X b k) <= Rs 0 c (fun k => y k * y k))%R.
Proof.
  intros E. rewrite (ls_pyth b y) in E. set (w := mvec r X b) in *. set (z := fun k => (y k - w k)%R) in *.
  assert (Z0 : forall i, 0 <= i < r -> mvec c B z i = 0%R).
  { intros i Hi. assert (S0 : Rs 0 r (fun i => mvec c B z i * mvec c B z i)%R = 0%R) by lra. 
    assert (L : (mvec c B z i * mvec c B z i <= 0)%R). { rewrite <- S0. apply (Rs_term 0 r (fun i => mvec c B z i * mvec c B z i)%R i); auto. intros; nra. } nra. }
  assert (Ort : Rs 0 c (fun k => w k * z k)%R = 0%R).
  { destruct H as (_ & H2 & _ & H4). rewrite (Rs_ext 0 c _ (fun k => mvec c (mmul r X B) w k * z k)%R).
    - rewrite dot_mvec. rewrite (Rs_ext 0 c _ (fun k => w k * 0)%R); [rewrite Rs_zero; auto; intros; ring|]. intros k Hk. f_equal. transitivity (mvec c (mmul r X B) z k).
      + unfold mvec. apply Rs_ext. intros l Hl. rewrite (H4 k l Hk Hl). auto.
      + rewrite <- mvec_mvec. unfold mvec at 1. apply Rs_zero. intros l Hl. rewrite Z0 by auto. ring.
    - intros k Hk. f_equal. unfold w. rewrite mvec_mvec. unfold mvec. apply Rs_ext. intros l Hl. rewrite (H2 k l Hk Hl). auto. }
  rewrite (Rs_ext 0 c (fun k => y k * y k)%R (fun k => w k * w k + (2 * (w k * z k) + z k * z k))%R) by (intros; unfold z; ring).
  rewrite Rs_plus, Rs_plus, Rs_scal_l, Ort. assert (0 <= Rs 0 c (fun k => z k * z k))%R by (apply Rs_nonneg; intros; nra). lra.
Qed.
End LS.

(** ** Norms *)
Lemma frob_nonneg r c A : (0 <= frob r c A)%R.
Proof. apply sqrt_pos. Qed.
Lemma enorm_sq n x : (enorm n x * enorm n x = Rs 0 n (fun i => x i * x i))%R.
Proof. apply sqrt_sqrt. apply Rs_nonneg. intros. nra. Qed.
Lemma enorm_nonneg n x : (0 <= enorm n x)%R.
Proof. apply sqrt_pos. Qed.
Lemma enorm_ext n x y : (forall i, 0 <= i < n -> x i = y i) -> enorm n x = enorm n y.
Proof. intros H. unfold enorm. f_equal. apply Rs_ext. intros i Hi. rewrite H by auto. auto. Qed.
Lemma enorm_tri n x y : (enorm n (fun i => x i + y i) <= enorm n x + enorm n y)%R.
Proof.
  pose proof (enorm_nonneg n x) as Hx. pose proof (enorm_nonneg n y) as Hy. apply Rsqr_incr_0_var; [|lra]. unfold Rsqr. rewrite enorm_sq.
  pose proof (cauchy_abs n x y) as C. change (RealVec.norm2 n x) with (enorm n x) in C. change (RealVec.norm2 n y) with (enorm n y) in C. unfold dot in C. pose proof (Rle_abs (Rs 0 n (fun k => x k * y k)%R)) as L.
  rewrite (Rs_ext 0 n _ (fun i => (x i * x i + y i * y i) + 2 * (x i * y i))%R) by (intros; ring). rewrite Rs_plus, Rs_plus, Rs_scal_l. rewrite <- !enorm_sq. nra.
Qed.
Lemma enorm_opp n x : enorm n (fun i => - x i)%R = enorm n x.
Proof. unfold enorm. f_equal. apply Rs_ext. intros. ring. Qed.
(** |E x| <= |E|_F |x| *)
Lemma frob_op r c E x : (enorm r (mvec c E x) <= frob r c E * enorm c x)%R.
Proof.
  unfold enorm, frob. rewrite <- sqrt_mult; [|apply Rs_nonneg; intros; apply Rs_nonneg; intros; nra|apply Rs_nonneg; intros; nra]. apply sqrt_le_1_alt.
  rewrite <- Rs_scal_r. apply Rs_le. intros i Hi. exact (cauchy c (E i) x).
Qed.
(** Bessel's inequality. *)
Lemma bessel c q V x : orthonormal_columns c q V -> (Rs 0 q (fun k => mvec c (trm V) x k * mvec c (trm V) x k) <= Rs 0 c (fun i => x i * x i))%R.
Proof.
  intros HV. set (a := mvec c (trm V) x). set (p := mvec q V a).
  assert (E1 : Rs 0 c (fun i => p i * x i)%R = Rs 0 q (fun k => a k * a k)%R) by (apply dot_mvec).
  assert (E2 : Rs 0 c (fun i => p i * p i)%R = Rs 0 q (fun k => a k * a k)%R).
  { unfold p at 1. rewrite dot_mvec. apply Rs_ext. intros k Hk. f_equal. unfold p. rewrite mvec_mvec. unfold mvec at 1. rewrite (Rs_pick 0 q k); auto.
    - unfold mmul, trm. rewrite HV by auto. rewrite Z.eqb_refl. ring.
    - intros l Hl Hne. unfold mmul, trm. rewrite HV by auto. destruct (Z.eqb_spec k l); [congruence|ring]. }
  assert (P : (0 <= Rs 0 c (fun i => (x i - p i) * (x i - p i)))%R) by (apply Rs_nonneg; intros; apply Rle_0_sqr).
  rewrite (Rs_ext 0 c _ (fun i => x i * x i + p i * p i - 2 * (p i * x i))%R) in P by (intros; ring). rewrite Rs_minus, Rs_plus, Rs_scal_l, E1, E2 in P. lra.
Qed.
(** U maps isometrically. *)
Lemma isometry r q U a : orthonormal_columns r q U -> enorm r (mvec q U a) = enorm q a.
Proof.
  intros HU. unfold enorm. f_equal. rewrite dot_mvec. apply Rs_ext. intros k Hk. f_equal. rewrite mvec_mvec. unfold mvec at 1. rewrite (Rs_pick 0 q k); auto.
  - unfold mmul, trm. rewrite HU by auto. rewrite Z.eqb_refl. ring.
  - intros l Hl Hne. unfold mmul, trm. rewrite HU by auto. destruct (Z.eqb_spec k l); [congruence|ring].
Qed.
Lemma recompose_mvec q c U S V x i : mvec c (recompose q U S V) x i = mvec q U (fun k => S k * mvec c (trm V) x k)%R i.
Proof.
  unfold mvec, recompose, trm. rewrite (Rs_ext 0 c _ (fun j => Rs 0 q (fun k => U i k * S k * (V j k * x j)))%R).
  - rewrite Rs_swap. apply Rs_ext. intros k Hk. rewrite Rs_scal_l. ring.
  - intros j Hj. rewrite <- Rs_scal_r. apply Rs_ext. intros. ring.
Qed.
Lemma enorm_scale n s x y : (0 <= s)%R -> (forall i, 0 <= i < n -> (Rabs (x i) <= s * Rabs (y i))%R) -> (enorm n x <= s * enorm n y)%R.
Proof.
  intros Hs H. unfold enorm. rewrite <- (sqrt_square s) at 1 by auto. rewrite <- sqrt_mult; [|nra|apply Rs_nonneg; intros; nra]. apply sqrt_le_1_alt. rewrite <- Rs_scal_l. apply Rs_le. intros i Hi. specialize (H i Hi).
  assert (A : forall t : R, (t * t = Rabs t * Rabs t)%R) by (intros t; rewrite <- Rabs_mult; rewrite Rabs_right; auto; nra).
  rewrite (A (x i)), (A (y i)). pose proof (Rabs_pos (x i)). nra.
Qed.
(** The largest singular value is the operator norm. *)
Lemma svd_opnorm r c q U S V : 1 <= q -> orthonormal_columns r q U -> orthonormal_columns c q V -> (forall k, 0 <= k < q -> (0 <= S k <= S 0%Z)%R) ->
  (forall x, (enorm r (mvec c (recompose q U S V) x) <= S 0%Z * enorm c x)%R) /\ enorm c (fun i => V i 0) = 1%R /\ enorm r (mvec c (recompose q U S V) (fun i => V i 0)) = S 0.
Proof.
  intros Hq HU HV HS. assert (P : forall x, enorm r (mvec c (recompose q U S V) x) = enorm q (fun k => S k * mvec c (trm V) x k)%R).
  { intros x. rewrite <- (isometry r q U _ HU). apply enorm_ext. intros i Hi. apply recompose_mvec. }
  assert (E1 : enorm c (fun i => V i 0) = 1%R). { unfold enorm. rewrite HV by lia. apply sqrt_1. }
  split; [|split; [auto|]].
  - intros x. rewrite P. eapply Rle_trans; [apply (enorm_scale q (S 0) _ (mvec c (trm V) x)); [apply (HS 0); lia|]|].
    + intros k Hk. rewrite Rabs_mult. destruct (HS k Hk). rewrite (Rabs_right (S k)) by lra. apply Rmult_le_compat_r; [apply Rabs_pos|auto].
    + apply Rmult_le_compat_l; [apply (HS 0); lia|]. unfold enorm. apply sqrt_le_1_alt. apply bessel. auto.
  - rewrite P. assert (V0 : forall k, 0 <= k < q -> mvec c (trm V) (fun i => V i 0) k = if k =? 0 then 1%R else 0%R) by (intros k Hk; unfold mvec, trm; apply HV; lia).
    unfold enorm. rewrite (Rs_pick 0 q 0); [|lia|].
    + rewrite V0 by lia. cbn [Z.eqb]. rewrite !Rmult_1_r. apply sqrt_square. apply (HS 0). lia.
    + intros k Hk Hne. rewrite V0 by lia. destruct (Z.eqb_spec k 0); [lia|ring].
Qed.
Lemma mvec_sub c A B x i : mvec c A x i = (mvec c B x i + mvec c (fun i j => A i j - B i j) x i)%R.
Proof. unfold mvec. rewrite <- Rs_plus. apply Rs_ext. intros. ring. Qed.
Lemma opnorm_near r c A B e s : (frob r c (fun i j => A i j - B i j) <= e)%R ->
  (forall x, (enorm r (mvec c B x) <= s * enorm c x)%R) -> forall x, (enorm r (mvec c A x) <= (s + e) * enorm c x)%R.
Proof.
  intros He H x. rewrite (enorm_ext r _ (fun i => mvec c B x i + mvec c (fun i j => A i j - B i j) x i)%R) by (intros; apply mvec_sub).
  eapply Rle_trans; [apply enorm_tri|]. pose proof (frob_op r c (fun i j => A i j - B i j)%R x). pose proof (enorm_nonneg c x). specialize (H x). nra.
Qed.
Lemma opnorm_near2 r c A B e s x : (frob r c (fun i j => A i j - B i j) <= e)%R -> enorm c x = 1%R -> enorm r (mvec c B x) = s -> (s - e <= enorm r (mvec c A x))%R.
Proof.
  intros He Hx Hs. assert (enorm r (mvec c B x) <= enorm r (mvec c A x) + enorm r (mvec c (fun i j => A i j - B i j) x))%R.
  { rewrite (enorm_ext r (mvec c B x) (fun i => mvec c A x i + - mvec c (fun i j => A i j - B i j) x i)%R) by (intros; rewrite (mvec_sub c A B x i); ring).
    eapply Rle_trans; [apply enorm_tri|]. rewrite enorm_opp. lra. }
  pose proof (frob_op r c (fun i j => A i j - B i j)%R x) as F. rewrite Hx in F. lra.
Qed.
(** Truncating. *)
Lemma frob_tri r c A B : (frob r c (fun i j => A i j + B i j) <= frob r c A + frob r c B)%R.
Proof.
  assert (G : forall M, frob r c M = enorm r (fun i => enorm c (M i))). { intros M. unfold frob, enorm at 1. f_equal. apply Rs_ext. intros i Hi. rewrite enorm_sq. auto. }
  rewrite !G. eapply Rle_trans; [|apply enorm_tri]. rewrite <- (Rmult_1_l (enorm r (fun i => _ + _)%R)). apply enorm_scale; [lra|]. intros i Hi.
  pose proof (enorm_nonneg c (A i)). pose proof (enorm_nonneg c (B i)). pose proof (enorm_nonneg c (fun j => A i j + B i j)%R). pose proof (enorm_tri c (A i) (B i)). rewrite !Rabs_right by lra. lra.
Qed.
Lemma frob_recompose r c q U S V : orthonormal_columns r q U -> orthonormal_columns c q V -> frob r c (recompose q U S V) = enorm q S.
Proof.
  intros HU HV. unfold frob, enorm. f_equal. rewrite Rs_swap. transitivity (Rs 0 c (fun j => Rs 0 q (fun k => (S k * V j k) * (S k * V j k))%R)).
  - apply Rs_ext. intros j Hj. pose proof (isometry r q U (fun k => S k * V j k)%R HU) as E. unfold enorm in E. apply (f_equal (fun t => t * t)%R) in E. rewrite !sqrt_sqrt in E by (apply Rs_nonneg; intros; nra).
    rewrite <- E. apply Rs_ext. intros i Hi. unfold recompose, mvec. f_equal; apply Rs_ext; intros; ring.
  - rewrite Rs_swap. apply Rs_ext. intros k Hk. rewrite (Rs_ext 0 c _ (fun j => S k * S k * (V j k * V j k))%R) by (intros; ring). rewrite Rs_scal_l, HV by auto. rewrite Z.eqb_refl. ring.
Qed.
Lemma enorm_sum q x e : (0 <= e)%R -> 0 <= q -> (forall k, 0 <= k < q -> (Rabs (x k) <= e)%R) -> (enorm q x <= IZR q * e)%R.
Proof.
  intros He Hq Hx. assert (Hr : (0 <= IZR q)%R) by (apply IZR_le; auto). unfold enorm. rewrite <- (sqrt_square (IZR q * e)) by (apply Rmult_le_pos; auto). apply sqrt_le_1_alt.
  apply (Rle_trans _ (Rs 0 q (fun _ => e * e)%R)).
  - apply Rs_le. intros k Hk. specialize (Hx k Hk). assert (A : (x k * x k = Rabs (x k) * Rabs (x k))%R) by (rewrite <- Rabs_mult; rewrite Rabs_right; auto; nra). rewrite A. pose proof (Rabs_pos (x k)). nra.
  - assert (Rs 0 q (fun _ => e * e)%R = IZR q * (e * e))%R as ->.
    { clear Hx Hr. pattern q. apply natlike_ind; auto; [rewrite Rs_zero by (intros; lia); ring|]. intros k Hk IH. unfold Z.succ. rewrite Rs_last by lia. rewrite IH. rewrite plus_IZR. ring. }
    destruct (Z.eq_dec q 0) as [->|]; [lra|]. assert (1 <= IZR q)%R by (apply IZR_le; lia). assert (0 <= e * e)%R by nra. nra.
Qed.

(** Norms, distances, cosine, unit vectors and projections in exact
    arithmetic. *)
From Coq Require Import ZArith List Lia Bool Reals Lra Psatz.
From Verif Require Import Base BaseLemmas Scalar Vector VecSpec VectorFacts VecProps RealOps RSum RealMat.
Import ListNotations.
Open Scope Z_scope.
#[local] Existing Instance ROps.

(** ** Cauchy-Schwarz *)
Lemma dot_self_nonneg n f : (0 <= dot n f f)%R.
Proof. apply Rs_nonneg. intros. nra. Qed.
Lemma dot_self_0 n f : dot n f f = 0%R <-> forall i, 0 <= i < n -> f i = 0%R.
Proof.
  split.
  - intros H i Hi. pose proof (Rs_eq0 0 n (fun k => f k * f k)%R ltac:(intros; nra) H i Hi). cbn beta in *. nra.
  - intros H. apply Rs_zero. intros k Hk. rewrite H by auto. lra.
Qed.
Lemma cauchy n f g : (dot n f g * dot n f g <= dot n f f * dot n g g)%R.
Proof.
  set (a := dot n f f). set (b := dot n g g). set (c := dot n f g).
  assert (H : (0 <= b * (a * b - c * c))%R).
  { replace (b * (a * b - c * c))%R with (Rs 0 n (fun k => (b * f k - c * g k) * (b * f k - c * g k)))%R; [apply Rs_nonneg; intros; exact (Rle_0_sqr _)|].
    rewrite (Rs_ext 0 n _ (fun k => (b * b) * (f k * f k) - (2 * b * c) * (f k * g k) + (c * c) * (g k * g k))%R) by (intros; ring).
    rewrite Rs_plus, Rs_minus, !Rs_scal_l. fold (dot n f f) (dot n f g) (dot n g g). fold a b c. ring. }
  pose proof (dot_self_nonneg n g). destruct (Req_dec b 0) as [E|E].
  - assert (c = 0)%R as ->; [|rewrite E; lra]. apply Rs_zero. intros k Hk. rewrite (proj1 (dot_self_0 n g) E k Hk). lra.
  - assert (0 < b)%R by (subst b; lra). assert (0 <= a * b - c * c)%R by (apply Rmult_le_reg_l with b; auto; lra). lra.
Qed.
Definition norm2 n f := sqrt (dot n f f).
Lemma norm2_sq n f : (norm2 n f * norm2 n f)%R = dot n f f.
Proof. apply sqrt_sqrt. apply dot_self_nonneg. Qed.
Lemma cauchy_abs n f g : (Rabs (dot n f g) <= norm2 n f * norm2 n g)%R.
Proof.
  unfold norm2. rewrite <- sqrt_mult by apply dot_self_nonneg. rewrite <- sqrt_Rsqr_abs. apply sqrt_le_1_alt. unfold Rsqr. apply cauchy.
Qed.
Lemma norm2_triangle n f g : (norm2 n (fun k => f k + g k) <= norm2 n f + norm2 n g)%R.
Proof.
  assert (Hf := sqrt_pos (dot n f f)). assert (Hg := sqrt_pos (dot n g g)). fold (norm2 n f) in Hf. fold (norm2 n g) in Hg.
  apply Rsqr_incr_0_var; [|lra]. unfold Rsqr. rewrite norm2_sq.
  assert (E : dot n (fun k => f k + g k)%R (fun k => f k + g k)%R = (dot n f f + 2 * dot n f g + dot n g g)%R).
  { unfold dot. rewrite <- Rs_scal_l, <- !Rs_plus. apply Rs_ext. intros; ring. }
  rewrite E. pose proof (cauchy_abs n f g) as C. pose proof (Rle_abs (dot n f g)). pose proof (norm2_sq n f). pose proof (norm2_sq n g). nra.
Qed.

(** ** Largest absolute value *)
Definition maxabs (n : Z) (f : Z -> R) : R := accum (fun k s => Rmax s (Rabs (f k))) (Z.to_nat n) 0%R.
Lemma maxabs_spec n f : 0 <= n -> (0 <= maxabs n f)%R /\ (forall k, 0 <= k < n -> (Rabs (f k) <= maxabs n f)%R) /\
  (maxabs n f = 0%R \/ exists k, 0 <= k < n /\ maxabs n f = Rabs (f k)).
Proof.
  intros Hn. unfold maxabs.
  enough (G : forall m, (0 <= accum (fun k s => Rmax s (Rabs (f k))) m 0%R)%R /\
    (forall k, 0 <= k < Z.of_nat m -> (Rabs (f k) <= accum (fun k s => Rmax s (Rabs (f k))) m 0%R)%R) /\
    (accum (fun k s => Rmax s (Rabs (f k))) m 0%R = 0%R \/ exists k, 0 <= k < Z.of_nat m /\ accum (fun k s => Rmax s (Rabs (f k))) m 0%R = Rabs (f k))).
  { specialize (G (Z.to_nat n)). rewrite Z2Nat.id in G by auto. exact G. }
  induction m as [|m IH]; cbn [accum].
  - split; [lra|]. split; [intros; lia|auto].
  - destruct IH as (H1 & H2 & H3). set (s := accum _ m 0%R) in *. pose proof (Rmax_l s (Rabs (f (Z.of_nat m)))). pose proof (Rmax_r s (Rabs (f (Z.of_nat m)))).
    split; [lra|]. split.
    + intros k Hk. destruct (Z.eq_dec k (Z.of_nat m)); [subst; auto|]. specialize (H2 k ltac:(lia)). lra.
    + destruct (Rle_dec (Rabs (f (Z.of_nat m))) s) as [L|L].
      * rewrite Rmax_left by auto. destruct H3 as [H3|(k & Hk & H3)]; auto. right. exists k. split; [lia|auto].
      * rewrite Rmax_right by lra. right. exists (Z.of_nat m). split; [lia|auto].
Qed.
Lemma maxabs_le n f b : 0 <= n -> (0 <= b)%R -> (forall k, 0 <= k < n -> (Rabs (f k) <= b)%R) -> (maxabs n f <= b)%R.
Proof.
  intros Hn Hb H. destruct (maxabs_spec n f Hn) as (_ & _ & [E|(k & Hk & E)]); rewrite E; auto.
Qed.

(** ** The three norms *)
Definition is_norm (N : RealVector -> res R) : Prop :=
  (forall v n f, VecIs v n f -> exists x, N v = Ok x /\ (0 <= x)%R /\ (x = 0%R <-> forall i, 0 <= i < n -> f i = 0%R)) /\
  (forall v w n (f : Z -> R) (a : R), VecIs v n f -> VecIs w n (fun i => a * f i)%R ->
     exists x y, N v = Ok x /\ N w = Ok y /\ y = (Rabs a * x)%R) /\
  (forall u v w n (f g : Z -> R), VecIs u n f -> VecIs v n g -> VecIs w n (fun i => f i + g i)%R ->
     exists x y z, N u = Ok x /\ N v = Ok y /\ N w = Ok z /\ (z <= x + y)%R).
Lemma VecIs_dim v n f : VecIs v n f -> 0 <= n.
Proof. intros (E & _). unfold v_Dimension in E. pose proof (len_nonneg (v_data v)). lia. Qed.

Lemma rnorm v n f : VecIs v n f -> VecNorm v = Ok (norm2 n f).
Proof. intros H. rewrite (VecNorm_spec v n f H). f_equal. unfold norm2, dot. rewrite fsum_Rs. reflexivity. Qed.
Lemma rnorm1 v n f : VecIs v n f -> VecL1Norm v = Ok (Rs 0 n (fun k => Rabs (f k))).
Proof. intros H. rewrite (VecL1Norm_spec v n f H). f_equal. rewrite fsum_Rs. reflexivity. Qed.
Lemma rnormi v n f : VecIs v n f -> VecLInfNorm v = Ok (maxabs n f).
Proof. intros H. rewrite (VecLInfNorm_spec v n f H). reflexivity. Qed.
Lemma rdot v w n f g : VecIs v n f -> VecIs w n g -> VecDotProduct v w = Ok (dot n f g).
Proof. intros H H'. rewrite (VecDotProduct_spec v w n f g H H'). f_equal. unfold dot. rewrite fsum_Rs. reflexivity. Qed.

Lemma norm2_0 n f : norm2 n f = 0%R <-> forall i, 0 <= i < n -> f i = 0%R.
Proof.
  rewrite <- dot_self_0. split; intros H.
  - apply sqrt_eq_0; auto using dot_self_nonneg.
  - unfold norm2. rewrite H. apply sqrt_0.
Qed.
Lemma is_norm_2 : is_norm VecNorm.
Proof.
  split; [|split].
  - intros v n f H. exists (norm2 n f). split; [apply rnorm; auto|]. split; [apply sqrt_pos|apply norm2_0].
  - intros v w n f a Hv Hw. exists (norm2 n f), (norm2 n (fun i => a * f i)%R). split; [apply rnorm; auto|]. split; [apply rnorm; auto|].
    unfold norm2. rewrite <- sqrt_Rsqr_abs, <- sqrt_mult by (unfold Rsqr; try apply dot_self_nonneg; nra). f_equal.
    unfold dot, Rsqr. rewrite <- Rs_scal_l. apply Rs_ext. intros; ring.
  - intros u v w n f g Hu Hv Hw. do 3 eexists. split; [apply rnorm; eauto|]. split; [apply rnorm; eauto|]. split; [apply rnorm; eauto|]. apply norm2_triangle.
Qed.
Lemma is_norm_1 : is_norm VecL1Norm.
Proof.
  split; [|split].
  - intros v n f H. eexists. split; [apply rnorm1; eauto|]. split; [apply Rs_nonneg; intros; apply Rabs_pos|]. split.
    + intros E i Hi. pose proof (Rs_eq0 0 n (fun k => Rabs (f k)) ltac:(intros; apply Rabs_pos) E i Hi) as K. cbn beta in K.
      destruct (Req_dec (f i) 0) as [Z0|Z0]; auto. apply Rabs_no_R0 in Z0. contradiction.
    + intros Z0. apply Rs_zero. intros k Hk. rewrite Z0 by auto. apply Rabs_R0.
  - intros v w n f a Hv Hw. do 2 eexists. split; [apply rnorm1; eauto|]. split; [apply rnorm1; eauto|].
    rewrite <- Rs_scal_l. apply Rs_ext. intros. apply Rabs_mult.
  - intros u v w n f g Hu Hv Hw. do 3 eexists. split; [apply rnorm1; eauto|]. split; [apply rnorm1; eauto|]. split; [apply rnorm1; eauto|].
    rewrite <- Rs_plus. apply Rs_le. intros. apply Rabs_triang.
Qed.
Lemma is_norm_inf : is_norm VecLInfNorm.
Proof.
  split; [|split].
  - intros v n f H. pose proof (VecIs_dim _ _ _ H) as Hn. destruct (maxabs_spec n f Hn) as (H1 & H2 & H3).
    eexists. split; [apply rnormi; eauto|]. split; auto. split.
    + intros E i Hi. specialize (H2 i Hi). rewrite E in H2. pose proof (Rabs_pos (f i)). destruct (Req_dec (f i) 0) as [Z0|Z0]; auto. apply Rabs_no_R0 in Z0. lra.
    + intros Z0. destruct H3 as [E|(k & Hk & E)]; auto. rewrite E, Z0 by auto. apply Rabs_R0.
  - intros v w n f a Hv Hw. pose proof (VecIs_dim _ _ _ Hv) as Hn. do 2 eexists. split; [apply rnormi; eauto|]. split; [apply rnormi; eauto|].
    destruct (maxabs_spec n f Hn) as (H1 & H2 & H3). destruct (maxabs_spec n (fun i => a * f i)%R Hn) as (K1 & K2 & K3). apply Rle_antisym.
    + apply maxabs_le; auto; [apply Rmult_le_pos; auto; apply Rabs_pos|]. intros k Hk. rewrite Rabs_mult. apply Rmult_le_compat_l; [apply Rabs_pos|auto].
    + destruct H3 as [E|(k & Hk & E)]; rewrite E; [lra|]. rewrite <- Rabs_mult. apply K2. auto.
  - intros u v w n f g Hu Hv Hw. pose proof (VecIs_dim _ _ _ Hv) as Hn. do 3 eexists. split; [apply rnormi; eauto|]. split; [apply rnormi; eauto|]. split; [apply rnormi; eauto|].
    destruct (maxabs_spec n f Hn) as (H1 & H2 & H3). destruct (maxabs_spec n g Hn) as (K1 & K2 & K3). apply maxabs_le; auto; [lra|].
    intros k Hk. eapply Rle_trans; [apply Rabs_triang|]. specialize (H2 k Hk). specialize (K2 k Hk). lra.
Qed.

(** The distances are the norms of the difference. *)
Lemma distances u v w n (f g : Z -> R) : VecIs u n f -> VecIs v n g -> VecIs w n (fun i => f i - g i)%R ->
  VecDistance u v = VecNorm w /\ VecL1Distance u v = VecL1Norm w /\ VecLInfDistance u v = VecLInfNorm w.
Proof.
  intros Hu Hv Hw. rewrite (VecDistance_spec _ _ _ _ _ Hu Hv), (VecNorm_spec _ _ _ Hw), (VecL1Distance_spec _ _ _ _ _ Hu Hv), (VecL1Norm_spec _ _ _ Hw).
  rewrite (VecLInfDistance_spec _ _ _ _ _ Hu Hv), (VecLInfNorm_spec _ _ _ Hw). split; [reflexivity|]. split; [reflexivity|].
  f_equal. apply accum_ext. intros. apply Rmax_comm.
Qed.
Lemma feq_0 x : feq x fzero = true <-> x = 0%R.
Proof. apply Reqb_true. Qed.
Lemma cosine u v n (f g : Z -> R) : VecIs u n f -> VecIs v n g ->
  ((forall i, 0 <= i < n -> f i = 0%R) \/ (forall i, 0 <= i < n -> g i = 0%R) -> panics (VecCosine u v)) /\
  ((exists i, 0 <= i < n /\ f i <> 0%R) -> (exists i, 0 <= i < n /\ g i <> 0%R) ->
   exists x a b, VecCosine u v = Ok x /\ VecNorm u = Ok a /\ VecNorm v = Ok b /\ (-1 <= x <= 1)%R /\ (x * (a * b))%R = dot n f g).
Proof.
  intros Hu Hv. unfold VecCosine. rewrite (rnorm _ _ _ Hu), (rnorm _ _ _ Hv), (rdot _ _ _ _ _ Hu Hv). cbn [bind]. split.
  - intros [H|H]; apply norm2_0 in H; apply feq_0 in H; rewrite H; [|rewrite orb_true_r]; eexists; reflexivity.
  - intros (i & Hi & Fi) (j & Hj & Gj).
    assert (A : norm2 n f <> 0%R) by (intros E; apply Fi; apply (proj1 (norm2_0 n f)); auto).
    assert (B : norm2 n g <> 0%R) by (intros E; apply Gj; apply (proj1 (norm2_0 n g)); auto).
    change (@feq ROps) with Reqb. change (@fzero ROps) with 0%R. rewrite (proj2 (Reqb_false _ _) A), (proj2 (Reqb_false _ _) B). cbn [orb].
    do 3 eexists. split; [reflexivity|]. split; [reflexivity|]. split; [reflexivity|].
    change (@fdiv ROps) with Rdiv. change (@fmul ROps) with Rmult.
    pose proof (cauchy_abs n f g) as C. pose proof (sqrt_pos (dot n f f)) as P. pose proof (sqrt_pos (dot n g g)) as Q. fold (norm2 n f) in P. fold (norm2 n g) in Q.
    assert (D : (0 < norm2 n f * norm2 n g)%R) by (apply Rmult_lt_0_compat; lra).
    split; [|field; auto].
    assert (K : (Rabs (dot n f g / (norm2 n f * norm2 n g)) <= 1)%R).
    { unfold Rdiv. rewrite Rabs_mult, (Rabs_right (/ _)) by (apply Rle_ge, Rlt_le, Rinv_0_lt_compat; auto).
      apply Rmult_le_reg_r with (norm2 n f * norm2 n g)%R; auto. rewrite Rmult_assoc, Rinv_l by lra. lra. }
    unfold Rabs in K. destruct (Rcase_abs _); lra.
Qed.
Lemma unitize a n (f : Z -> R) : VecIs (VArr a) n f ->
  ((forall i, 0 <= i < n -> f i = 0%R) -> panics (arv_Unitize a)) /\
  ((exists i, 0 <= i < n /\ f i <> 0%R) -> exists s w, (0 < s)%R /\ arv_Unitize a = Ok w /\
     VecIs (VArr w) n (fun i => f i / s)%R /\ VecNorm (VArr a) = Ok s /\ VecNorm (VArr w) = Ok 1%R).
Proof.
  intros H. unfold arv_Unitize. rewrite (rnorm _ _ _ H). cbn [bind]. split.
  - intros Z0. apply norm2_0, feq_0 in Z0. rewrite Z0. eexists; reflexivity.
  - intros (i & Hi & Fi). assert (A : norm2 n f <> 0%R) by (intros E; apply Fi; apply (proj1 (norm2_0 n f)); auto).
    change (@feq ROps) with Reqb. change (@fzero ROps) with 0%R. rewrite (proj2 (Reqb_false _ _) A).
    destruct (arv_MapDivide_spec a n f (norm2 n f) H) as (w & E & Hw). exists (norm2 n f), w.
    pose proof (sqrt_pos (dot n f f)) as P. fold (norm2 n f) in P. split; [lra|]. split; auto. split; auto. split; auto.
    destruct is_norm_2 as (_ & HH & _). destruct (HH (VArr a) (VArr w) n f (/ norm2 n f)%R H) as (x & y & E1 & E2 & E3).
    { eapply VecIs_ext; [exact Hw|]. intros k Hk. change (f k / norm2 n f = / norm2 n f * f k)%R. unfold Rdiv. ring. }
    rewrite (rnorm _ _ _ H) in E1. injection E1 as E1. rewrite E2, E3, <- E1. f_equal.
    rewrite Rabs_right by (apply Rle_ge, Rlt_le, Rinv_0_lt_compat; lra). field. auto.
Qed.
Lemma unit_vector v n (f : Z -> R) : VecIs v n f ->
  ((forall i, 0 <= i < n -> f i = 0%R) -> panics (UnitVector (Some v))) /\
  ((exists i, 0 <= i < n /\ f i <> 0%R) -> exists s w, (0 < s)%R /\ UnitVector (Some v) = Ok w /\
     VecIs (VArr w) n (fun i => f i / s)%R /\ VecNorm v = Ok s /\ VecNorm (VArr w) = Ok 1%R).
Proof.
  intros H. unfold UnitVector. destruct (NewArrayRealVectorCopy_spec v n f H) as (a & E & Ha). rewrite E. cbn [orpanic bind].
  destruct (unitize a n f Ha) as [U1 U2]. split; auto. intros K. destruct (U2 K) as (s & w & W). exists s, w.
  rewrite (rnorm _ _ _ Ha) in W. rewrite (rnorm _ _ _ H). auto.
Qed.
Lemma projection u b n (f g : Z -> R) : VecIs u n f -> VecIs (VArr b) n g ->
  ((forall i, 0 <= i < n -> g i = 0%R) -> panics (Projection u (VArr b))) /\
  ((exists i, 0 <= i < n /\ g i <> 0%R) -> exists w dest (t : R), Projection u (VArr b) = Ok (w, dest) /\
     VecIs w n (fun i => g i * t)%R /\ dot n (fun i => f i - g i * t)%R g = 0%R /\ dest = w).
Proof.
  intros Hu Hv. unfold Projection. rewrite !(rdot _ _ _ _ _ Hv Hv), (rdot _ _ _ _ _ Hu Hv). cbn [bind].
  change (@feq ROps) with Reqb. change (@fzero ROps) with 0%R. split.
  - intros H. apply dot_self_0 in H. rewrite (proj2 (Reqb_true _ _) H). eexists; reflexivity.
  - intros (i & Hi & Gi). assert (A : dot n g g <> 0%R) by (intros E; apply Gi; apply (proj1 (dot_self_0 n g)); auto).
    rewrite (proj2 (Reqb_false _ _) A). destruct (arv_MapMultiply_spec b n g (dot n f g / dot n g g)%R Hv) as (w & E & Hw).
    change (@fdiv ROps) with Rdiv. rewrite E. cbn [bind]. exists (VArr w), (VArr w), (dot n f g / dot n g g)%R.
    split; [reflexivity|]. split; [exact Hw|]. split; auto.
    set (t := (dot n f g / dot n g g)%R). transitivity (dot n f g - t * dot n g g)%R; [|unfold t; field; auto].
    unfold dot. rewrite <- Rs_scal_l, <- Rs_minus. apply Rs_ext. intros; ring.
Qed.

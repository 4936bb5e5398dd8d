(** A matrix over the reals for the concrete cases beside the theorems about the
    singular value decomposition. *)
From Coq Require Import Reals ZArith QArith List Lia Lra Bool.
From Verif Require Import Base BaseLemmas Scalar Vector VecSpec VectorFacts Matrix MatSpec MatFacts Array2D RealMatrixM RealOps RSum SVD SVDSpec SVDSpecR SVDTerm SVDProps SVDPropsR ExampleReal.
Import ListNotations.
Open Scope Z_scope.
#[local] Existing Instance ROps.

Definition sv_x : @RealMatrix ROps := rmat [[0; 2]; [2; 0]]%R.
Definition sv_A : Z -> Z -> R := rent [[0; 2]; [2; 0]]%R.
Lemma sv_x_is : MatIs sv_x 2 2 sv_A.
Proof. apply rmat2_is. Qed.
Lemma sv_x_iso v : enorm 2 (mvec 2 sv_A v) = (2 * enorm 2 v)%R.
Proof.
  unfold enorm. rewrite !Rs_2. unfold mvec. rewrite !Rs_2. unfold sv_A. rents. replace ((0 * v 0%Z + 2 * v 1%Z) * (0 * v 0%Z + 2 * v 1%Z) + (2 * v 0%Z + 0 * v 1%Z) * (2 * v 0%Z + 0 * v 1%Z))%R with (2 * 2 * (v 0%Z * v 0%Z + v 1%Z * v 1%Z))%R by ring.
  rewrite sqrt_mult by nra. rewrite sqrt_square by lra. auto.
Qed.
Lemma sv_x_frob : (frob 2 2 sv_A <= 4)%R.
Proof. unfold frob. rewrite !Rs_2. unfold sv_A. rents. replace 4%R with (sqrt (4 * 4)) by (apply sqrt_square; lra). apply sqrt_le_1_alt. lra. Qed.
Lemma pow_small n : (1 <= n)%nat -> (/ 2 ^ n <= / 2)%R.
Proof. intros H. apply Rinv_le_contravar; [lra|]. rewrite <- (pow_1 2) at 1. apply Rle_pow; [lra|auto]. Qed.
Lemma sv_x_bound : (svd_bound 2 (frob 2 2 sv_A) <= / 2)%R.
Proof.
  unfold svd_bound. change (2 - 1) with 1. pose proof sv_x_frob as F. assert (0 <= frob 2 2 sv_A)%R by apply sqrt_pos.
  assert (/ 2 ^ 966 <= / 4)%R. { replace (2 ^ 966)%R with (2 ^ 2 * 2 ^ 964)%R by (rewrite <- pow_add; f_equal). apply Rinv_le_contravar; [lra|]. assert (1 <= 2 ^ 964)%R by (apply pow_R1_Rle; lra). lra. }
  assert (/ 2 ^ 51 <= / 16)%R. { replace (2 ^ 51)%R with (2 ^ 4 * 2 ^ 47)%R by (rewrite <- pow_add; f_equal). apply Rinv_le_contravar; [lra|]. assert (1 <= 2 ^ 47)%R by (apply pow_R1_Rle; lra). lra. }
  assert (0 < / 2 ^ 51)%R by (apply Rinv_0_lt_compat, pow_lt; lra). nra.
Qed.
Lemma sv_x_ex : exists d, svd_of sv_x d.
Proof. destruct (sv_term2 4 sv_x 2 2 sv_A (rmat_lib _) sv_x_is) as [d E]; try lia. exists d. exists 4%nat, d. split; [exact E|constructor]. Qed.
Lemma sv_x_values d : svd_of sv_x d -> forall s, In s (sv_SingularValues d) -> (3 / 2 <= s <= 5 / 2)%R.
Proof.
  intros H s Hs. pose proof (sv_each_iso sv_x 2 2 sv_A d 2 (rmat_lib _) sv_x_is ltac:(lia) ltac:(lia) H sv_x_iso s Hs) as K. pose proof sv_x_bound. rewrite Z.min_id in K. destruct K. split; lra.
Qed.
Lemma sv_x_rank d : svd_of sv_x d -> sv_Rank d = Ok 2 /\ svs_IsNonSingular d = Ok true.
Proof.
  intros H. pose proof (sv_x_values d H) as V. destruct (sv_rank sv_x 2 2 sv_A d (rmat_lib _) sv_x_is ltac:(lia) ltac:(lia) H) as (s1 & E1 & E2). destruct (sv_nonsing sv_x 2 2 sv_A d (rmat_lib _) sv_x_is ltac:(lia) ltac:(lia) H) as (s1' & b & E1' & E3 & E4).
  assert (s1' = s1) by congruence. subst s1'. destruct (sv_stable sv_x 2 2 sv_A d d (rmat_lib _) sv_x_is ltac:(lia) ltac:(lia) H H) as (U & S & VV & T & _). destruct T as (_ & _ & T & _).
  assert (I1 : In s1 (sv_SingularValues d)). { unfold sv_Norm in E1. unfold sv_SingularValues. unfold zget in E1. destruct (inb _ _); [|discriminate]. destruct (nth_error (sv_s d) _) eqn:En; [|discriminate]. inversion E1. subst. eapply nth_error_In; eauto. }
  assert (L : length (sv_SingularValues d) = 2%nat). { apply VecIs_elim in T. destruct T as [T _]. apply Nat2Z.inj. exact T. }
  pose proof (V s1 I1) as B. assert (HT : (svd_threshold (O := ROps) 2 s1 < 3 / 2)%R).
  { unfold svd_threshold. cbn [fmax fmul fsqrt flit ROps]. apply Rmax_lub_lt.
    - unfold Q2R. cbn. lra.
    - replace (3 / 2)%R with (sqrt (3 / 2 * (3 / 2))) by (apply sqrt_square; lra). apply sqrt_lt_1_alt. unfold Q2R. cbn. lra. }
  assert (Hall : forall s, In s (sv_SingularValues d) -> fgt s (svd_threshold (Z.max 2 2) s1) = true). { intros s Hs. unfold fgt. cbn [flt ROps]. apply Rltb_true. change (Z.max 2 2) with 2. pose proof (V s Hs). lra. }
  split.
  - rewrite E2. do 2 f_equal. transitivity (Z.of_nat (length (sv_SingularValues d))); [|rewrite L; auto]. f_equal. f_equal. clear - Hall. induction (sv_SingularValues d) as [|a l IH]; auto. cbn [filter]. rewrite Hall by (left; auto). f_equal. apply IH. intros. apply Hall. right. auto.
  - rewrite E3. f_equal. apply E4. split; auto.
Qed.

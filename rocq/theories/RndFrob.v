(** The Frobenius norm, and chains of nearly orthogonal steps on both sides of a
    matrix. *)
From Coq Require Import ZArith List Reals Lia Lra Psatz Bool.
From Verif Require Import Base BaseLemmas Scalar RealOps RSum House RealVec RndHouse RndQR SVDSpecR.
Open Scope Z_scope.

Lemma frob_pos m n X : (0 <= frob m n X)%R. Proof. apply sqrt_pos. Qed.
Lemma frob_eq m n X Y : (forall i j, 0 <= i < m -> 0 <= j < n -> X i j = Y i j) -> frob m n X = frob m n Y.
Proof. intros H. unfold frob. f_equal. apply Rs_ext. intros i Hi. apply Rs_ext. intros j Hj. rewrite H by auto. auto. Qed.
Lemma frob_trm m n X : frob n m (trm X) = frob m n X.
Proof. unfold frob, trm. rewrite Rs_swap. auto. Qed.
Lemma frob_rows m n X : frob m n X = vlen m (fun i => vlen n (X i)).
Proof. unfold frob, vlen at 1, dot. f_equal. apply Rs_ext. intros i Hi. rewrite vlen_sq. reflexivity. Qed.
Lemma frob_cols m n X : frob m n X = vlen n (fun j => vlen m (fun i => X i j)).
Proof. rewrite <- frob_trm. apply frob_rows. Qed.
Lemma frob_add m n X Y : (frob m n (fun i j => X i j + Y i j) <= frob m n X + frob m n Y)%R.
Proof.
  rewrite !frob_rows. eapply Rle_trans; [|apply vlen_tri]. apply vlen_le. intros i Hi. rewrite Rabs_pos_eq by apply vlen_pos. apply vlen_tri.
Qed.
Lemma frob_sub m n X Y : frob m n (fun i j => X i j - Y i j)%R = frob m n (fun i j => Y i j - X i j)%R.
Proof. unfold frob. f_equal. apply Rs_ext. intros i Hi. apply Rs_ext. intros j Hj. ring. Qed.
Lemma frob_diff m n X Y : (frob m n Y <= frob m n X + frob m n (fun i j => X i j - Y i j))%R.
Proof.
  rewrite frob_sub. eapply Rle_trans; [|apply frob_add]. right. apply frob_eq. intros. ring.
Qed.
Lemma frob_orth_l m n Q X : orthogonal m Q -> frob m n (mmul m Q X) = frob m n X.
Proof.
  intros H. rewrite !frob_cols. apply vlen_ext. intros j Hj. rewrite <- (vlen_orth m Q (fun i => X i j) H). reflexivity.
Qed.
Lemma frob_orth_r m n Q X : orthogonal n Q -> frob m n (mmul n X (trm Q)) = frob m n X.
Proof.
  intros H. rewrite <- frob_trm, <- (frob_trm m n X). rewrite <- (frob_orth_l n m Q (trm X) H). apply frob_eq. intros i j Hi Hj. rewrite trm_mmul. reflexivity.
Qed.
Lemma frob_col_le m n E X a b : 0 <= n -> (0 <= a)%R -> (0 <= b)%R ->
  (forall j, 0 <= j < n -> (vlen m (fun i => E i j) <= a * vlen m (fun i => X i j) + b)%R) -> (frob m n E <= a * frob m n X + IZR n * b)%R.
Proof.
  intros Hn Ha Hb H. rewrite !frob_cols. apply Rle_trans with (vlen n (fun j => a * vlen m (fun i => X i j) + b)%R).
  - apply vlen_le. intros j Hj. rewrite Rabs_pos_eq by apply vlen_pos. auto.
  - eapply Rle_trans; [apply vlen_tri|]. rewrite vlen_scal, (Rabs_pos_eq a) by auto. apply Rplus_le_compat_l. apply vlen_const; auto.
Qed.
Lemma frob_mul m p n X Y : (frob m n (mmul p X Y) <= frob m p X * frob p n Y)%R.
Proof.
  rewrite (frob_cols m n). rewrite (frob_cols p n Y). rewrite <- (Rabs_pos_eq (frob m p X)) by apply frob_pos. rewrite <- vlen_scal. apply vlen_le. intros j Hj.
  rewrite Rabs_pos_eq by apply vlen_pos. rewrite (frob_rows m p X).
  apply Rle_trans with (vlen m (fun i => vlen p (fun k => Y k j) * vlen p (X i))%R).
  - apply vlen_le. intros i Hi. unfold mmul. rewrite Rmult_comm. exact (vlen_dot p (X i) (fun k => Y k j)).
  - rewrite vlen_scal, Rabs_pos_eq by apply vlen_pos. rewrite Rmult_comm. right. reflexivity.
Qed.

(** ** Steps on both sides *)
Section Two.
Variables (eta om : R).
Hypothesis He : (0 <= eta)%R.
Hypothesis Ho : (0 <= om)%R.
Definition near (m n : Z) (Y0 : Z -> Z -> R) (s : Z) (L R Y : Z -> Z -> R) : Prop :=
  orthogonal m L /\ orthogonal n R /\
  (frob m n (fun i j => Y0 i j - mmul n (mmul m L Y) (trm R) i j) <= (gr eta s - 1) * frob m n Y0 + IZR s * gr eta s * om)%R.
Lemma near_0 m n Y : near m n Y 0 idm idm Y.
Proof.
  split; [apply orth_id|]. split; [apply orth_id|]. rewrite (frob_eq m n _ (fun _ _ => 0%R)).
  - unfold gr. cbn [Z.to_nat pow]. unfold frob. rewrite Rs_zero by (intros; apply Rs_zero; intros; ring). rewrite sqrt_0. lra.
  - intros i j Hi Hj. rewrite (mmul_ext n _ Y (trm idm) idm) by (intros; solve [apply mmul_1_l; auto|apply trm_idm]). rewrite mmul_1_r by auto. ring.
Qed.
Lemma sym_P m P : orthogonal m P -> (forall i j, P i j = P j i) -> meq m m (mmul m P P) idm.
Proof. intros [H _] S i j Hi Hj. rewrite <- H by auto. apply mmul_ext; auto. intros. unfold trm. auto. Qed.
Lemma near_left m n Y0 s L R Y P Y' : 0 <= s -> near m n Y0 s L R Y -> orthogonal m P -> (forall i j, P i j = P j i) ->
  (frob m n (fun i j => Y' i j - mmul m P Y i j) <= eta * frob m n Y + om)%R -> near m n Y0 (s + 1) (mmul m L P) R Y'.
Proof.
  intros Hs (OL & OR & H) OP SP HY. split; [apply orth_mmul; auto|]. split; auto.
  pose proof (err_step eta om He Ho s _ _ Hs (frob_pos m n Y0) H) as K. eapply Rle_trans; [|exact K]. clear K.
  set (D := fun i j => (mmul m P Y i j - Y' i j)%R).
  rewrite (frob_eq m n _ (fun i j => (Y0 i j - mmul n (mmul m L Y) (trm R) i j) + mmul n (mmul m L (mmul m P D)) (trm R) i j)%R).
  2:{ intros i j Hi Hj. assert (E : mmul n (mmul m L (mmul m P D)) (trm R) i j = (mmul n (mmul m L Y) (trm R) i j - mmul n (mmul m (mmul m L P) Y') (trm R) i j)%R); [|rewrite E; ring].
      unfold mmul at 1 4 6. rewrite <- Rs_minus. apply Rs_ext. intros k Hk. rewrite <- Rmult_minus_distr_r. f_equal.
      assert (ED : forall r, 0 <= r < m -> mmul m P D r k = (Y r k - mmul m P Y' r k)%R).
      { intros r Hr. transitivity (mmul m (mmul m P P) Y r k - mmul m P Y' r k)%R.
        - rewrite mmul_assoc. unfold mmul at 1 2 4. rewrite <- Rs_minus. apply Rs_ext. intros t Ht. unfold D. ring.
        - f_equal. rewrite (mmul_ext m _ idm _ Y) by (auto; intros; apply sym_P; auto). apply mmul_1_l. auto. }
      rewrite (mmul_ext m L L _ (fun r k => Y r k - mmul m P Y' r k)%R) by (auto; intros; apply ED; auto).
      rewrite mmul_assoc. unfold mmul at 1 3 4. rewrite <- Rs_minus. apply Rs_ext. intros r Hr. ring. }
  eapply Rle_trans; [apply frob_add|]. apply Rplus_le_compat_l. rewrite frob_orth_r, frob_orth_l, frob_orth_l by auto. unfold D. rewrite frob_sub.
  eapply Rle_trans; [exact HY|]. apply Rplus_le_compat_r. apply Rmult_le_compat_l; auto.
  pose proof (frob_diff m n Y0 (mmul n (mmul m L Y) (trm R))) as K. rewrite frob_orth_r, frob_orth_l in K by auto. exact K.
Qed.
Lemma near_trm m n Y0 s L R Y : near m n Y0 s L R Y -> near n m (trm Y0) s R L (trm Y).
Proof.
  intros (OL & OR & H). split; auto. split; auto. rewrite (frob_trm m n Y0). eapply Rle_trans; [|exact H]. right. rewrite <- frob_trm. apply frob_eq. intros i j Hi Hj.
  change (Y0 i j - mmul m (mmul n R (trm Y)) (trm L) j i = Y0 i j - mmul n (mmul m L Y) (trm R) i j)%R. f_equal. rewrite mmul_assoc.
  rewrite (mmul_ext n R R _ (trm (mmul m L Y))) by (auto; intros; rewrite trm_mmul; reflexivity). unfold mmul at 1 3, trm. apply Rs_ext. intros. apply Rmult_comm.
Qed.
Lemma near_right m n Y0 s L R Y P Y' : 0 <= s -> near m n Y0 s L R Y -> orthogonal n P -> (forall i j, P i j = P j i) ->
  (frob m n (fun i j => Y' i j - mmul n Y P i j) <= eta * frob m n Y + om)%R -> near m n Y0 (s + 1) L (mmul n R P) Y'.
Proof.
  intros Hs H OP SP HY. pose proof (near_left n m (trm Y0) s R L (trm Y) P (trm Y') Hs (near_trm _ _ _ _ _ _ _ H) OP SP) as K. apply near_trm in K; [exact K|].
  rewrite (frob_trm m n Y). eapply Rle_trans; [|exact HY]. right. rewrite <- frob_trm. apply frob_eq. intros i j Hi Hj. unfold trm. f_equal. unfold mmul. apply Rs_ext. intros k Hk. rewrite SP. ring.
Qed.
End Two.

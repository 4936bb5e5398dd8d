(** Householder reflections as real tables. *)
From Coq Require Import ZArith Reals Lra Lia Bool.
From Verif Require Import RSum Tri.
Open Scope Z_scope.

(** I + v v^T / c; a reflection when v^T v = -2 c. *)
Definition refl (v : Z -> R) (c : R) (i j : Z) : R := (idm i j + v i * v j / c)%R.
Definition norm2 (n : Z) (x : Z -> R) : R := dot n x x.

Lemma refl_sym v c i j : refl v c i j = refl v c j i.
Proof. unfold refl. rewrite idm_sym. unfold Rdiv. ring. Qed.
Lemma refl_l n v c A i j : 0 <= i < n -> mmul n (refl v c) A i j = (A i j + v i * Rs 0 n (fun r => v r * A r j) / c)%R.
Proof.
  intros Hi. unfold mmul, refl.
  rewrite (Rs_ext 0 n _ (fun k => idm i k * A k j + v i / c * (v k * A k j))%R) by (intros; unfold Rdiv; ring).
  rewrite Rs_plus. change (Rs 0 n (fun k => (idm i k * A k j)%R)) with (mmul n idm A i j). rewrite mmul_1_l by auto.
  rewrite Rs_scal_l. unfold Rdiv. ring.
Qed.
Lemma refl_r n v c A i j : 0 <= j < n -> mmul n A (refl v c) i j = (A i j + Rs 0 n (fun r => A i r * v r) / c * v j)%R.
Proof.
  intros Hj. unfold mmul, refl.
  rewrite (Rs_ext 0 n _ (fun k => A i k * idm k j + (A i k * v k) * (v j / c))%R) by (intros; unfold Rdiv; ring).
  rewrite Rs_plus. change (Rs 0 n (fun k => (A i k * idm k j)%R)) with (mmul n A idm i j). rewrite mmul_1_r by auto.
  rewrite Rs_scal_r. unfold Rdiv. ring.
Qed.
Lemma refl_vec n v c y i : 0 <= i < n -> mvec n (refl v c) y i = (y i + v i * Rs 0 n (fun r => v r * y r) / c)%R.
Proof. intros Hi. exact (refl_l n v c (fun k _ => y k) i 0 Hi). Qed.
Lemma sq0 n v : Rs 0 n (fun r => v r * v r)%R = 0%R -> forall i, 0 <= i < n -> v i = 0%R.
Proof.
  intros H i Hi. pose proof (Rs_eq0 0 n (fun r => v r * v r)%R ltac:(intros; nra) H i Hi) as E. cbn beta in E.
  destruct (Rmult_integral _ _ E); auto.
Qed.
Lemma refl_zero n v c : (forall i, 0 <= i < n -> v i = 0%R) -> meq n n (refl v c) idm.
Proof. intros H i j Hi Hj. unfold refl. rewrite H by auto. unfold Rdiv. ring. Qed.
Lemma refl_refl n v c : Rs 0 n (fun r => v r * v r)%R = (-2 * c)%R -> meq n n (mmul n (refl v c) (refl v c)) idm.
Proof.
  intros H i j Hi Hj. destruct (Req_dec c 0) as [->|Hc].
  - rewrite Rmult_0_r in H. pose proof (sq0 n v H) as Hv. rewrite (mmul_ext n _ idm _ idm) by (intros; apply (refl_zero n v 0); auto).
    apply mmul_1_l; auto.
  - rewrite refl_l by auto. unfold refl at 1.
    rewrite (Rs_ext 0 n _ (fun r => v r * idm r j + (v r * v r) * (v j / c))%R) by (intros; unfold refl, Rdiv; ring).
    rewrite Rs_plus. rewrite Rs_scal_r, H. rewrite (Rs_pick 0 n j) by (auto; intros; rewrite idm_diff by auto; ring). rewrite idm_same. field. auto.
Qed.
Lemma refl_orth n v c : Rs 0 n (fun r => v r * v r)%R = (-2 * c)%R -> orthogonal n (refl v c).
Proof.
  intros H. assert (E : meq n n (trm (refl v c)) (refl v c)) by (intros i j _ _; apply refl_sym).
  split; intros i j Hi Hj; rewrite <- (refl_refl n v c H i j Hi Hj); apply mmul_ext; intros; auto.
Qed.

(** Orthogonal tables preserve lengths. *)
Lemma orth_norm n Q x : orthogonal n Q -> norm2 n (mvec n Q x) = norm2 n x.
Proof.
  intros [H _]. unfold norm2, dot.
  transitivity (Rs 0 n (fun k => Rs 0 n (fun l => x l * (Q k l * mvec n Q x k)))%R).
  { apply Rs_ext. intros k Hk. unfold mvec at 1. rewrite <- Rs_scal_r. apply Rs_ext. intros. ring. }
  rewrite Rs_swap. apply Rs_ext. intros l Hl.
  rewrite (Rs_scal_l 0 n (x l) (fun k => Q k l * mvec n Q x k)%R). f_equal.
  change (Rs 0 n (fun k => Q k l * mvec n Q x k)%R) with (mvec n (trm Q) (mvec n Q x) l).
  rewrite <- mvec_mmul. rewrite (mvec_ext n _ idm _ x) by (auto; intros; apply H; auto). apply mvec_1. auto.
Qed.
Lemma norm2_ext n x y : (forall i, 0 <= i < n -> x i = y i) -> norm2 n x = norm2 n y.
Proof. intros H. apply Rs_ext. intros. rewrite !H by auto. auto. Qed.
Lemma norm2_nonneg n x : (0 <= norm2 n x)%R.
Proof. apply Rs_nonneg. intros. nra. Qed.
Lemma mvec_minus n A x y i : mvec n A (fun k => x k - y k)%R i = (mvec n A x i - mvec n A y i)%R.
Proof. unfold mvec. rewrite <- Rs_minus. apply Rs_ext. intros. ring. Qed.
Lemma mvec_zero n A x i : (forall k, 0 <= k < n -> x k = 0%R) -> mvec n A x i = 0%R.
Proof. intros H. apply Rs_zero. intros. rewrite H by auto. ring. Qed.

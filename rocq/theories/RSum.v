(** Finite sums and matrices of real numbers: the specification vocabulary of
    the exact-arithmetic properties. *)
From Coq Require Import ZArith Reals Lra Lia Psatz Bool.
Open Scope R_scope.

(** g lo + g (lo+1) + ... + g (hi-1) *)
Fixpoint Rsn (n : nat) (lo : Z) (g : Z -> R) : R :=
  match n with 0%nat => 0 | S n' => Rsn n' lo g + g (lo + Z.of_nat n')%Z end.
Definition Rs (lo hi : Z) (g : Z -> R) : R := Rsn (Z.to_nat (hi - lo)) lo g.

Lemma Rs_nil lo hi g : (hi <= lo)%Z -> Rs lo hi g = 0.
Proof. intros. unfold Rs. replace (Z.to_nat (hi - lo)) with 0%nat by lia. reflexivity. Qed.
Lemma Rs_last lo hi g : (lo <= hi)%Z -> Rs lo (hi + 1) g = Rs lo hi g + g hi.
Proof.
  intros. unfold Rs. replace (Z.to_nat (hi + 1 - lo)) with (S (Z.to_nat (hi - lo))) by lia. cbn [Rsn]. do 2 f_equal. lia.
Qed.
Lemma Rs_ind (P : Z -> Prop) lo hi : (lo <= hi)%Z -> P lo -> (forall k, (lo <= k < hi)%Z -> P k -> P (k + 1)%Z) -> P hi.
Proof.
  intros Hle H0 HS. assert (G : forall n, (Z.of_nat n <= hi - lo)%Z -> P (lo + Z.of_nat n)%Z).
  { induction n as [|n IH]; intros Hn; [replace (lo + Z.of_nat 0)%Z with lo by lia; auto|].
    replace (lo + Z.of_nat (S n))%Z with (lo + Z.of_nat n + 1)%Z by lia. apply HS; [lia|apply IH; lia]. }
  replace hi with (lo + Z.of_nat (Z.to_nat (hi - lo)))%Z by lia. apply G. lia.
Qed.
Ltac rs_ind lo hi := let H := fresh in
  destruct (Z_le_gt_dec lo hi) as [H|H]; [|rewrite !Rs_nil by lia; try lra];
  pattern hi; apply (Rs_ind _ lo hi H); [rewrite !Rs_nil by lia; try lra|]; clear H.

Lemma Rs_ext lo hi g h : (forall k, (lo <= k < hi)%Z -> g k = h k) -> Rs lo hi g = Rs lo hi h.
Proof.
  intros E. destruct (Z_le_gt_dec lo hi) as [H|H]; [|rewrite !Rs_nil by lia; auto].
  revert E. apply (Rs_ind (fun hi => (forall k, (lo <= k < hi)%Z -> g k = h k) -> Rs lo hi g = Rs lo hi h) lo hi H).
  - intros _. rewrite !Rs_nil by lia. auto.
  - intros k Hk IH E. rewrite !Rs_last by lia. rewrite IH, E by (intros; try apply E; lia). auto.
Qed.
Lemma Rs_zero lo hi g : (forall k, (lo <= k < hi)%Z -> g k = 0) -> Rs lo hi g = 0.
Proof.
  intros E. rewrite (Rs_ext lo hi g (fun _ => 0) E). clear E. rs_ind lo hi. intros k Hk IH. rewrite Rs_last by lia. lra.
Qed.
Lemma Rs_plus lo hi g h : Rs lo hi (fun k => g k + h k) = Rs lo hi g + Rs lo hi h.
Proof. rs_ind lo hi. intros k Hk IH. rewrite !Rs_last by lia. lra. Qed.
Lemma Rs_minus lo hi g h : Rs lo hi (fun k => g k - h k) = Rs lo hi g - Rs lo hi h.
Proof. rs_ind lo hi. intros k Hk IH. rewrite !Rs_last by lia. lra. Qed.
Lemma Rs_opp lo hi g : Rs lo hi (fun k => - g k) = - Rs lo hi g.
Proof. rs_ind lo hi. intros k Hk IH. rewrite !Rs_last by lia. lra. Qed.
Lemma Rs_scal_l lo hi c g : Rs lo hi (fun k => c * g k) = c * Rs lo hi g.
Proof. rs_ind lo hi. intros k Hk IH. rewrite !Rs_last by lia. rewrite IH. ring. Qed.
Lemma Rs_scal_r lo hi c g : Rs lo hi (fun k => g k * c) = Rs lo hi g * c.
Proof. rs_ind lo hi. intros k Hk IH. rewrite !Rs_last by lia. rewrite IH. ring. Qed.
Lemma Rs_split lo mid hi g : (lo <= mid <= hi)%Z -> Rs lo hi g = Rs lo mid g + Rs mid hi g.
Proof.
  intros [H1 H2]. revert H1. apply (Rs_ind (fun hi => (lo <= mid)%Z -> Rs lo hi g = Rs lo mid g + Rs mid hi g) mid hi H2).
  - intros _. rewrite (Rs_nil mid mid) by lia. lra.
  - intros k Hk IH H. rewrite !Rs_last by lia. rewrite IH by auto. lra.
Qed.
Lemma Rs_first lo hi g : (lo < hi)%Z -> Rs lo hi g = g lo + Rs (lo + 1) hi g.
Proof.
  intros H. rewrite (Rs_split lo (lo + 1) hi) by lia. rewrite Rs_last, Rs_nil by lia. lra.
Qed.
Lemma Rs_shift lo hi d g : Rs lo hi (fun k => g (k + d)%Z) = Rs (lo + d) (hi + d) g.
Proof.
  destruct (Z_le_gt_dec lo hi) as [H|H]; [|rewrite !Rs_nil by lia; auto].
  apply (Rs_ind (fun hi => Rs lo hi (fun k => g (k + d)%Z) = Rs (lo + d) (hi + d) g) lo hi H).
  - rewrite !Rs_nil by lia. auto.
  - intros k Hk IH. rewrite Rs_last by lia. replace (k + 1 + d)%Z with (k + d + 1)%Z by lia. rewrite Rs_last by lia. rewrite IH. auto.
Qed.
Lemma Rs_swap lo hi lo' hi' (g : Z -> Z -> R) :
  Rs lo hi (fun i => Rs lo' hi' (fun j => g i j)) = Rs lo' hi' (fun j => Rs lo hi (fun i => g i j)).
Proof.
  destruct (Z_le_gt_dec lo hi) as [H|H].
  - apply (Rs_ind (fun hi => Rs lo hi (fun i => Rs lo' hi' (fun j => g i j)) = Rs lo' hi' (fun j => Rs lo hi (fun i => g i j))) lo hi H).
    + rewrite Rs_nil by lia. symmetry. apply Rs_zero. intros. apply Rs_nil. lia.
    + intros k Hk IH. rewrite Rs_last by lia. rewrite IH, <- Rs_plus. apply Rs_ext. intros j Hj. rewrite Rs_last by lia. auto.
  - rewrite Rs_nil by lia. symmetry. apply Rs_zero. intros. apply Rs_nil. lia.
Qed.
Lemma Rs_pick lo hi k g : (lo <= k < hi)%Z -> (forall i, (lo <= i < hi)%Z -> i <> k -> g i = 0) -> Rs lo hi g = g k.
Proof.
  intros Hk Hz. rewrite (Rs_split lo k hi) by lia. rewrite (Rs_zero lo k) by (intros; apply Hz; lia).
  rewrite (Rs_first k hi) by lia. rewrite (Rs_zero (k + 1) hi) by (intros; apply Hz; lia). lra.
Qed.
Lemma Rs_trunc lo mid hi g : (lo <= mid <= hi)%Z -> (forall k, (mid <= k < hi)%Z -> g k = 0) -> Rs lo hi g = Rs lo mid g.
Proof. intros H Hz. rewrite (Rs_split lo mid hi) by auto. rewrite (Rs_zero mid hi) by auto. lra. Qed.
Lemma Rs_low lo mid hi g : (lo <= mid <= hi)%Z -> (forall k, (lo <= k < mid)%Z -> g k = 0) -> Rs lo hi g = Rs mid hi g.
Proof. intros H Hz. rewrite (Rs_split lo mid hi) by auto. rewrite (Rs_zero lo mid) by auto. lra. Qed.
Lemma Rs_le lo hi g h : (forall k, (lo <= k < hi)%Z -> g k <= h k) -> Rs lo hi g <= Rs lo hi h.
Proof.
  intros E. destruct (Z_le_gt_dec lo hi) as [H|H]; [|rewrite !Rs_nil by lia; lra].
  revert E. apply (Rs_ind (fun hi => (forall k, (lo <= k < hi)%Z -> g k <= h k) -> Rs lo hi g <= Rs lo hi h) lo hi H).
  - intros _. rewrite !Rs_nil by lia. lra.
  - intros k Hk IH E. rewrite !Rs_last by lia. specialize (IH ltac:(intros; apply E; lia)). pose proof (E k ltac:(lia)). lra.
Qed.
Lemma Rs_nonneg lo hi g : (forall k, (lo <= k < hi)%Z -> 0 <= g k) -> 0 <= Rs lo hi g.
Proof. intros E. rewrite <- (Rs_zero lo hi (fun _ => 0)) by auto. apply Rs_le. auto. Qed.
Lemma Rs_term lo hi g k : (lo <= k < hi)%Z -> (forall k, (lo <= k < hi)%Z -> 0 <= g k) -> g k <= Rs lo hi g.
Proof.
  intros Hk E. rewrite (Rs_split lo k hi) by lia. rewrite (Rs_first k hi) by lia.
  pose proof (Rs_nonneg lo k g ltac:(intros; apply E; lia)). pose proof (Rs_nonneg (k + 1) hi g ltac:(intros; apply E; lia)). lra.
Qed.
Lemma Rs_eq0 lo hi g : (forall k, (lo <= k < hi)%Z -> 0 <= g k) -> Rs lo hi g = 0 -> forall k, (lo <= k < hi)%Z -> g k = 0.
Proof. intros E H k Hk. pose proof (Rs_term lo hi g k Hk E). pose proof (E k Hk). lra. Qed.
Lemma Rs_abs lo hi g : Rabs (Rs lo hi g) <= Rs lo hi (fun k => Rabs (g k)).
Proof.
  destruct (Z_le_gt_dec lo hi) as [H|H]; [|rewrite !Rs_nil by lia; rewrite Rabs_R0; lra].
  apply (Rs_ind (fun hi => Rabs (Rs lo hi g) <= Rs lo hi (fun k => Rabs (g k))) lo hi H).
  - rewrite !Rs_nil by lia; rewrite Rabs_R0; lra.
  - intros k Hk IH. rewrite !Rs_last by lia. eapply Rle_trans; [apply Rabs_triang|]. lra.
Qed.

(** ** Vectors and matrices as functions *)
Definition dot (n : Z) (x y : Z -> R) : R := Rs 0 n (fun k => x k * y k).
Definition mmul (n : Z) (A B : Z -> Z -> R) (i j : Z) : R := Rs 0 n (fun k => A i k * B k j).
Definition mvec (n : Z) (A : Z -> Z -> R) (x : Z -> R) (i : Z) : R := Rs 0 n (fun k => A i k * x k).
Definition idm (i j : Z) : R := if (i =? j)%Z then 1 else 0.
Definition trm (A : Z -> Z -> R) (i j : Z) : R := A j i.
(** Equal on the r by c range. *)
Definition meq (r c : Z) (A B : Z -> Z -> R) : Prop := forall i j, (0 <= i < r)%Z -> (0 <= j < c)%Z -> A i j = B i j.
(** Q^T Q = I and Q Q^T = I *)
Definition orthogonal (n : Z) (Q : Z -> Z -> R) : Prop :=
  meq n n (mmul n (trm Q) Q) idm /\ meq n n (mmul n Q (trm Q)) idm.
Fixpoint mpow (n : Z) (A : Z -> Z -> R) (p : nat) : Z -> Z -> R :=
  match p with 0%nat => idm | S p => mmul n (mpow n A p) A end.

Lemma dot_comm n x y : dot n x y = dot n y x.
Proof. apply Rs_ext. intros. ring. Qed.
Lemma idm_same i : idm i i = 1.
Proof. unfold idm. rewrite Z.eqb_refl. auto. Qed.
Lemma idm_diff i j : i <> j -> idm i j = 0.
Proof. unfold idm. intros. destruct (Z.eqb_spec i j); [contradiction|auto]. Qed.
Lemma idm_sym i j : idm i j = idm j i.
Proof. unfold idm. rewrite Z.eqb_sym. auto. Qed.
Lemma mmul_assoc n m A B C i j : mmul m (mmul n A B) C i j = mmul n A (mmul m B C) i j.
Proof.
  unfold mmul. transitivity (Rs 0 m (fun k => Rs 0 n (fun l => A i l * B l k * C k j))).
  - apply Rs_ext. intros k _. rewrite <- Rs_scal_r. auto.
  - rewrite Rs_swap. apply Rs_ext. intros l _. rewrite <- Rs_scal_l. apply Rs_ext. intros; ring.
Qed.
Lemma mmul_ext n A A' B B' i j : (forall k, (0 <= k < n)%Z -> A i k = A' i k) -> (forall k, (0 <= k < n)%Z -> B k j = B' k j) ->
  mmul n A B i j = mmul n A' B' i j.
Proof. intros H1 H2. apply Rs_ext. intros k Hk. rewrite H1, H2 by auto. auto. Qed.
Lemma mmul_1_l n A i j : (0 <= i < n)%Z -> mmul n idm A i j = A i j.
Proof.
  intros Hi. unfold mmul. rewrite (Rs_pick 0 n i); auto; [rewrite idm_same; lra|].
  intros k Hk Hne. rewrite idm_diff by auto. lra.
Qed.
Lemma mmul_1_r n A i j : (0 <= j < n)%Z -> mmul n A idm i j = A i j.
Proof.
  intros Hi. unfold mmul. rewrite (Rs_pick 0 n j); auto; [rewrite idm_same; lra|].
  intros k Hk Hne. rewrite idm_diff by auto. lra.
Qed.
Lemma trm_mmul n A B i j : trm (mmul n A B) i j = mmul n (trm B) (trm A) i j.
Proof. unfold trm, mmul. apply Rs_ext. intros; ring. Qed.
Lemma trm_idm i j : trm idm i j = idm i j.
Proof. unfold trm. apply idm_sym. Qed.
Lemma meq_refl r c A : meq r c A A. Proof. intros i j _ _. auto. Qed.
Lemma meq_sym r c A B : meq r c A B -> meq r c B A. Proof. intros H i j Hi Hj. symmetry. auto. Qed.
Lemma meq_trans r c A B C : meq r c A B -> meq r c B C -> meq r c A C.
Proof. intros H1 H2 i j Hi Hj. rewrite H1; auto. Qed.
Lemma meq_mmul r n c A A' B B' : meq r n A A' -> meq n c B B' -> meq r c (mmul n A B) (mmul n A' B').
Proof. intros HA HB i j Hi Hj. apply mmul_ext; intros; [apply HA|apply HB]; auto. Qed.
Lemma meq_tr r c A B : meq r c A B -> meq c r (trm A) (trm B).
Proof. intros H i j Hi Hj. unfold trm. auto. Qed.
Lemma mvec_mmul n m A B x i : mvec m (mmul n A B) x i = mvec n A (mvec m B x) i.
Proof. exact (mmul_assoc n m A B (fun k _ => x k) i 0). Qed.
Lemma mvec_1 n x i : (0 <= i < n)%Z -> mvec n idm x i = x i.
Proof. intros H. exact (mmul_1_l n (fun k _ => x k) i 0 H). Qed.
Lemma mvec_ext n A A' x x' i : (forall k, (0 <= k < n)%Z -> A i k = A' i k) -> (forall k, (0 <= k < n)%Z -> x k = x' k) -> mvec n A x i = mvec n A' x' i.
Proof. intros H1 H2. apply Rs_ext. intros k Hk. rewrite H1, H2 by auto. auto. Qed.

Lemma orth_id n : orthogonal n idm.
Proof. split; intros i j Hi Hj; [rewrite mmul_1_r by auto|rewrite mmul_1_l by auto]; apply trm_idm. Qed.
Lemma orth_mmul n A B : orthogonal n A -> orthogonal n B -> orthogonal n (mmul n A B).
Proof.
  intros [A1 A2] [B1 B2]. split.
  - intros i j Hi Hj. rewrite (mmul_ext n _ (mmul n (trm B) (trm A)) _ (mmul n A B)) by (intros; auto using trm_mmul).
    rewrite mmul_assoc. rewrite <- (B1 i j Hi Hj). apply mmul_ext; auto. intros k Hk. rewrite <- mmul_assoc.
    rewrite (mmul_ext n _ idm _ B) by (intros; auto). apply mmul_1_l; auto.
  - intros i j Hi Hj. rewrite (mmul_ext n _ (mmul n A B) _ (mmul n (trm B) (trm A))) by (intros; auto using trm_mmul).
    rewrite mmul_assoc. rewrite <- (A2 i j Hi Hj). apply mmul_ext; auto. intros k Hk. rewrite <- mmul_assoc.
    rewrite (mmul_ext n _ idm _ (trm A)) by (intros; auto). apply mmul_1_l; auto.
Qed.
Lemma orth_tr n A : orthogonal n A -> orthogonal n (trm A).
Proof. intros [A1 A2]. split; auto. Qed.
Lemma orth_ext n A B : orthogonal n A -> meq n n A B -> orthogonal n B.
Proof.
  intros [A1 A2] E. split; intros i j Hi Hj.
  - rewrite <- (A1 i j Hi Hj). symmetry. apply mmul_ext; intros; unfold trm; auto.
  - rewrite <- (A2 i j Hi Hj). symmetry. apply mmul_ext; intros; unfold trm; auto.
Qed.
Lemma mpow_add n A p q : meq n n (mpow n A (p + q)) (mmul n (mpow n A p) (mpow n A q)).
Proof.
  induction q as [|q IH]; intros i j Hi Hj.
  - rewrite Nat.add_0_r. cbn [mpow]. rewrite mmul_1_r; auto.
  - rewrite Nat.add_succ_r. cbn [mpow]. rewrite <- mmul_assoc. apply mmul_ext; auto.
Qed.

(** The Frobenius norm of real tables, plane rotations, tridiagonal tables. *)
From Coq Require Import ZArith Reals Lra Lia Psatz Bool.
From Verif Require Import RSum Tri House.
Open Scope Z_scope.

Definition madd (A B : Z -> Z -> R) (i j : Z) : R := (A i j + B i j)%R.
Definition msub (A B : Z -> Z -> R) (i j : Z) : R := (A i j - B i j)%R.
Definition ip (n : Z) (A B : Z -> Z -> R) : R := Rs 0 n (fun i => Rs 0 n (fun j => A i j * B i j))%R.
(** sqrt (sum of the squares of the entries) *)
Definition nF (n : Z) (A : Z -> Z -> R) : R := sqrt (ip n A A).

Lemma ip_ext n A A' B B' : meq n n A A' -> meq n n B B' -> ip n A B = ip n A' B'.
Proof. intros H K. unfold ip. apply Rs_ext. intros i Hi. apply Rs_ext. intros j Hj. rewrite H, K by auto. auto. Qed.
Lemma nF_ext n A B : meq n n A B -> nF n A = nF n B.
Proof. intros H. unfold nF. f_equal. apply ip_ext; auto. Qed.
Lemma ip_sq n A : (0 <= ip n A A)%R.
Proof. unfold ip. apply Rs_nonneg. intros i Hi. apply Rs_nonneg. intros j Hj. nra. Qed.
Lemma nF_sq n A : (nF n A * nF n A = ip n A A)%R.
Proof. unfold nF. apply sqrt_sqrt, ip_sq. Qed.
Lemma nF_nonneg n A : (0 <= nF n A)%R.
Proof. apply sqrt_pos. Qed.
Lemma ip_lin n A B t : ip n (fun i j => A i j + t * B i j)%R (fun i j => A i j + t * B i j)%R = (ip n A A + 2 * t * ip n A B + t * t * ip n B B)%R.
Proof.
  unfold ip. rewrite <- (Rs_scal_l 0 n (2 * t)), <- (Rs_scal_l 0 n (t * t)), <- !Rs_plus. apply Rs_ext. intros i Hi.
  rewrite <- (Rs_scal_l 0 n (2 * t)), <- (Rs_scal_l 0 n (t * t)), <- !Rs_plus. apply Rs_ext. intros j Hj. ring.
Qed.
Lemma ip_cs n A B : (ip n A B * ip n A B <= ip n A A * ip n B B)%R.
Proof.
  pose proof (ip_sq n A) as Ha. pose proof (ip_sq n B) as Hb. set (a := ip n A A) in *. set (b := ip n B B) in *. set (c := ip n A B).
  assert (Q : forall t, (0 <= a + 2 * t * c + t * t * b)%R) by (intros t; unfold a, b, c; rewrite <- ip_lin; apply ip_sq).
  destruct (Req_dec b 0) as [E|E].
  - rewrite E in *. destruct (Req_dec c 0) as [->|Hc]; [lra|]. specialize (Q (- (a + 1) / (2 * c))%R).
    replace (a + 2 * (- (a + 1) / (2 * c)) * c + - (a + 1) / (2 * c) * (- (a + 1) / (2 * c)) * 0)%R with (-1)%R in Q by (field; auto). lra.
  - specialize (Q (- c / b)%R). replace (a + 2 * (- c / b) * c + - c / b * (- c / b) * b)%R with (a - c * c / b)%R in Q by (field; auto).
    apply (Rmult_le_compat_r b) in Q; [|auto]. replace ((a - c * c / b) * b)%R with (a * b - c * c)%R in Q by (field; auto). lra.
Qed.
Lemma ip_le_nF n A B : (ip n A B <= nF n A * nF n B)%R.
Proof.
  pose proof (ip_cs n A B) as H. rewrite <- !nF_sq in H. pose proof (nF_nonneg n A). pose proof (nF_nonneg n B).
  assert (0 <= nF n A * nF n B)%R by nra. destruct (Rle_dec (ip n A B) (nF n A * nF n B)); auto. exfalso. nra.
Qed.
Lemma nF_tri n A B : (nF n (madd A B) <= nF n A + nF n B)%R.
Proof.
  pose proof (nF_nonneg n A) as Ha. pose proof (nF_nonneg n B) as Hb. pose proof (ip_le_nF n A B) as H.
  apply Rsqr_incr_0_var; [|lra]. unfold Rsqr. rewrite nF_sq.
  replace (ip n (madd A B) (madd A B)) with (ip n A A + 2 * 1 * ip n A B + 1 * 1 * ip n B B)%R.
  - rewrite <- !nF_sq. nra.
  - rewrite <- ip_lin. apply ip_ext; intros i j _ _; unfold madd; ring.
Qed.
Lemma nF_opp n A : nF n (fun i j => - A i j)%R = nF n A.
Proof. unfold nF. f_equal. unfold ip. apply Rs_ext. intros. apply Rs_ext. intros. ring. Qed.
Lemma nF_sub_sym n A B : nF n (msub A B) = nF n (msub B A).
Proof. rewrite <- nF_opp. apply nF_ext. intros i j _ _. unfold msub. ring. Qed.
Lemma nF_sub_tri n A B C : (nF n (msub A C) <= nF n (msub A B) + nF n (msub B C))%R.
Proof.
  eapply Rle_trans; [|apply nF_tri]. apply Req_le, nF_ext. intros i j _ _. unfold madd, msub. ring.
Qed.
Lemma nF_le n A B : (nF n B <= nF n A + nF n (msub A B))%R.
Proof.
  rewrite nF_sub_sym. eapply Rle_trans; [|apply nF_tri]. apply Req_le, nF_ext. intros i j _ _. unfold madd, msub. ring.
Qed.
Lemma nF_entry n A i j : 0 <= i < n -> 0 <= j < n -> (Rabs (A i j) <= nF n A)%R.
Proof.
  intros Hi Hj. rewrite <- (sqrt_Rsqr_abs (A i j)). apply sqrt_le_1_alt. unfold Rsqr, ip.
  eapply Rle_trans; [|apply (Rs_term 0 n (fun i => Rs 0 n (fun j => A i j * A i j))%R i Hi)].
  - apply (Rs_term 0 n (fun j => A i j * A i j)%R j Hj). intros. nra.
  - intros. apply Rs_nonneg. intros. nra.
Qed.
Lemma nF_zero n : nF n (fun _ _ => 0%R) = 0%R.
Proof. unfold nF, ip. rewrite Rs_zero; [apply sqrt_0|]. intros. apply Rs_zero. intros. ring. Qed.
(** The norm is at most the sum of the absolute values. *)
Lemma sqsum_le lo hi (g : Z -> R) : (forall k, lo <= k < hi -> (0 <= g k)%R) -> (Rs lo hi (fun k => g k * g k) <= Rs lo hi g * Rs lo hi g)%R.
Proof.
  intros Hg. destruct (Z_le_gt_dec lo hi) as [H|H]; [|rewrite !Rs_nil by lia; lra].
  revert Hg. apply (Rs_ind (fun hi => (forall k, lo <= k < hi -> (0 <= g k)%R) -> (Rs lo hi (fun k => g k * g k) <= Rs lo hi g * Rs lo hi g)%R) lo hi H).
  - intros _. rewrite !Rs_nil by lia. lra.
  - intros k Hk IH Hg. rewrite !Rs_last by lia. specialize (IH ltac:(intros; apply Hg; lia)). pose proof (Hg k ltac:(lia)).
    assert (0 <= Rs lo k g)%R by (apply Rs_nonneg; intros; apply Hg; lia). nra.
Qed.
Lemma nF_l1 n A : (nF n A <= Rs 0 n (fun i => Rs 0 n (fun j => Rabs (A i j))))%R.
Proof.
  assert (P : forall i, (0 <= Rs 0 n (fun j => Rabs (A i j)))%R) by (intros; apply Rs_nonneg; intros; apply Rabs_pos).
  assert (P' : (0 <= Rs 0 n (fun i => Rs 0 n (fun j => Rabs (A i j))))%R) by (apply Rs_nonneg; intros; apply P).
  apply Rsqr_incr_0_var; auto. unfold Rsqr. rewrite nF_sq. unfold ip.
  eapply Rle_trans; [|apply sqsum_le; intros; apply P]. apply Rs_le. intros i Hi.
  eapply Rle_trans; [|apply sqsum_le; intros; apply Rabs_pos]. apply Req_le, Rs_ext. intros. rewrite <- Rabs_mult. rewrite Rabs_right; auto. nra.
Qed.

(** Orthogonal invariance. *)
Lemma ip_cols n A : ip n A A = Rs 0 n (fun j => norm2 n (fun i => A i j)).
Proof. unfold ip, norm2, dot. rewrite Rs_swap. auto. Qed.
Lemma ip_tr n A : ip n (trm A) (trm A) = ip n A A.
Proof. unfold ip, trm. rewrite Rs_swap. auto. Qed.
Lemma nF_tr n A : nF n (trm A) = nF n A.
Proof. unfold nF. rewrite ip_tr. auto. Qed.
Lemma nF_orth_l n Q A : orthogonal n Q -> nF n (mmul n Q A) = nF n A.
Proof.
  intros H. unfold nF. f_equal. rewrite !ip_cols. apply Rs_ext. intros j Hj. apply (orth_norm n Q (fun i => A i j) H).
Qed.
Lemma nF_orth_r n Q A : orthogonal n Q -> nF n (mmul n A Q) = nF n A.
Proof.
  intros H. rewrite <- nF_tr. rewrite (nF_ext n _ (mmul n (trm Q) (trm A))) by (intros i j _ _; apply trm_mmul).
  rewrite nF_orth_l by (apply orth_tr; auto). apply nF_tr.
Qed.
(** Q M Q^T *)
Definition conj (n : Z) (Q M : Z -> Z -> R) : Z -> Z -> R := mmul n (mmul n Q M) (trm Q).
Lemma conj_ext n Q Q' M M' : meq n n Q Q' -> meq n n M M' -> meq n n (conj n Q M) (conj n Q' M').
Proof. intros H K. apply meq_mmul; [apply meq_mmul; auto|apply meq_tr; auto]. Qed.
Lemma nF_conj n Q M : orthogonal n Q -> nF n (conj n Q M) = nF n M.
Proof. intros H. unfold conj. rewrite nF_orth_r by (apply orth_tr; auto). apply nF_orth_l; auto. Qed.
Lemma conj_sub n Q A B : meq n n (conj n Q (msub A B)) (msub (conj n Q A) (conj n Q B)).
Proof.
  intros i j Hi Hj. unfold conj, msub, mmul. rewrite <- Rs_minus. apply Rs_ext. intros k Hk.
  rewrite <- Rmult_minus_distr_r. f_equal. rewrite <- Rs_minus. apply Rs_ext. intros. ring.
Qed.
Lemma nF_conj_sub n Q A B : orthogonal n Q -> nF n (msub (conj n Q A) (conj n Q B)) = nF n (msub A B).
Proof. intros H. rewrite <- (nF_ext _ _ _ (conj_sub n Q A B)). apply nF_conj; auto. Qed.
Lemma conj_diag n Q D i j : 0 <= i < n -> 0 <= j < n -> conj n Q (fun a b => if a =? b then D a else 0%R) i j = Rs 0 n (fun k => Q i k * D k * Q j k)%R.
Proof.
  intros Hi Hj. unfold conj, mmul, trm. apply Rs_ext. intros k Hk. f_equal.
  rewrite (Rs_pick 0 n k) by solve [auto | intros r Hr Hne; destruct (Z.eqb_spec r k); [contradiction|ring]]. rewrite Z.eqb_refl. auto.
Qed.

(** ** Plane rotations *)
Definition rotc (s c : R) (i : Z) (A : Z -> Z -> R) (a b : Z) : R :=
  if b =? i + 1 then (s * A a i + c * A a (i + 1)%Z)%R else if b =? i then (c * A a i - s * A a (i + 1)%Z)%R else A a b.
Definition rotm (s c : R) (i : Z) : Z -> Z -> R := rotc s c i idm.
(** two terms of a sum *)
Lemma Rs_pick2 lo hi i j g : lo <= i < hi -> lo <= j < hi -> i <> j -> (forall k, lo <= k < hi -> k <> i -> k <> j -> g k = 0%R) -> Rs lo hi g = (g i + g j)%R.
Proof.
  intros Hi Hj Hne H. rewrite (Rs_ext lo hi g (fun k => (if k =? i then g i else 0) + (if k =? j then g j else 0))%R).
  - rewrite Rs_plus. rewrite (Rs_pick lo hi i) by solve [auto | intros k Hk Hk'; apply Z.eqb_neq in Hk'; rewrite Hk'; auto].
    rewrite (Rs_pick lo hi j) by solve [auto | intros k Hk Hk'; apply Z.eqb_neq in Hk'; rewrite Hk'; auto].
    rewrite !Z.eqb_refl. auto.
  - intros k Hk. destruct (Z.eqb_spec k i) as [E1|E1]; destruct (Z.eqb_spec k j) as [E2|E2]; [congruence|rewrite E1; lra|rewrite E2; lra|].
    rewrite H by auto. lra.
Qed.
Lemma rotc_mmul n s c i A a b : 0 <= i -> i + 1 < n -> 0 <= b < n -> mmul n A (rotm s c i) a b = rotc s c i A a b.
Proof.
  intros Hi Hn Hb. unfold mmul, rotm, rotc. destruct (Z.eqb_spec b (i + 1)) as [->|H1]; [|destruct (Z.eqb_spec b i) as [->|H2]].
  - rewrite (Rs_pick2 0 n i (i + 1)) by (try lia; intros; rewrite !idm_diff by lia; ring). rewrite !idm_same, !idm_diff by lia. ring.
  - rewrite (Rs_pick2 0 n i (i + 1)) by (try lia; intros; rewrite !idm_diff by lia; ring). rewrite !idm_same, !idm_diff by lia. ring.
  - rewrite (Rs_pick 0 n b) by (auto; intros; rewrite idm_diff by lia; ring). rewrite idm_same. ring.
Qed.
Lemma idm_if (a b : Z) : idm a b = if a =? b then 1%R else 0%R.
Proof. reflexivity. Qed.
Lemma rotm_orth n s c i : 0 <= i -> i + 1 < n -> (s * s + c * c = 1)%R -> orthogonal n (rotm s c i).
Proof.
  intros Hi Hn H.
  assert (K : forall a b, 0 <= a < n -> 0 <= b < n -> mmul n (trm (rotm s c i)) (rotm s c i) a b = idm a b /\ mmul n (rotm s c i) (trm (rotm s c i)) a b = idm a b).
  { intros a b Ha Hb. split.
    - rewrite rotc_mmul by auto. unfold rotc, trm, rotm, rotc. rewrite !idm_if.
      repeat match goal with |- context [?x =? ?y] => destruct (Z.eqb_spec x y); try (exfalso; lia) end; lra.
    - change (trm (rotm s c i)) with (fun p q => rotm s c i q p). unfold mmul.
      destruct (Z.eq_dec a i) as [->|H1]; [|destruct (Z.eq_dec a (i + 1)) as [->|H2]].
      1,2: rewrite (Rs_pick2 0 n i (i + 1)) by (try lia; intros; unfold rotm, rotc; rewrite !idm_if;
        repeat match goal with |- context [?x =? ?y] => destruct (Z.eqb_spec x y); try (exfalso; lia) end; lra);
        unfold rotm, rotc; rewrite !idm_if; repeat match goal with |- context [?x =? ?y] => destruct (Z.eqb_spec x y); try (exfalso; lia) end; lra.
      rewrite (Rs_pick 0 n a) by (try lia; intros; unfold rotm, rotc; rewrite !idm_if;
        repeat match goal with |- context [?x =? ?y] => destruct (Z.eqb_spec x y); try (exfalso; lia) end; lra).
      unfold rotm, rotc; rewrite !idm_if; repeat match goal with |- context [?x =? ?y] => destruct (Z.eqb_spec x y); try (exfalso; lia) end; lra. }
  split; intros a b Ha Hb; apply K; auto.
Qed.
(** The rotation of the columns of Z is undone by the rotation of M. *)
Lemma conj_orth_step n Q W M : orthogonal n W -> meq n n (conj n (mmul n Q W) (mmul n (mmul n (trm W) M) W)) (conj n Q M).
Proof.
  intros [O1 O2] i j Hi Hj. unfold conj.
  assert (E1 : forall a b, 0 <= a < n -> 0 <= b < n -> mmul n (mmul n Q W) (mmul n (mmul n (trm W) M) W) a b = mmul n (mmul n Q M) W a b).
  { intros a b Ha Hb. rewrite <- mmul_assoc. apply mmul_ext; auto. intros k Hk. rewrite mmul_assoc. apply mmul_ext; auto. intros l Hl.
    rewrite <- mmul_assoc. rewrite (mmul_ext n _ idm M M) by (auto; intros; apply O2; auto). apply mmul_1_l; auto. }
  rewrite (mmul_ext n _ (mmul n (mmul n Q M) W) _ (mmul n (trm W) (trm Q))); [| |].
  - rewrite mmul_assoc. apply mmul_ext; auto. intros k Hk. rewrite <- mmul_assoc. rewrite (mmul_ext n _ idm (trm Q) (trm Q)) by (auto; intros; apply O2; auto). apply mmul_1_l; auto.
  - intros k Hk. apply E1; auto.
  - intros k Hk. apply trm_mmul.
Qed.
(** W^T M W for a rotation, entry by entry *)
Definition rot2 (s c : R) (i : Z) (M : Z -> Z -> R) : Z -> Z -> R := trm (rotc s c i (trm (rotc s c i M))).
Lemma rot2_mmul n s c i M : 0 <= i -> i + 1 < n -> meq n n (mmul n (mmul n (trm (rotm s c i)) M) (rotm s c i)) (rot2 s c i M).
Proof.
  intros Hi Hn a b Ha Hb. unfold rot2. rewrite mmul_assoc.
  transitivity (trm (mmul n (trm (mmul n M (rotm s c i))) (rotm s c i)) a b).
  - symmetry. rewrite trm_mmul. unfold trm. reflexivity.
  - unfold trm at 1. rewrite rotc_mmul by auto. unfold trm at 2. unfold rotc at 1 3. unfold trm.
    rewrite !rotc_mmul by lia. auto.
Qed.
Lemma conj_rot n s c i Q M : 0 <= i -> i + 1 < n -> (s * s + c * c = 1)%R -> meq n n (conj n (rotc s c i Q) (rot2 s c i M)) (conj n Q M).
Proof.
  intros Hi Hn H. eapply meq_trans; [|apply (conj_orth_step n Q (rotm s c i) M), rotm_orth; auto]. apply conj_ext.
  - intros a b Ha Hb. rewrite rotc_mmul by auto. auto.
  - apply meq_sym, rot2_mmul; auto.
Qed.
Lemma rotc_orth n s c i Q : 0 <= i -> i + 1 < n -> (s * s + c * c = 1)%R -> orthogonal n Q -> orthogonal n (rotc s c i Q).
Proof.
  intros Hi Hn H HQ. apply (orth_ext n (mmul n Q (rotm s c i))); [apply orth_mmul; auto; apply rotm_orth; auto|].
  intros a b Ha Hb. apply rotc_mmul; auto.
Qed.

(** ** Symmetric tridiagonal tables *)
Definition trid (D E : Z -> R) (i j : Z) : R := if i =? j then D i else if i =? j + 1 then E j else if j =? i + 1 then E i else 0%R.
Lemma trid_diag n D E : (forall k, 0 <= k < n - 1 -> E k = 0%R) -> meq n n (trid D E) (fun a b => if a =? b then D a else 0%R).
Proof.
  intros H i j Hi Hj. unfold trid. destruct (Z.eqb_spec i j); auto. destruct (Z.eqb_spec i (j + 1)); [apply H; lia|].
  destruct (Z.eqb_spec j (i + 1)); auto. apply H; lia.
Qed.
(** A perturbation of the diagonal and the secondary diagonal. *)
Lemma nF_trid_sub n D E D' E' : (nF n (msub (trid D E) (trid D' E')) <= Rs 0 n (fun i => Rabs (D i - D' i)) + 2 * Rs 0 (n - 1) (fun i => Rabs (E i - E' i)))%R.
Proof.
  eapply Rle_trans; [apply nF_l1|].
  rewrite (Rs_ext 0 n _ (fun i => Rs 0 n (fun j => (if j =? i then Rabs (D i - D' i) else 0) + ((if j =? i - 1 then Rabs (E (i - 1)%Z - E' (i - 1)%Z) else 0) + (if j =? i + 1 then Rabs (E i - E' i) else 0))))%R).
  2:{ intros i Hi. apply Rs_ext. intros j Hj. unfold msub, trid.
      repeat match goal with |- context [?x =? ?y] => destruct (Z.eqb_spec x y); try (exfalso; lia) end; subst;
      try (rewrite Rminus_diag_eq, Rabs_R0 by auto; lra); try lra.
      replace (j + 1 - 1) with j by lia. lra. }
  rewrite (Rs_ext 0 n _ (fun i => Rabs (D i - D' i) + ((if 1 <=? i then Rabs (E (i - 1)%Z - E' (i - 1)%Z) else 0) + (if i <? n - 1 then Rabs (E i - E' i) else 0)))%R).
  2:{ intros i Hi. rewrite !Rs_plus. f_equal; [rewrite (Rs_pick 0 n i), Z.eqb_refl by (auto; intros; destruct (Z.eqb_spec i0 i); lia || auto); auto|]. f_equal.
      - destruct (Z.leb_spec 1 i); [rewrite (Rs_pick 0 n (i - 1)), Z.eqb_refl by (try lia; intros k _ Hk; destruct (Z.eqb_spec k (i - 1)); lia || auto); auto|].
        apply Rs_zero. intros k Hk. destruct (Z.eqb_spec k (i - 1)); lia || auto.
      - destruct (Z.ltb_spec i (n - 1)); [rewrite (Rs_pick 0 n (i + 1)), Z.eqb_refl by (try lia; intros k _ Hk; destruct (Z.eqb_spec k (i + 1)); lia || auto); auto|].
        apply Rs_zero. intros k Hk. destruct (Z.eqb_spec k (i + 1)); lia || auto. }
  rewrite !Rs_plus. apply Rplus_le_compat_l. destruct (Z_le_gt_dec n 0) as [H0|H0]; [rewrite !Rs_nil by lia; lra|].
  replace (2 * Rs 0 (n - 1) (fun i => Rabs (E i - E' i)))%R with (Rs 0 (n - 1) (fun i => Rabs (E i - E' i)) + Rs 0 (n - 1) (fun i => Rabs (E i - E' i)))%R by ring.
  apply Rplus_le_compat.
  - rewrite (Rs_low 0 1 n) by (try lia; intros k Hk; destruct (Z.leb_spec 1 k); lia || auto). apply Req_le.
    transitivity (Rs (0 + 1) (n - 1 + 1) (fun i => Rabs (E (i - 1)%Z - E' (i - 1)%Z))%R).
    + replace (n - 1 + 1) with n by lia. apply Rs_ext. intros k Hk. destruct (Z.leb_spec 1 k); lia || auto.
    + rewrite <- Rs_shift. apply Rs_ext. intros k Hk. replace (k + 1 - 1) with k by lia. auto.
  - rewrite (Rs_trunc 0 (n - 1) n) by (try lia; intros k Hk; destruct (Z.ltb_spec k (n - 1)); lia || auto). apply Req_le, Rs_ext.
    intros k Hk. destruct (Z.ltb_spec k (n - 1)); lia || auto.
Qed.

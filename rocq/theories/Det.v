(** Determinants of real tables by expansion along the first column, and their
    behaviour under row operations. *)
From Coq Require Import ZArith List Lia Bool Reals Lra.
From Verif Require Import RSum.
Open Scope Z_scope.

Definition altsign (i : Z) : R := if Z.even i then 1%R else (-1)%R.
(** Row [i] and column 0 removed. *)
Definition minor (i : Z) (A : Z -> Z -> R) : Z -> Z -> R := fun p q => A (if p <? i then p else p + 1) (q + 1).
Fixpoint detn (n : nat) (A : Z -> Z -> R) : R :=
  match n with
  | 0%nat => 1%R
  | S k => Rs 0 (Z.of_nat n) (fun i => altsign i * A i 0%Z * detn k (minor i A))%R
  end.
Definition det (n : Z) (A : Z -> Z -> R) : R := detn (Z.to_nat n) A.

Definition setrow (A : Z -> Z -> R) (k : Z) (v : Z -> R) : Z -> Z -> R := fun i j => if i =? k then v j else A i j.

Ltac zb' := repeat match goal with
  | |- context [?a =? ?b] => destruct (Z.eqb_spec a b)
  | |- context [?a <? ?b] => destruct (Z.ltb_spec a b)
  | |- context [?a <=? ?b] => destruct (Z.leb_spec a b)
  end; try lia.

Lemma detn_ext n A B : meq (Z.of_nat n) (Z.of_nat n) A B -> detn n A = detn n B.
Proof.
  revert A B. induction n as [|n IH]; intros A B H; cbn [detn]; auto. apply Rs_ext. intros i Hi. rewrite (H i 0) by lia. f_equal.
  apply IH. intros p q Hp Hq. unfold minor. apply H; zb'.
Qed.
Lemma minor_setrow_same A k v n : meq n n (minor k (setrow A k v)) (minor k A).
Proof. intros p q Hp Hq. unfold minor, setrow. zb'; auto. Qed.
Lemma minor_setrow_lt A i k v n : k < i -> meq n n (minor i (setrow A k v)) (setrow (minor i A) k (fun q => v (q + 1))).
Proof. intros Hk p q Hp Hq. unfold minor, setrow. zb'; auto. Qed.
Lemma minor_setrow_gt A i k v n : i < k -> meq n n (minor i (setrow A k v)) (setrow (minor i A) (k - 1) (fun q => v (q + 1))).
Proof. intros Hk p q Hp Hq. unfold minor, setrow. zb'; auto. Qed.

Lemma setrow_other A k v i j : i <> k -> setrow A k v i j = A i j.
Proof. intros. unfold setrow. zb'. auto. Qed.

Lemma detn_row_add n A k u v : 0 <= k < Z.of_nat n ->
  detn n (setrow A k (fun j => u j + v j)%R) = (detn n (setrow A k u) + detn n (setrow A k v))%R.
Proof.
  revert A k u v. induction n as [|n IH]; intros A k u v Hk; [lia|]. cbn [detn]. rewrite <- Rs_plus. apply Rs_ext. intros i Hi.
  destruct (Z.lt_total i k) as [H|[->|H]].
  - rewrite !(detn_ext n _ _ (minor_setrow_gt A i k _ _ H)). rewrite IH by lia. rewrite !setrow_other by lia. ring.
  - rewrite !(detn_ext n _ _ (minor_setrow_same A k _ _)). unfold setrow. zb'. ring.
  - rewrite !(detn_ext n _ _ (minor_setrow_lt A i k _ _ H)). rewrite IH by lia. rewrite !setrow_other by lia. ring.
Qed.
Lemma detn_row_scal n A k c v : 0 <= k < Z.of_nat n -> detn n (setrow A k (fun j => c * v j)%R) = (c * detn n (setrow A k v))%R.
Proof.
  revert A k v. induction n as [|n IH]; intros A k v Hk; [lia|]. cbn [detn]. rewrite <- Rs_scal_l. apply Rs_ext. intros i Hi.
  destruct (Z.lt_total i k) as [H|[->|H]].
  - rewrite !(detn_ext n _ _ (minor_setrow_gt A i k _ _ H)). rewrite IH by lia. rewrite !setrow_other by lia. ring.
  - rewrite !(detn_ext n _ _ (minor_setrow_same A k _ _)). unfold setrow. zb'. ring.
  - rewrite !(detn_ext n _ _ (minor_setrow_lt A i k _ _ H)). rewrite IH by lia. rewrite !setrow_other by lia. ring.
Qed.
Lemma altsign_succ k : altsign (k + 1) = (- altsign k)%R.
Proof. unfold altsign. rewrite Z.add_1_r, Z.even_succ, <- Z.negb_even. destruct (Z.even k); cbn; lra. Qed.
Lemma detn_adjacent n A k : 0 <= k -> k + 1 < Z.of_nat n -> (forall j, A k j = A (k + 1) j) -> detn n A = 0%R.
Proof.
  revert A k. induction n as [|n IH]; intros A k Hk0 Hk E; [lia|]. cbn [detn].
  rewrite (Rs_split 0 k) by lia. rewrite (Rs_split k (k + 1 + 1)) by lia.
  rewrite (Rs_zero 0 k), (Rs_zero (k + 1 + 1)).
  - rewrite !Rs_last, Rs_nil by lia. rewrite altsign_succ, <- E. rewrite (detn_ext n (minor (k + 1) A) (minor k A)); [ring|].
    intros p q Hp Hq. unfold minor. zb'; auto. replace p with k by lia. symmetry. auto.
  - intros i Hi. rewrite (IH (minor i A) k); [ring|lia|lia|]. intros j. unfold minor. zb'. apply E.
  - intros i Hi. rewrite (IH (minor i A) (k - 1)); [ring|lia|lia|]. intros j. unfold minor. zb'. replace (k - 1 + 1) with k by lia. apply E.
Qed.

(** Two rows as arguments. *)
Definition setrow2 A k l u v := setrow (setrow A k u) l v.
Lemma setrow2_swap n A k l u v : k <> l -> meq n n (setrow2 A k l u v) (setrow2 A l k v u).
Proof. intros H p q _ _. unfold setrow2, setrow. zb'; auto; congruence. Qed.
Lemma detn_alt_swap n A k l u v : 0 <= k < Z.of_nat n -> 0 <= l < Z.of_nat n -> k <> l ->
  (forall w, detn n (setrow2 A k l w w) = 0%R) -> detn n (setrow2 A k l u v) = (- detn n (setrow2 A k l v u))%R.
Proof.
  intros Hk Hl Hkl H. pose proof (H (fun j => u j + v j)%R) as E. unfold setrow2 in E.
  rewrite (detn_row_add n _ l u v) in E by auto.
  assert (S2 : forall w, detn n (setrow (setrow A k (fun j => u j + v j)%R) l w) = (detn n (setrow2 A k l u w) + detn n (setrow2 A k l v w))%R).
  { intros w. etransitivity; [apply (detn_ext n _ _ (setrow2_swap _ A k l _ w Hkl))|]. unfold setrow2 at 1. rewrite (detn_row_add n _ k u v) by auto.
    f_equal; apply detn_ext; apply setrow2_swap; auto. }
  rewrite !S2 in E. rewrite !H in E. lra.
Qed.
Lemma setrow2_id n A k l u v : (forall j, 0 <= j < n -> A k j = u j) -> (forall j, 0 <= j < n -> A l j = v j) -> meq n n A (setrow2 A k l u v).
Proof. intros Hu Hv p q Hp Hq. unfold setrow2, setrow. zb'; subst; auto. Qed.
Lemma detn_equal_rows n A k l : 0 <= k -> k < l < Z.of_nat n -> (forall j, A k j = A l j) -> detn n A = 0%R.
Proof.
  intros Hk Hl. remember (Z.to_nat (l - k)) as d eqn:Ed. revert A k l Ed Hk Hl.
  induction d as [|d IH]; intros A k l Ed Hk Hl E; [lia|]. destruct (Z.eq_dec l (k + 1)) as [->|Hne]; [eapply detn_adjacent; eauto; lia|].
  assert (Adj : forall w, detn n (setrow2 A (l - 1) l w w) = 0%R).
  { intros w. apply (detn_adjacent n _ (l - 1)); try lia. intros j. unfold setrow2, setrow. zb'; auto. }
  rewrite (detn_ext n A (setrow2 A (l - 1) l (A (l - 1)) (A l))) by (apply setrow2_id; auto).
  rewrite detn_alt_swap by (auto; lia). rewrite (IH _ k (l - 1)); [lra|lia|lia|lia|]. intros j. unfold setrow2, setrow. zb'. apply E.
Qed.
Lemma detn_swap_rows n A k l : 0 <= k < Z.of_nat n -> 0 <= l < Z.of_nat n -> k <> l ->
  detn n (setrow2 A k l (A l) (A k)) = (- detn n A)%R.
Proof.
  intros Hk Hl Hkl. rewrite detn_alt_swap; auto.
  - f_equal. apply detn_ext. apply meq_sym. apply setrow2_id; auto.
  - intros w. destruct (Z.lt_total k l) as [H|[H|H]]; [|lia|].
    + apply (detn_equal_rows n _ k l); try lia. intros j. unfold setrow2, setrow. zb'; auto.
    + apply (detn_equal_rows n _ l k); try lia. intros j. unfold setrow2, setrow. zb'; auto.
Qed.
(** Adding to a row multiples of other rows. *)
Lemma detn_row_combine n A k v (c : Z -> R) s : 0 <= k < Z.of_nat n -> 0 <= s <= k ->
  detn n (setrow A k (fun j => v j + Rs 0 s (fun t => c t * A t j))%R) = detn n (setrow A k v).
Proof.
  intros Hk Hs. assert (Hs0 : 0 <= s) by lia. revert Hs. pattern s. apply Z_lt_induction; [|exact Hs0]. clear s Hs0. intros s IH Hs. destruct (Z.eq_dec s 0) as [->|].
  - apply detn_ext. intros p q Hp Hq. unfold setrow. zb'; auto. rewrite Rs_nil by lia. lra.
  - rewrite (detn_ext n _ (setrow A k (fun j => (v j + Rs 0 (s - 1)%Z (fun t => c t * A t j)) + c (s - 1)%Z * A (s - 1)%Z j)%R)).
    + rewrite detn_row_add by auto. rewrite IH by lia. rewrite (detn_row_scal n A k (c (s - 1)) (A (s - 1))) by auto.
      rewrite (detn_equal_rows n (setrow A k (A (s - 1))) (s - 1) k); [lra|lia|lia|]. intros j. unfold setrow. zb'; auto.
    + intros p q Hp Hq. unfold setrow. zb'; auto. replace s with ((s - 1) + 1) at 1 by lia. rewrite Rs_last by lia. lra.
Qed.
(** Upper triangular tables. *)
Fixpoint Rprodn (n : nat) (lo : Z) (g : Z -> R) : R := match n with 0%nat => 1%R | S k => (Rprodn k lo g * g (lo + Z.of_nat k)%Z)%R end.
Definition Rprod (lo hi : Z) (g : Z -> R) : R := Rprodn (Z.to_nat (hi - lo)) lo g.
Lemma Rprod_nil lo hi g : hi <= lo -> Rprod lo hi g = 1%R.
Proof. intros. unfold Rprod. replace (Z.to_nat (hi - lo)) with 0%nat by lia. reflexivity. Qed.
Lemma Rprod_last lo hi g : lo <= hi -> Rprod lo (hi + 1) g = (Rprod lo hi g * g hi)%R.
Proof.
  intros. unfold Rprod. replace (Z.to_nat (hi + 1 - lo)) with (S (Z.to_nat (hi - lo))) by lia. cbn [Rprodn]. do 2 f_equal. lia.
Qed.
Lemma Rprod_ext lo hi g h : (forall i, lo <= i < hi -> g i = h i) -> Rprod lo hi g = Rprod lo hi h.
Proof.
  unfold Rprod. intros H. assert (G : forall n, (n <= Z.to_nat (hi - lo))%nat -> Rprodn n lo g = Rprodn n lo h).
  { induction n as [|n IH]; intros Hn; auto. cbn [Rprodn]. rewrite IH by lia. f_equal. apply H. lia. }
  apply G. lia.
Qed.
Lemma Rprodn_first n lo g : Rprodn (S n) lo g = (g lo * Rprodn n (lo + 1) g)%R.
Proof.
  revert lo. induction n as [|n IH]; intros lo; [cbn; replace (lo + 0) with lo by lia; ring|].
  change (Rprodn (S (S n)) lo g) with (Rprodn (S n) lo g * g (lo + Z.of_nat (S n))%Z)%R. rewrite IH. cbn [Rprodn].
  replace (lo + 1 + Z.of_nat n) with (lo + Z.of_nat (S n)) by lia. ring.
Qed.
Lemma Rprodn_shift n lo g : Rprodn n (lo + 1) g = Rprodn n lo (fun i => g (i + 1)%Z).
Proof. induction n; cbn [Rprodn]; auto. rewrite IHn. do 2 f_equal. lia. Qed.
Lemma detn_upper n A : (forall i j, 0 <= j < i -> i < Z.of_nat n -> A i j = 0%R) -> detn n A = Rprodn n 0 (fun i => A i i).
Proof.
  revert A. induction n as [|n IH]; intros A H; auto. rewrite Rprodn_first, Rprodn_shift. cbn [detn].
  rewrite Rs_first by lia. rewrite (Rs_zero (0 + 1)).
  - change (altsign 0) with 1%R. rewrite IH.
    + rewrite Rplus_0_r, Rmult_1_l. f_equal. unfold minor. clear. induction n as [|n IH]; auto. cbn [Rprodn]. rewrite IH. f_equal. zb'; auto.
    + intros i j Hj Hi. unfold minor. zb'. apply H; lia.
  - intros i Hi. rewrite (H i 0) by lia. ring.
Qed.
Lemma det_upper n A : 0 <= n -> (forall i j, 0 <= j < i -> i < n -> A i j = 0%R) -> det n A = Rprod 0 n (fun i => A i i).
Proof. intros Hn H. unfold det, Rprod. rewrite detn_upper by (intros; apply H; lia). f_equal. lia. Qed.
Lemma det_ext n A B : meq n n A B -> det n A = det n B.
Proof. intros H. unfold det. destruct (Z.le_gt_cases 0 n); [apply detn_ext; rewrite Z2Nat.id; auto|]. replace (Z.to_nat n) with 0%nat by lia. reflexivity. Qed.
Lemma det_swap n A k l : 0 <= k < n -> 0 <= l < n -> k <> l -> det n (setrow2 A k l (A l) (A k)) = (- det n A)%R.
Proof. intros. unfold det. apply detn_swap_rows; auto; lia. Qed.

(** The determinant of a product of a unit lower triangular and any table. *)
Lemma det_unit_lower n L U : 0 <= n -> (forall i, 0 <= i < n -> L i i = 1%R) -> (forall i j, 0 <= i < j -> j < n -> L i j = 0%R) ->
  det n (mmul n L U) = det n U.
Proof.
  intros Hn Hd Hu. set (M := fun k i j => if i <? k then U i j else mmul n L U i j).
  assert (G : forall k, 0 <= k <= n -> det n (M k) = det n (mmul n L U)).
  { intros k Hk. destruct Hk as [Hk Hkn]. revert Hkn. pattern k. apply natlike_ind; auto; clear k Hk.
    - intros _. apply det_ext. intros p q Hp Hq. unfold M. zb'; auto.
    - intros k Hk IH Hkn. rewrite <- IH by lia. unfold det.
      rewrite (detn_ext _ (M (Z.succ k)) (setrow (M k) k (U k))).
      2:{ intros p q Hp Hq. unfold M, setrow. zb'; subst; auto. }
      rewrite <- (detn_row_combine (Z.to_nat n) (M k) k (U k) (L k) k) by lia. apply detn_ext. intros p q Hp Hq.
      unfold setrow. destruct (Z.eqb_spec p k) as [->|]; auto. unfold M at 2. zb'. unfold mmul.
      rewrite (Rs_split 0 k n) by lia. rewrite (Rs_first k n) by lia. rewrite (Rs_zero (k + 1)), Hd by (try lia; intros; rewrite Hu by lia; ring).
      rewrite Rplus_0_r, Rmult_1_l, Rplus_comm. f_equal. apply Rs_ext. intros t Ht. unfold M. zb'. auto. }
  rewrite <- (G n) by lia. apply det_ext. intros p q Hp Hq. unfold M. zb'; auto.
Qed.

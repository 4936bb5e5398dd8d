(** Triangular systems and inverses of real tables. *)
From Coq Require Import ZArith Lia Reals Lra.
From Verif Require Import RSum.
Open Scope Z_scope.

Lemma Zup (P : Z -> Prop) n : (forall i, 0 <= i < n -> (forall k, 0 <= k < i -> P k) -> P i) -> forall i, 0 <= i < n -> P i.
Proof.
  intros H i Hi. assert (G : forall m : nat, forall i, 0 <= i < n -> i < Z.of_nat m -> P i).
  { induction m as [|m IH]; intros k Hk Hm; [lia|]. apply H; auto. intros. apply IH; lia. }
  apply (G (Z.to_nat (i + 1))); lia.
Qed.
Lemma Zdown (P : Z -> Prop) n : (forall i, 0 <= i < n -> (forall k, i < k < n -> P k) -> P i) -> forall i, 0 <= i < n -> P i.
Proof.
  intros H i Hi. assert (G : forall m : nat, forall i, 0 <= i < n -> n - i <= Z.of_nat m -> P i).
  { induction m as [|m IH]; intros k Hk Hm; [lia|]. apply H; auto. intros. apply IH; lia. }
  apply (G (Z.to_nat n)); lia.
Qed.

Lemma lower_inj n L w : (forall i, 0 <= i < n -> L i i <> 0%R) -> (forall i j, 0 <= i < j -> j < n -> L i j = 0%R) ->
  (forall i, 0 <= i < n -> mvec n L w i = 0%R) -> forall i, 0 <= i < n -> w i = 0%R.
Proof.
  intros Hd Hu H. apply (Zup (fun i => w i = 0%R)). intros i Hi IH.
  pose proof (H i Hi) as E. unfold mvec in E. rewrite (Rs_pick 0 n i) in E; auto.
  - destruct (Rmult_integral _ _ E); auto. exfalso. apply (Hd i); auto.
  - intros k Hk Hne. destruct (Z.lt_ge_cases k i); [rewrite IH by lia|rewrite Hu by lia]; ring.
Qed.
Lemma upper_inj n U w : (forall i, 0 <= i < n -> U i i <> 0%R) -> (forall i j, 0 <= j < i -> i < n -> U i j = 0%R) ->
  (forall i, 0 <= i < n -> mvec n U w i = 0%R) -> forall i, 0 <= i < n -> w i = 0%R.
Proof.
  intros Hd Hu H. apply (Zdown (fun i => w i = 0%R)). intros i Hi IH.
  pose proof (H i Hi) as E. unfold mvec in E. rewrite (Rs_pick 0 n i) in E; auto.
  - destruct (Rmult_integral _ _ E); auto. exfalso. apply (Hd i); auto.
  - intros k Hk Hne. destruct (Z.lt_ge_cases i k); [rewrite IH by lia|rewrite Hu by lia]; ring.
Qed.
Lemma upper_solve n U b : 0 <= n -> (forall i, 0 <= i < n -> U i i <> 0%R) -> (forall i j, 0 <= j < i -> i < n -> U i j = 0%R) ->
  exists x, forall i, 0 <= i < n -> mvec n U x i = b i.
Proof.
  intros Hn Hd Hu. assert (G : forall k, 0 <= k <= n -> exists x, forall i, n - k <= i < n -> mvec n U x i = b i).
  { intros k [Hk0 Hk]. revert Hk. pattern k. apply natlike_ind; auto; clear k Hk0.
    - intros _. exists (fun _ => 0%R). intros. lia.
    - intros k Hk IH Hkn. destruct IH as [x Hx]; [lia|]. set (r := n - Z.succ k).
      set (v := ((b r - Rs (r + 1) n (fun t => U r t * x t)) / U r r)%R).
      exists (fun t => if t =? r then v else x t). intros i Hi. unfold mvec.
      destruct (Z.eq_dec i r) as [->|].
      + rewrite (Rs_split 0 r n) by lia. rewrite Rs_zero, (Rs_first r n) by (try lia; intros t Ht; rewrite Hu by lia; ring).
        rewrite Z.eqb_refl. rewrite (Rs_ext (r + 1) n _ (fun t => U r t * x t)%R).
        * unfold v. field. apply Hd. lia.
        * intros t Ht. destruct (Z.eqb_spec t r); [lia|auto].
      + rewrite <- Hx by lia. unfold mvec. apply Rs_ext. intros t Ht. destruct (Z.eqb_spec t r) as [->|]; auto. rewrite Hu by lia. ring. }
  destruct (G n) as [x Hx]; [lia|]. exists x. intros. apply Hx. lia.
Qed.
(** A right inverse of an injective square table is a left inverse. *)
Lemma inverse_left n A X : (forall w, (forall i, 0 <= i < n -> mvec n A w i = 0%R) -> forall i, 0 <= i < n -> w i = 0%R) ->
  meq n n (mmul n A X) idm -> meq n n (mmul n X A) idm.
Proof.
  intros Hinj H i j Hi Hj.
  assert (E : (mmul n X A i j - idm i j)%R = 0%R); [|lra].
  apply (Hinj (fun t => mmul n X A t j - idm t j)%R); auto. intros k Hk.
  unfold mvec. rewrite (Rs_ext 0 n _ (fun t => A k t * mmul n X A t j - A k t * idm t j)%R) by (intros; ring).
  rewrite Rs_minus. change (Rs 0 n (fun t => A k t * mmul n X A t j)%R) with (mmul n A (mmul n X A) k j).
  change (Rs 0 n (fun t => A k t * idm t j)%R) with (mmul n A idm k j).
  rewrite <- mmul_assoc, mmul_1_r by auto. rewrite (mmul_ext n (mmul n A X) idm A A) by (intros; auto). rewrite mmul_1_l by auto. ring.
Qed.
Lemma inverse_unique n A X Y : meq n n (mmul n X A) idm -> meq n n (mmul n A Y) idm -> meq n n X Y.
Proof.
  intros H1 H2 i j Hi Hj. rewrite <- (mmul_1_r n X) by auto. rewrite (mmul_ext n X X idm (mmul n A Y)) by (intros; auto; symmetry; auto).
  rewrite <- mmul_assoc. rewrite (mmul_ext n (mmul n X A) idm Y Y) by (intros; auto). apply mmul_1_l; auto.
Qed.

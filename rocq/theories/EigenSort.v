(** Selection sort of the eigenvalues: the positions are permuted, the values
    come out in decreasing order. *)
From Coq Require Import ZArith List Lia Bool Reals Lra.
From Verif Require Import Base BaseLemmas Scalar VecSpec TabTac CholFacts Eigen EigenFacts RealOps RSum Frob.
Import ListNotations.
Open Scope Z_scope.

Lemma swp_swp i k j : swp i k (swp i k j) = j.
Proof. unfold swp. destruct (Z.eqb_spec j i) as [E|E]; [subst j; destruct (Z.eqb_spec k i); [auto|rewrite Z.eqb_refl; auto]|]. destruct (Z.eqb_spec j k) as [E'|E']; [rewrite Z.eqb_refl; auto|]. zbq; auto. Qed.
Lemma swp_range n i k j : 0 <= i < n -> 0 <= k < n -> 0 <= j < n -> 0 <= swp i k j < n.
Proof. intros. unfold swp. zbq; lia. Qed.
Lemma Rs_swp n i k g : 0 <= i < n -> 0 <= k < n -> Rs 0 n (fun j => g (swp i k j)) = Rs 0 n g.
Proof.
  intros Hi Hk. destruct (Z.eq_dec i k) as [E|E].
  - apply Rs_ext. intros j Hj. unfold swp. rewrite E. zbq; subst; auto.
  - enough (H : Rs 0 n (fun j => g (swp i k j) - g j)%R = 0%R) by (rewrite Rs_minus in H; lra).
    rewrite (Rs_pick2 0 n i k); auto.
    + unfold swp. zbq; try lia. lra.
    + intros j Hj H1 H2. unfold swp. zbq; try lia. lra.
Qed.

(** A permutation of the positions 0..n-1. *)
Definition permutes (n : Z) (sg : Z -> Z) : Prop :=
  (forall j, 0 <= j < n -> 0 <= sg j < n) /\ (forall i j, 0 <= i < n -> 0 <= j < n -> sg i = sg j -> i = j) /\ (forall k, 0 <= k < n -> exists j, 0 <= j < n /\ sg j = k).
Definition resum (n : Z) (sg : Z -> Z) : Prop := forall g : Z -> R, Rs 0 n (fun j => g (sg j)) = Rs 0 n g.

Section Perm.
Context {O : Ops}.
Lemma ed_perm_S n D i : 0 <= i -> ed_perm n D (i + 1) = fun j => ed_perm n D i (swp i (fst (ed_sel n i (fun j => D (ed_perm n D i j)))) j).
Proof. intros Hi. unfold ed_perm at 1. rewrite accum_S by auto. reflexivity. Qed.
Lemma ed_perm_permutes n D i : 0 <= i <= n -> permutes n (ed_perm n D i) /\ resum n (ed_perm n D i).
Proof.
  intros [Hi0 Hi]. revert Hi. pattern i. apply natlike_ind; auto.
  - intros _. split; [|intros g; auto]. unfold ed_perm. cbn. repeat split; auto; try lia. intros k Hk. exists k. auto.
  - intros k Hk IH Hle. destruct (IH ltac:(lia)) as [(P1 & P2 & P4) P3]. unfold Z.succ. rewrite ed_perm_S by auto.
    set (q := fst _). assert (Hq : 0 <= q < n). { pose proof (ed_sel_range n k (fun j => D (ed_perm n D k j)) ltac:(lia)). subst q. lia. }
    split; [split; [|split]|].
    + intros j Hj. apply P1, swp_range; lia.
    + intros a b Ha Hb E. apply P2 in E; try (apply swp_range; lia). rewrite <- (swp_swp k q a), E, swp_swp. auto.
    + intros t Ht. destruct (P4 t Ht) as (j & Hj & E). exists (swp k q j). split; [apply swp_range; lia|]. rewrite swp_swp. auto.
    + intros g. rewrite (Rs_swp n k q (fun j => g (ed_perm n D k j))) by lia. apply P3.
Qed.

(** Decreasing order, for values on which the comparison is an order. *)
Variable ok : F -> Prop.
Hypothesis asym : forall x y, ok x -> ok y -> flt x y = true -> flt y x = false.
Hypothesis irr : forall x, ok x -> flt x x = false.
Hypothesis trans : forall x y z, ok x -> ok y -> ok z -> flt x y = false -> flt y z = false -> flt x z = false.

Lemma ed_sel_max n i D : 0 <= i < n -> (forall j, 0 <= j < n -> ok (D j)) -> forall t, i <= t < n -> flt (D (fst (ed_sel n i D))) (D t) = false.
Proof.
  intros Hi Hok. unfold ed_sel. set (f := fun t '(k, p) => _).
  assert (G : forall u, 0 <= u <= n - (i + 1) -> let r := accum f (Z.to_nat u) (i, D i) in (i <= fst r < n /\ snd r = D (fst r)) /\ forall t, i <= t < i + 1 + u -> flt (D (fst r)) (D t) = false).
  { intros u [Hu0 Hu]. revert Hu. pattern u. apply natlike_ind; auto.
    - intros _. cbn. split; [split; [lia|auto]|]. intros t Ht. replace t with i by lia. apply irr. apply Hok. lia.
    - intros x Hx IH Hle. unfold Z.succ. rewrite accum_S by auto. destruct (IH ltac:(lia)) as [[I1 I2] I3]. cbv zeta. destruct (accum f (Z.to_nat x) (i, D i)) as [k p]. cbn [fst snd] in *. subst p. unfold f.
      unfold fgt. destruct (flt (D k) (D (i + 1 + x))) eqn:E; cbn [fst snd].
      + split; [split; [lia|auto]|]. intros t Ht. destruct (Z.eq_dec t (i + 1 + x)) as [->|]; [apply irr; apply Hok; lia|].
        apply (trans _ (D k)); try (apply Hok; lia); [apply asym; auto; apply Hok; lia|apply I3; lia].
      + split; [auto|]. intros t Ht. destruct (Z.eq_dec t (i + 1 + x)) as [->|]; auto. apply I3. lia. }
  intros t Ht. destruct (G (n - (i + 1)) ltac:(lia)) as [_ G2]. apply G2. lia.
Qed.
Lemma ed_perm_sorted n D : (forall j, 0 <= j < n -> ok (D j)) -> forall i, 0 <= i <= n -> forall a b, 0 <= a < i -> a <= b < n -> flt (D (ed_perm n D i a)) (D (ed_perm n D i b)) = false.
Proof.
  intros Hok i [Hi0 Hi]. revert Hi. pattern i. apply natlike_ind; auto.
  - intros. lia.
  - intros k Hk IH Hle a b Ha Hb. unfold Z.succ. rewrite ed_perm_S by auto. set (sg := ed_perm n D k) in *. set (q := fst _).
    pose proof (ed_perm_permutes n D k ltac:(lia)) as [(P1 & _) _]. fold sg in P1.
    assert (Hq : k <= q < n). { pose proof (ed_sel_range n k (fun j => D (sg j)) ltac:(lia)). subst q. lia. }
    assert (Hm : forall t, k <= t < n -> flt (D (sg q)) (D (sg t)) = false). { apply (ed_sel_max n k (fun j => D (sg j))); [lia|]. intros j Hj. apply Hok, P1. auto. }
    destruct (Z.eq_dec a k) as [->|Hne].
    + replace (swp k q k) with q by (unfold swp; rewrite Z.eqb_refl; auto). apply Hm. unfold swp. zbq; lia.
    + replace (swp k q a) with a by (unfold swp; zbq; lia). apply IH; try lia. unfold swp. zbq; lia.
Qed.
End Perm.

(** A sorted matrix of eigenvectors is as good as the unsorted one. *)
Lemma perm_orth n sg Q : permutes n sg -> resum n sg -> orthogonal n Q -> orthogonal n (fun i j => Q i (sg j)).
Proof.
  intros (P1 & P2 & _) P3 [H1 H2]. split; intros i j Hi Hj.
  - unfold mmul, trm. change (Rs 0 n (fun r => (Q r (sg i) * Q r (sg j)))%R = idm i j). specialize (H1 (sg i) (sg j) (P1 _ Hi) (P1 _ Hj)). unfold mmul, trm in H1. rewrite H1.
    unfold idm. destruct (Z.eqb_spec (sg i) (sg j)) as [E|E]; destruct (Z.eqb_spec i j) as [E'|E']; auto; exfalso; [apply E'; apply P2; auto|apply E; congruence].
  - unfold mmul, trm. rewrite (P3 (fun r => Q i r * Q j r)%R). apply (H2 i j Hi Hj).
Qed.
Lemma perm_conj n sg Q D : resum n sg -> permutes n sg -> meq n n (conj n (fun i j => Q i (sg j)) (fun a b => if a =? b then D (sg a) else 0%R)) (conj n Q (fun a b => if a =? b then D a else 0%R)).
Proof.
  intros P3 _ i j Hi Hj. rewrite (conj_diag n (fun i j => Q i (sg j)) (fun a => D (sg a)) i j Hi Hj), conj_diag by auto. apply (P3 (fun r => Q i r * D r * Q j r)%R).
Qed.

(** The order of the singular values, for scalar operations whose comparison is
    total on the values in question. *)
From Coq Require Import ZArith QArith List Lia Bool.
From Verif Require Import Base BaseLemmas Scalar Vector VecSpec VectorFacts Matrix MatSpec MatFacts TabTac FSum CholFacts EigenFacts SVD SVDFacts SVDFacts2 SVDFacts3.
Open Scope Z_scope.

Section Order.
Context {O : Ops}.
Variable P : F -> Prop.
Hypothesis Htot : forall x y, P x -> P y -> fle x y = false -> fle y x = true.
Hypothesis Hneg : forall x, flt x fzero = true -> fle fzero (fneg x) = true.
Hypothesis H00 : fle fzero fzero = true.
Hypothesis HP0 : P fzero.

Lemma c1_tail p k c x i : p - 1 <= i -> 0 <= c -> it_S (c1_iter p k c x) i = it_S x i.
Proof.
  intros Hi Hc. revert Hc. refine (natlike_ind (fun c => it_S (c1_iter p k c x) i = it_S x i) _ _ c); [reflexivity|]. intros t Ht IH. unfold c1_iter. unfold Z.succ. rewrite accum_S by lia. fold (c1_iter p k t x). rewrite <- IH.
  unfold c1_step. destruct (negb _); cbn [it_S]; unfold vset; zbq; auto.
Qed.
Lemma c2_tail p k c x i : p <= i -> 0 <= c <= p - k -> it_S (c2_iter k c x) i = it_S x i.
Proof.
  intros Hi [Hc Hcp]. revert Hcp. revert c Hc. refine (natlike_ind _ _ _); [reflexivity|]. intros t Ht IH Hcp. unfold c2_iter. unfold Z.succ in *. rewrite accum_S by lia. fold (c2_iter k t x). rewrite <- (IH ltac:(lia)).
  unfold c2_step. cbn [it_S]; unfold vset; zbq; auto.
Qed.
Lemma c3_tail m p k c x i : p <= i -> 0 <= c <= p - 1 - k -> it_S (c3_iter m k c x) i = it_S x i.
Proof.
  intros Hi [Hc Hcp]. revert Hcp. revert c Hc. refine (natlike_ind _ _ _); [reflexivity|]. intros t Ht IH Hcp. unfold c3_iter. unfold Z.succ in *. rewrite accum_S by lia. fold (c3_iter m k t x). rewrite <- (IH ltac:(lia)).
  unfold c3_left, c3_right. cbn [it_S]; unfold vset; zbq; auto.
Qed.

Definition s_good (n : Z) (y : sv_t) : Prop := forall i, t_p y <= i < n -> P (t_S y i).
Definition s_sorted (n : Z) (y : sv_t) : Prop := (forall i, t_p y <= i < n -> fle fzero (t_S y i) = true) /\ (forall i, t_p y <= i -> i + 1 < n -> fge (t_S y i) (t_S y (i + 1)) = true).

(** The settled values stay, and the new one is put in its place. *)
Lemma s_step m n x y : svR m n x y -> 1 <= t_p x <= n -> s_good n y -> s_good n x /\ (s_sorted n x -> s_sorted n y).
Proof.
  intros R Hp G. destruct R as [S E U V p q Sc k S1 Hq Hlt Hge | S E U V p k Sc Hk Hnot | S E U V p k Sc Hk Hle | S E U V p k ks Sc Hk Hks Hle]; cbn [t_S t_p of_it] in *; unfold s_good, s_sorted in *; cbn [t_S t_p of_it] in *.
  - assert (Hold : forall i, p <= i < n -> S1 i = S i) by (intros; unfold S1, vset; zbq; auto).
    assert (Hg : forall i, p <= i < n -> P (S i)).
    { intros i Hi. rewrite <- Hold by auto. destruct (Z.le_gt_cases i q).
      - specialize (G (i - 1) ltac:(lia)). replace (cyc k q (i - 1)) with i in G by (unfold cyc, k in *; zbq; lia). auto.
      - specialize (G i ltac:(lia)). replace (cyc k q i) with i in G by (unfold cyc, k in *; zbq; lia). auto. }
    split; [exact Hg|]. intros [H1 H2].
    assert (Pk : P (S1 k)). { specialize (G q ltac:(lia)). replace (cyc k q q) with k in G by (unfold cyc, k in *; zbq; lia). auto. }
    assert (Hk0 : fle fzero (S1 k) = true).
    { unfold S1, vset in *. rewrite Z.eqb_refl in *. unfold posS in *. destruct (fle (S k) fzero) eqn:El; [destruct (flt (S k) fzero) eqn:Ell; auto|]. apply Htot; auto. }
    split.
    + intros i Hi. assert (Hc : cyc k q i = k \/ p <= cyc k q i < n) by (unfold cyc, k in *; zbq; lia). destruct Hc as [->|Hc]; auto. rewrite Hold by auto. auto.
    + intros i Hi Hi1. destruct (Z.lt_ge_cases (i + 1) q).
      { replace (cyc k q i) with (i + 1) by (unfold cyc, k in *; zbq; lia). replace (cyc k q (i + 1)) with (i + 1 + 1) by (unfold cyc, k in *; zbq; lia). rewrite !Hold by (unfold k in *; lia). apply H2; lia. }
      destruct (Z.eq_dec (i + 1) q).
      { replace (cyc k q i) with (i + 1) by (unfold cyc, k in *; zbq; lia). replace (cyc k q (i + 1)) with k by (unfold cyc, k in *; zbq; lia). apply Htot; [rewrite Hold by lia; apply Hg; lia|exact Pk|]. apply (Hlt (i + 1)). unfold k. lia. }
      destruct (Z.eq_dec i q).
      { subst i. replace (cyc k q q) with k by (unfold cyc, k in *; zbq; lia). replace (cyc k q (q + 1)) with (q + 1) by (unfold cyc, k in *; zbq; lia). apply Hge. lia. }
      replace (cyc k q i) with i by (unfold cyc, k in *; zbq; lia). replace (cyc k q (i + 1)) with (i + 1) by (unfold cyc, k in *; zbq; lia). rewrite !Hold by (unfold k in *; lia). apply H2; unfold k in *; lia.
  - assert (Sc1 : -1 <= k) by (destruct Sc; lia). assert (T : forall i, p <= i -> it_S (c3_fin m p (k + 1) S (zeroE k E) U V) i = S i) by (intros i Hi; unfold c3_fin; cbn [it_S]; rewrite (c3_tail m p) by lia; auto).
    split; [intros i Hi; rewrite <- T by lia; auto|]. intros [H1 H2]. split; intros; rewrite !T by lia; auto.
  - assert (Sc1 : -1 <= k) by (destruct Sc; lia). assert (T : forall i, p <= i -> it_S (c1_fin p (k + 1) (vset S (p - 1) fzero) (zeroE k E) U V) i = S i) by (intros i Hi; unfold c1_fin; rewrite (c1_tail p) by lia; cbn [it_S]; unfold vset; zbq; auto).
    split; [intros i Hi; rewrite <- T by lia; auto|]. intros [H1 H2]. split; intros; rewrite !T by lia; auto.
  - assert (Sc1 : -1 <= k) by (destruct Sc; lia). assert (T : forall i, p <= i -> it_S (c2_fin p (ks + 1) (vset S ks fzero) (zeroE k E) U V) i = S i) by (intros i Hi; unfold c2_fin; rewrite (c2_tail p) by lia; cbn [it_S]; unfold vset; zbq; auto).
    split; [intros i Hi; rewrite <- T by lia; auto|]. intros [H1 H2]. split; intros; rewrite !T by lia; auto.
Qed.
Lemma s_order m n x y : svRs m n x y -> t_p x = n -> s_good n y -> s_sorted n y.
Proof.
  induction 1 as [x|x y z R IH Hp Rz]; intros Ep G.
  - split; intros; lia.
  - destruct (s_step m n y z Rz Hp G) as [G1 K]. apply K. apply IH; auto.
Qed.
End Order.

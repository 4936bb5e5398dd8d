(** The singular value decomposition in exact arithmetic: the other cases of a
    turn of the iteration. *)
From Coq Require Import ZArith QArith List Lia Bool Reals Lra Psatz.
From Verif Require Import Base BaseLemmas Scalar Vector VecSpec VectorFacts Matrix MatSpec MatFacts TabTac FSum RealOps RSum Tri House QR QRSpec QRFacts QRReal QRReal2 CholFacts HessReal Frob EigenFacts SchurReal SVDFacts SVDFacts2 SVDFacts3 SVDReal SVDReal2 SVDReal3.
Open Scope Z_scope.
Ltac hypR := change (@fhypot ROps) with (fun x y : R => sqrt (x * x + y * y)%R); cbv beta.

(** ** Case 2: s[k-1] is negligible *)
Section Case2.
Variables m n p k : Z.
Hypothesis Hk : 1 <= k <= p - 1.
Hypothesis Hp : p <= n.
Variables S E : Z -> R.
Variables U V : Z -> Z -> R.
Hypothesis HS : S (k - 1) = 0%R.
Hypothesis HE : forall i, k - 1 <= i <= p - 2 -> E i <> 0%R.
Hypothesis HEp : forall i, p - 1 <= i < n -> E i = 0%R.
Let x0 : it_st (O := ROps) := mkIT (O := ROps) S (vset (O := ROps) E (k - 1) 0%R) U V (E (k - 1)) 0%R.
Definition X2 (j : Z) (x : it_st (O := ROps)) (a b : Z) : R := if (j <? p) && (a =? k - 1) && (b =? j) then it_f x else bid (it_S x) (it_E x) a b.
Lemma case2_iter c : 0 <= c <= p - k -> let x := c2_iter (O := ROps) k c x0 in let j := k + c in
  eqv m n U (bid S E) V (it_U x) (X2 j x) (it_V x) /\ it_S x (k - 1) = 0%R /\ (j < p -> it_f x <> 0%R) /\
  (forall i, j <= i -> it_E x i = E i /\ it_S x i = S i) /\ it_E x (k - 1) = 0%R /\ (forall i, i < k - 1 -> it_E x i = E i) /\ it_V x = V /\ it_E x (p - 1) = 0%R.
Proof.
  intros [Hc Hc2]. revert Hc2. cbv zeta. apply (Rs_ind (fun c => c <= p - k -> eqv m n U (bid S E) V (it_U (c2_iter (O := ROps) k c x0)) (X2 (k + c) (c2_iter (O := ROps) k c x0)) (it_V (c2_iter (O := ROps) k c x0)) /\
    it_S (c2_iter (O := ROps) k c x0) (k - 1) = 0%R /\ (k + c < p -> it_f (c2_iter (O := ROps) k c x0) <> 0%R) /\
    (forall i, k + c <= i -> it_E (c2_iter (O := ROps) k c x0) i = E i /\ it_S (c2_iter (O := ROps) k c x0) i = S i) /\ it_E (c2_iter (O := ROps) k c x0) (k - 1) = 0%R /\
    (forall i, i < k - 1 -> it_E (c2_iter (O := ROps) k c x0) i = E i) /\ it_V (c2_iter (O := ROps) k c x0) = V /\ it_E (c2_iter (O := ROps) k c x0) (p - 1) = 0%R) 0 c Hc).
  - intros _. unfold c2_iter. cbn [accum Z.to_nat]. unfold x0. cbn [it_S it_E it_U it_V it_f]. split; [|split; [|split; [|split; [|split; [|split; [|split]]]]]].
    + apply eqv_same; try (intros i j Hi Hj; reflexivity). intros a b Ha Hb. unfold X2, bid, vset. cbn [it_S it_E it_f]. zbq; subst; auto; try lia; f_equal; lia.
    + auto.
    + intros _. apply HE. lia.
    + intros i Hi. unfold vset. zbq; auto.
    + unfold vset. rewrite Z.eqb_refl. auto.
    + intros i Hi. unfold vset. zbq; auto.
    + auto.
    + unfold vset. zbq; auto. apply HEp. lia.
  - intros t Ht IH Hc2. destruct (IH ltac:(lia)) as (Ieq & IS & If & IE & IE2 & IE3 & IV & IP). clear IH.
    assert (ES : c2_iter (O := ROps) k (t + 1) x0 = c2_step k (k + t) (c2_iter k t x0)) by (unfold c2_iter; rewrite accum_S by lia; auto). rewrite ES. clear ES.
    set (x := c2_iter (O := ROps) k t x0) in *. clearbody x. replace (k + (t + 1)) with (k + t + 1) by lia. set (j := k + t) in *.
    specialize (If ltac:(lia)). unfold c2_step. rops. hypR. destruct (hyp_rot (it_S x j) (it_f x) (or_intror If)) as (Ht0 & H1 & H2 & H3).
    set (h := sqrt (it_S x j * it_S x j + it_f x * it_f x)) in *. set (cs := (it_S x j / h)%R) in *. set (sn := (it_f x / h)%R) in *.
    assert (Hsn : sn <> 0%R). { unfold sn. intros K. apply If. replace (it_f x) with (it_f x / h * h)%R by (field; auto). rewrite K. ring. }
    assert (Eb1 : forall a b, X2 j x a b = if (a =? k - 1) && (b =? j) then it_f x else bid (it_S x) (it_E x) a b) by (intros; unfold X2; zbq; auto).
    assert (Ep : p <= j + 1 -> it_E x j = 0%R). { intros. destruct (IE j ltac:(lia)) as [-> _]. apply HEp. lia. }
    cbn [it_S it_E it_U it_V it_f]. split; [|split; [|split; [|split; [|split; [|split; [|split]]]]]].
    + eapply eqv_trans; [exact Ieq|]. apply (eqv_left m n j (k - 1) cs sn); try lia; auto. intros b a Hb Ha. unfold rotp, trm. rewrite !Eb1. unfold X2. cbn [it_S it_E it_f]. rops.
      unfold bid, vset. destruct (Z.eqb_spec a j) as [->|Haj].
      * rewrite !Z.eqb_refl. replace (j =? k - 1) with false by (symmetry; apply Z.eqb_neq; lia). rewrite andb_false_r. cbn [andb].
        replace (k - 1 =? j) with false by (symmetry; apply Z.eqb_neq; lia). rewrite IS. zbq; subst; auto; try lia; try lra.
        replace (k - 1 + 1) with k in * by lia. rewrite IE2. lra.
      * destruct (Z.eqb_spec a (k - 1)) as [->|Hak].
        -- cbn [andb]. rewrite andb_true_r. destruct (Z.ltb_spec (j + 1) p); cbn [andb]; rewrite ?IS, ?IE2; [|rewrite Ep by lia]; zbq; subst; auto; try lia; try lra.
        -- rewrite andb_false_r. cbn [andb]. auto.
    + unfold vset. zbq; auto.
    + intros Hj. destruct (IE j ltac:(lia)) as [-> _]. pose proof (HE j ltac:(lia)). nra.
    + intros i Hi. unfold vset. destruct (IE i ltac:(lia)). zbq; auto.
    + unfold vset. zbq; auto.
    + intros i Hi. unfold vset. zbq; auto.
    + auto.
    + unfold vset. destruct (Z.eqb_spec (p - 1) j) as [Ej|]; auto. rewrite Ep by lia. apply Rmult_0_r.
Qed.
End Case2.

(** ** Case 3: one step of the iteration proper *)
Section Case3.
Variables m n p k : Z.
Hypothesis Hk : 0 <= k <= p - 2.
Hypothesis Hp : p <= n.
Hypothesis Hm : n <= m.
Variables S E : Z -> R.
Variables U V : Z -> Z -> R.
Variables f0 g0 : R.
Hypothesis HS : forall i, k <= i <= p - 1 -> S i <> 0%R.
Hypothesis HE : forall i, k <= i <= p - 2 -> E i <> 0%R.
Hypothesis HE0 : k = 0 \/ E (k - 1) = 0%R.
Hypothesis HEp : forall i, p - 1 <= i < n -> E i = 0%R.
Hypothesis Hg0 : g0 <> 0%R.
Let x0 : it_st (O := ROps) := mkIT (O := ROps) S E U V f0 g0.
Definition X3 (j : Z) (x : it_st (O := ROps)) (a b : Z) : R :=
  if (k <? j) && (a =? j - 1) && (b =? j) then it_f x else if (k <? j) && (a =? j - 1) && (b =? j + 1) then it_g x else bid (it_S x) (it_E x) a b.
Definition Y3 (j : Z) (x : it_st (O := ROps)) (a b : Z) : R :=
  if (a =? j) && (b =? j) then it_f x else if (a =? j + 1) && (b =? j) then it_g x else bid (it_S x) (it_E x) a b.
Definition i3 (j : Z) (x : it_st (O := ROps)) : Prop :=
  eqv m n U (bid S E) V (it_U x) (X3 j x) (it_V x) /\ (j <= p - 2 -> it_g x <> 0%R) /\ (j = p - 1 -> it_g x = 0%R) /\
  (forall i, j + 1 <= i -> it_E x i = E i /\ it_S x i = S i) /\ it_E x (p - 1) = 0%R /\ (forall i, i < k -> it_E x i = E i).
Lemma i3_step j x : k <= j <= p - 2 -> i3 j x -> i3 (j + 1) (c3_left (O := ROps) m j (c3_right (O := ROps) k j x)).
Proof.
  intros Hj (Ieq & Ig & _ & IE & Ip & Il). specialize (Ig ltac:(lia)).
  assert (E0 : j = k -> 0 < j -> it_E x (j - 1) = 0%R). { intros -> K. rewrite Il by lia. destruct HE0; [lia|auto]. }
  set (y := c3_right (O := ROps) k j x).
  assert (Hy : eqv m n U (bid S E) V (it_U y) (Y3 j y) (it_V y) /\ it_g y <> 0%R /\
    (forall i, j + 2 <= i -> it_E y i = E i /\ it_S y i = S i) /\ it_E y (j + 1) = E (j + 1) /\ it_E y (p - 1) = 0%R /\ (forall i, i < k -> it_E y i = E i)).
  { unfold y, c3_right. rops. hypR. destruct (hyp_rot (it_f x) (it_g x) (or_intror Ig)) as (Ht0 & H1 & H2 & H3).
    set (h := sqrt (it_f x * it_f x + it_g x * it_g x)) in *. set (cs := (it_f x / h)%R) in *. set (sn := (it_g x / h)%R) in *.
    assert (Hsn : sn <> 0%R). { unfold sn. intros K. apply Ig. replace (it_g x) with (it_g x / h * h)%R by (field; auto). rewrite K. ring. }
    set (E1 := if negb (j =? k) then vset (O := ROps) (it_E x) (j - 1) h else it_E x).
    cbn [it_S it_E it_U it_V it_f it_g]. split; [|split; [|split; [|split; [|split]]]].
    - eapply eqv_trans; [exact Ieq|]. apply (eqv_right m n j (j + 1) cs sn); try lia; auto. intros a b Ha Hb. unfold rotp, Y3, X3. cbn [it_S it_E it_f it_g]. rops.
      unfold bid. destruct (Z.eqb_spec a j) as [->|Haj].
      + replace (j =? j - 1) with false by (symmetry; apply Z.eqb_neq; lia). rewrite !andb_false_r. cbn [andb]. rewrite !Z.eqb_refl. unfold E1, vset. zbq; cbn [negb]; subst; auto; try lia; try lra; zbq; try lra.
      + destruct (Z.eqb_spec a (j + 1)) as [->|Haj1].
        * replace (j + 1 =? j - 1) with false by (symmetry; apply Z.eqb_neq; lia). rewrite !andb_false_r. cbn [andb]. rewrite ?Z.eqb_refl. unfold E1, vset. zbq; cbn [negb]; subst; auto; try lia; try lra; zbq; try lra.
        * destruct (Z.eqb_spec a (j - 1)) as [->|Haj2].
          -- rewrite !andb_true_r. destruct (Z.eqb_spec j k) as [Ejk|Ejk].
             ++ replace (k <? j) with false by (symmetry; apply Z.ltb_ge; lia). cbn [andb]. specialize (E0 Ejk ltac:(lia)). unfold E1, vset. replace (j =? k) with true by (symmetry; apply Z.eqb_eq; lia). cbn [negb].
                rewrite ?E0. zbq; subst; auto; try lia; try lra.
             ++ replace (k <? j) with true by (symmetry; apply Z.ltb_lt; lia). cbn [andb]. unfold E1, vset. replace (j =? k) with false by (symmetry; apply Z.eqb_neq; lia). cbn [negb].
                zbq; subst; auto; try lia; try lra.
          -- rewrite !andb_false_r. cbn [andb]. unfold E1, vset. zbq; cbn [negb]; subst; auto; try lia; try lra; zbq; auto; try lra.
    - destruct (IE (j + 1) ltac:(lia)) as [_ ->]. pose proof (HS (j + 1) ltac:(lia)). nra.
    - intros i Hi. destruct (IE i ltac:(lia)) as [K1 K2]. unfold E1, vset. zbq; cbn [negb]; auto; zbq; auto.
    - destruct (IE (j + 1) ltac:(lia)) as [K1 _]. unfold E1, vset. zbq; cbn [negb]; auto; zbq; auto.
    - unfold E1, vset. zbq; cbn [negb]; auto; zbq; auto.
    - intros i Hi. unfold E1, vset. zbq; cbn [negb]; auto; zbq; auto. }
  clearbody y. clear Ieq Ig IE Ip Il E0. destruct Hy as (Ieq & Ig & IE & IE1 & Ip & Il).
  unfold c3_left. replace (j <? m - 1) with true by (symmetry; apply Z.ltb_lt; lia). rops. hypR. destruct (hyp_rot (it_f y) (it_g y) (or_intror Ig)) as (Ht0 & H1 & H2 & H3).
  set (h := sqrt (it_f y * it_f y + it_g y * it_g y)) in *. set (cs := (it_f y / h)%R) in *. set (sn := (it_g y / h)%R) in *.
  assert (Hsn : sn <> 0%R). { unfold sn. intros K. apply Ig. replace (it_g y) with (it_g y / h * h)%R by (field; auto). rewrite K. ring. }
  assert (V1 : vset (O := ROps) (it_S y) j h (j + 1) = it_S y (j + 1)) by (unfold vset; zbq; auto). rewrite V1.
  unfold i3. cbn [it_S it_E it_U it_V it_f it_g]. split; [|split; [|split; [|split; [|split]]]].
  - eapply eqv_trans; [exact Ieq|]. apply (eqv_left m n j (j + 1) cs sn); try lia; auto. intros b a Hb Ha. unfold rotp, trm, X3, Y3. cbn [it_S it_E it_f it_g]. rops.
    replace (k <? j + 1) with true by (symmetry; apply Z.ltb_lt; lia). cbn [andb]. replace (j + 1 - 1) with j by lia.
    unfold bid, vset. destruct (Z.eqb_spec a j) as [->|Haj].
    + cbn [andb]. rewrite !Z.eqb_refl. replace (j =? j + 1) with false by (symmetry; apply Z.eqb_neq; lia). cbn [andb]. zbq; subst; auto; try lia; try lra.
    + destruct (Z.eqb_spec a (j + 1)) as [->|Haj1].
      * cbn [andb]. rewrite !Z.eqb_refl. replace (j + 1 =? j) with false by (symmetry; apply Z.eqb_neq; lia). cbn [andb]. zbq; subst; auto; try lia; try lra.
      * cbn [andb]. zbq; subst; auto; try lia; try lra.
  - intros Hj1. rewrite IE1. pose proof (HE (j + 1) ltac:(lia)). nra.
  - intros Ej. replace (p - 1) with (j + 1) in Ip by lia. rewrite Ip. apply Rmult_0_r.
  - intros i Hi. destruct (IE i ltac:(lia)). unfold vset. zbq; auto.
  - unfold vset. destruct (Z.eqb_spec (p - 1) (j + 1)) as [Ej|]; auto. rewrite <- Ej, Ip. apply Rmult_0_r.
  - intros i Hi. unfold vset. zbq; auto.
Qed.
Lemma case3_iter c : 0 <= c <= p - 1 - k -> i3 (k + c) (c3_iter (O := ROps) m k c x0).
Proof.
  intros [Hc Hc2]. revert Hc2. apply (Rs_ind (fun c => c <= p - 1 - k -> i3 (k + c) (c3_iter (O := ROps) m k c x0)) 0 c Hc).
  - intros _. unfold c3_iter. cbn [accum Z.to_nat]. rewrite Z.add_0_r. unfold i3, x0. cbn [it_S it_E it_U it_V it_f it_g]. split; [|split; [|split; [|split; [|split]]]].
    + apply eqv_same; try (intros i j Hi Hj; reflexivity). intros a b Ha Hb. unfold X3. rewrite Z.ltb_irrefl. auto.
    + auto.
    + intros. lia.
    + auto.
    + apply HEp. lia.
    + auto.
  - intros t Ht IH Hc2. assert (ES : c3_iter (O := ROps) m k (t + 1) x0 = c3_left m (k + t) (c3_right k (k + t) (c3_iter m k t x0))) by (unfold c3_iter; rewrite accum_S by lia; auto).
    rewrite ES. replace (k + (t + 1)) with (k + t + 1) by lia. apply i3_step; [lia|]. apply IH. lia.
Qed.
End Case3.

(** The singular value decomposition in exact arithmetic: the bidiagonal form
    and the orthogonal factors before the iteration. *)
From Coq Require Import ZArith QArith List Lia Bool Reals Lra.
From Verif Require Import Base BaseLemmas Scalar Vector VecSpec VectorFacts Matrix MatSpec MatFacts TabTac FSum RealOps RSum Tri LUReal QR QRSpec QRFacts House QRReal QRReal2 CholFacts HessReal Frob Tridiag TridiagFacts TridiagReal EigenFacts BidiagFacts SchurReal SVD SVDFacts SVDFacts2 SVDFacts3 SVDReal.
Open Scope Z_scope.

(** Products of a sequence of matrices, from the left and from the right. *)
Definition lp (n : Z) (Q : Z -> Z -> Z -> R) (k : Z) : Z -> Z -> R := accum (fun t P => mmul n P (Q t)) (Z.to_nat k) idm.
Definition ls (n : Z) (Q : Z -> Z -> Z -> R) (N k : Z) : Z -> Z -> R := accum (fun t P => mmul n (Q (N - 1 - t)) P) (Z.to_nat (N - k)) idm.
Lemma lp_S n Q k : 0 <= k -> lp n Q (k + 1) = mmul n (lp n Q k) (Q k).
Proof. intros. unfold lp. rewrite accum_S by lia. auto. Qed.
Lemma ls_S n Q N k : k < N -> ls n Q N k = mmul n (Q k) (ls n Q N (k + 1)).
Proof. intros. unfold ls. replace (N - k) with (N - (k + 1) + 1) by lia. rewrite accum_S by lia. replace (N - 1 - (N - (k + 1))) with k by lia. auto. Qed.
Lemma ls_nil n Q N k : N <= k -> ls n Q N k = idm.
Proof. intros. unfold ls. replace (Z.to_nat (N - k)) with 0%nat by lia. auto. Qed.
Lemma lp_ls n Q N k : 0 <= k <= N -> meq n n (mmul n (lp n Q k) (ls n Q N k)) (ls n Q N 0).
Proof.
  intros [H0 HN]. revert HN. apply (Rs_ind (fun k => k <= N -> meq n n (mmul n (lp n Q k) (ls n Q N k)) (ls n Q N 0)) 0 k H0).
  - intros _ i j Hi Hj. unfold lp. cbn [accum Z.to_nat]. apply mmul_1_l; auto.
  - intros t Ht IH HN i j Hi Hj. rewrite <- (IH ltac:(lia) i j Hi Hj). rewrite lp_S by lia. rewrite (ls_S n Q N t) by lia. rewrite mmul_assoc. auto.
Qed.
Lemma lp_end n Q N : 0 <= N -> meq n n (lp n Q N) (ls n Q N 0).
Proof. intros HN i j Hi Hj. rewrite <- (lp_ls n Q N N ltac:(lia) i j Hi Hj). rewrite ls_nil by lia. symmetry. apply mmul_1_r; auto. Qed.
Lemma lp_orth n Q k : 0 <= k -> (forall t, 0 <= t < k -> orthogonal n (Q t)) -> orthogonal n (lp n Q k).
Proof.
  intros H0. apply (Rs_ind (fun k => (forall t, 0 <= t < k -> orthogonal n (Q t)) -> orthogonal n (lp n Q k)) 0 k H0).
  - intros _. apply orth_id.
  - intros t Ht IH H. rewrite lp_S by lia. apply orth_mmul; [apply IH; intros; apply H; lia|apply H; lia].
Qed.
(** A suffix of reflections from later indices is the identity on the earlier ones. *)
Lemma ls_low m (b : Z -> bool) (v : Z -> Z -> R) (d N k : Z) : 0 <= d -> N + d <= m + 1 -> N <= m -> 0 <= k <= N -> forall i j, 0 <= i < m -> 0 <= j < m -> (i < k + d \/ j < k + d) ->
  ls m (fun t => hR (b t) (v t) (t + d)) N k i j = idm i j.
Proof.
  intros Hd Hm Hm2 [Hk HN]. replace k with (N - (N - k)) by lia. assert (HH : 0 <= N - k <= N) by lia. revert HH. generalize (N - k). intros t [Ht Ht2]. revert Ht2.
  apply (Rs_ind (fun t => t <= N -> forall i j, 0 <= i < m -> 0 <= j < m -> (i < N - t + d \/ j < N - t + d) -> ls m (fun t => hR (b t) (v t) (t + d)) N (N - t) i j = idm i j) 0 t Ht).
  - intros _ i j Hi Hj _. rewrite ls_nil by lia. auto.
  - intros s Hs IH Hs2 i j Hi Hj Hc. rewrite ls_S by lia. replace (N - (s + 1) + 1) with (N - s) by lia. set (q := N - (s + 1)) in *.
    rewrite hR_app by lia. destruct (b q); cbn [andb]; [|apply IH; lia]. destruct (Z.leb_spec (q + d) i); [|apply IH; lia].
    assert (Hj2 : j < q + d) by lia. unfold hap. rewrite fadds_R by lia. rops.
    rewrite (Rs_zero (q + d) m) by (intros r Hr; rewrite (IH ltac:(lia) r j) by lia; unfold idm; zbq; ring). rewrite IH by lia. unfold Rdiv. ring.
Qed.

Lemma sg_ext n x y k : 0 <= k < n -> (forall r, k <= r < n -> x r = y r) -> sg (O := ROps) n x k = sg (O := ROps) n y k.
Proof. intros Hk H. unfold sg. rewrite (fhyps_ext k n x y H), (H k) by lia. auto. Qed.
Lemma hv_ext n x y k i : 0 <= k < n -> k <= i < n -> (forall r, k <= r < n -> x r = y r) -> hv (O := ROps) n x k i = hv (O := ROps) n y k i.
Proof. intros Hk Hi H. unfold hv. rewrite (fhyps_ext k n x y H), (sg_ext n x y k Hk H), (H k), (H i) by lia. auto. Qed.

Section Red.
Variables m n : Z.
Variable A : Z -> Z -> R.
Hypothesis Hn : 1 <= n.
Hypothesis Hm : n <= m.
Let nct := s_nct m n.
Let nrt := s_nrt n.
Let st (k : Z) : sr_st (O := ROps) := sr_iter (O := ROps) m n A k.
Definition r_c (k r : Z) : R := sr_A (st k) r k.
Definition r_bU (k : Z) : bool := fne (O := ROps) (fhyps (O := ROps) k m (r_c k)) fzero.
Definition r_vU (k : Z) : Z -> R := hv (O := ROps) m (r_c k) k.
Definition r_A2 (k : Z) : Z -> Z -> R := ca_M (O := ROps) m k (r_bU k) (sc_M (O := ROps) m k (sr_A (st k))).
Definition r_r (k j : Z) : R := r_A2 k k j.
Definition r_bV (k : Z) : bool := (k <? nrt) && fne (O := ROps) (fhyps (O := ROps) (k + 1) n (r_r k)) fzero.
Definition r_vV (k : Z) : Z -> R := hv (O := ROps) n (r_r k) (k + 1).
Definition r_s (k : Z) : R := (- sg (O := ROps) m (r_c k) k)%R.
Definition r_e (k : Z) : R := (- sg (O := ROps) n (r_r k) (k + 1))%R.
Definition r_H (k : Z) : Z -> Z -> R := hR (r_bU k) (r_vU k) k.
Definition r_G (k : Z) : Z -> Z -> R := hR (r_bV k) (r_vV k) (k + 1).

Lemma nct_le : 0 <= nct <= n /\ nct <= m - 1 /\ n - 1 <= nct.
Proof. unfold nct, s_nct. lia. Qed.
Lemma nrt_le : 0 <= nrt <= n - 1 /\ (n <= 1 -> nrt = 0) /\ (2 <= n -> nrt = n - 2).
Proof. unfold nrt, s_nrt. lia. Qed.

Lemma st_S k : 0 <= k -> st (k + 1) = sr_step (O := ROps) m n nct nrt k (st k).
Proof. intros. unfold st, sr_iter. rewrite accum_S by lia. auto. Qed.

Lemma A2_col k i : r_A2 k i k = if k <=? i then r_vU k i else sr_A (st k) i k.
Proof. unfold r_A2, ca_M, sc_M, r_vU. rewrite Z.ltb_irrefl, Z.eqb_refl, andb_false_r. cbn [andb]. auto. Qed.
Lemma step_eq k : 0 <= k < nct ->
  (forall i j, 0 <= i < m -> 0 <= j < n -> sr_A (st (k + 1)) i j = if r_bV k && (k <? i) && (k <? j) then (r_A2 k i j + - r_vV k j / r_vV k (k + 1) * Rs (k + 1) n (fun r => r_vV k r * r_A2 k i r))%R else r_A2 k i j) /\
  (forall j, sr_S (st (k + 1)) j = if j =? k then r_s k else sr_S (st k) j) /\
  (forall j, 0 <= j <= k -> sr_e (st (k + 1)) j = if j =? k then (if k <? nrt then r_e k else sr_e (st k) k) else sr_e (st k) j) /\
  (forall i j, sr_U (st (k + 1)) i j = if (j =? k) && (k <=? i) && (i <? m) then r_vU k i else sr_U (st k) i j) /\
  (forall i j, sr_V (st (k + 1)) i j = if (k <? nrt) && (j =? k) && (k <? i) && (i <? n) then r_vV k i else sr_V (st k) i j).
Proof.
  intros Hk. pose proof nct_le. pose proof nrt_le. rewrite st_S by lia. unfold sr_step. replace (k <? nct) with true by (symmetry; apply Z.ltb_lt; lia). cbn [andb].
  assert (Eb : fne (O := ROps) (vset (O := ROps) (sr_S (st k)) k (fneg (sg m (fun r => sr_A (st k) r k) k)) k) fzero = r_bU k).
  { unfold vset. rewrite Z.eqb_refl. apply (sg_ne m k (r_c k)). }
  rewrite Eb. fold (r_A2 k). set (E2 := fun j : Z => if k <? j return @F ROps then r_A2 k k j else sr_e (st k) j).
  assert (E2r : forall r, k + 1 <= r < n -> E2 r = r_r k r) by (intros r Hr; unfold E2, r_r; zbq; auto).
  destruct (Z.ltb_spec k nrt) as [Hr|Hr].
  - assert (E3 : forall j, k < j < n -> sr_E (O := ROps) n k E2 j = r_vV k j).
    { intros j Hj. unfold sr_E, r_vV. zbq. apply hv_ext; auto; lia. }
    assert (E3k : sr_E (O := ROps) n k E2 k = r_e k).
    { unfold sr_E, r_e. rewrite Z.eqb_refl. rops. f_equal. apply sg_ext; auto; lia. }
    assert (EbV : (k + 1 <? m) && fne (O := ROps) (sr_E (O := ROps) n k E2 k) fzero = r_bV k).
    { rewrite E3k. unfold r_bV, r_e. replace (k + 1 <? m) with true by (symmetry; apply Z.ltb_lt; lia). replace (k <? nrt) with true by (symmetry; apply Z.ltb_lt; lia).
      cbn [andb]. apply (sg_ne n (k + 1) (r_r k)). }
    cbn [sr_A sr_S sr_e sr_U sr_V]. split; [|split; [|split; [|split]]].
    + intros i j Hi Hj. rewrite EbV. unfold ra_M, ra_w. destruct (r_bV k); cbn [andb]; auto. zbq; auto. rewrite fadds_R by lia. rewrite !E3 by lia. rops. rewrite Rplus_0_l.
      rewrite (Rs_ext (k + 1) n (fun r => sr_E (O := ROps) n k E2 r * r_A2 k i r)%R (fun r => r_vV k r * r_A2 k i r)%R) by (intros; rewrite E3 by lia; auto). auto.
    + intros j. unfold vset, r_s. zbq; auto.
    + intros j Hj. destruct (Z.eqb_spec j k) as [->|]; auto. unfold sr_E, E2. zbq; auto.
    + intros i j. unfold colpart. rewrite A2_col. zbq; subst; cbn [andb]; auto.
    + intros i j. unfold colpart. zbq; cbn [andb]; auto; apply E3; lia.
  - assert (EbV : r_bV k = false) by (unfold r_bV; zbq; auto). rewrite EbV. cbn [sr_A sr_S sr_e sr_U sr_V andb]. split; [|split; [|split; [|split]]].
    + auto.
    + intros j. unfold vset, r_s. zbq; auto.
    + intros j Hj. unfold E2. zbq; subst; auto.
    + intros i j. unfold colpart. rewrite A2_col. zbq; subst; cbn [andb]; auto.
    + auto.
Qed.

Lemma A2_low k i j : i < k -> r_A2 k i j = sr_A (st k) i j.
Proof. intros. unfold r_A2, ca_M, sc_M. replace (k <=? i) with false by (symmetry; apply Z.leb_gt; lia). rewrite !andb_false_r. auto. Qed.
Lemma stab k : 0 <= k <= nct -> forall j, 0 <= j < k ->
  sr_S (st k) j = r_s j /\ (j < nrt -> sr_e (st k) j = r_e j) /\ (forall i, j <= i < m -> sr_U (st k) i j = r_vU j i) /\
  (j < nrt -> forall i, j < i < n -> sr_V (st k) i j = r_vV j i) /\ (forall c, 0 <= c < n -> sr_A (st k) j c = r_A2 j j c).
Proof.
  intros [Hk Hc]. revert Hc. pose proof nct_le as Hct. apply (Rs_ind (fun k => k <= nct -> forall j, 0 <= j < k ->
    sr_S (st k) j = r_s j /\ (j < nrt -> sr_e (st k) j = r_e j) /\ (forall i, j <= i < m -> sr_U (st k) i j = r_vU j i) /\
    (j < nrt -> forall i, j < i < n -> sr_V (st k) i j = r_vV j i) /\ (forall c, 0 <= c < n -> sr_A (st k) j c = r_A2 j j c)) 0 k Hk); [lia|].
  intros t Ht IH Hc j Hj. destruct (step_eq t ltac:(lia)) as (EA & ES & Ee & EU & EV). destruct (Z.eq_dec j t) as [->|Hne].
  - split; [|split; [|split; [|split]]].
    + rewrite ES, Z.eqb_refl. auto.
    + intros Hr. rewrite Ee by lia. rewrite Z.eqb_refl. zbq; auto.
    + intros i Hi. rewrite EU. zbq; auto.
    + intros Hr i Hi. rewrite EV. zbq; auto.
    + intros c Hc'. rewrite EA by lia. rewrite Z.ltb_irrefl, andb_false_r. auto.
  - destruct (IH ltac:(lia) j ltac:(lia)) as (I1 & I2 & I3 & I4 & I5). split; [|split; [|split; [|split]]].
    + rewrite ES. zbq; auto.
    + intros Hr. rewrite Ee by lia. zbq; auto.
    + intros i Hi. rewrite EU. zbq; auto.
    + intros Hr i Hi. rewrite EV. replace (j =? t) with false by (symmetry; apply Z.eqb_neq; lia). rewrite andb_false_r. cbn [andb]. auto.
    + intros c Hc'. rewrite EA by lia. replace (t <? j) with false by (symmetry; apply Z.ltb_ge; lia). rewrite andb_false_r. cbn [andb]. rewrite A2_low by lia. auto.
Qed.
Lemma U_upper k : 0 <= k <= nct -> forall i j, i < j -> sr_U (st k) i j = 0%R.
Proof.
  intros [Hk Hc]. revert Hc. apply (Rs_ind (fun k => k <= nct -> forall i j, i < j -> sr_U (st k) i j = 0%R) 0 k Hk); [reflexivity|].
  intros t Ht IH Hc i j Hij. destruct (step_eq t ltac:(lia)) as (_ & _ & _ & EU & _). rewrite EU. zbq; cbn [andb]; auto; apply IH; lia.
Qed.

Definition r_M (k : Z) : Z -> Z -> R := accum (fun t M => mmul n (mmul m (r_H t) M) (r_G t)) (Z.to_nat k) A.
Lemma r_M_S k : 0 <= k -> r_M (k + 1) = mmul n (mmul m (r_H k) (r_M k)) (r_G k).
Proof. intros. unfold r_M. rewrite accum_S by lia. auto. Qed.
Lemma r_M_form k : 0 <= k <= nct -> forall i j, 0 <= i < m -> 0 <= j < n -> r_M k i j =
  if i <? k then (if j =? i then r_s i else if j =? i + 1 then (if i <? nrt then r_e i else r_A2 i i (i + 1)) else 0%R)
  else if j <? k then 0%R else sr_A (st k) i j.
Proof.
  intros [Hk Hc]. revert Hc. pose proof nct_le as Hct. pose proof nrt_le as Hrt. apply (Rs_ind (fun k => k <= nct -> forall i j, 0 <= i < m -> 0 <= j < n -> r_M k i j =
    if i <? k then (if j =? i then r_s i else if j =? i + 1 then (if i <? nrt then r_e i else r_A2 i i (i + 1)) else 0%R)
    else if j <? k then 0%R else sr_A (st k) i j) 0 k Hk).
  { intros _ i j Hi Hj. zbq; auto. }
  intros t Ht IH Hc. specialize (IH ltac:(lia)). destruct (step_eq t ltac:(lia)) as (EA & _). rewrite r_M_S by lia.
  (* the left reflection *)
  assert (EL : forall i j, 0 <= i < m -> 0 <= j < n -> mmul m (r_H t) (r_M t) i j =
    if i <? t then r_M t i j else if j <? t then 0%R else if j =? t then (if i =? t then r_s t else 0%R) else r_A2 t i j).
  { intros i j Hi Hj. unfold r_H. destruct (Z.ltb_spec i t) as [Hit|Hit].
    { rewrite hR_app by lia. replace (t <=? i) with false by (symmetry; apply Z.leb_gt; lia). rewrite andb_false_r. auto. }
    destruct (Z.ltb_spec j t) as [Hjt|Hjt].
    { rewrite hR_app by lia. assert (K : r_M t i j = 0%R) by (rewrite IH by lia; zbq; auto). destruct (r_bU t && (t <=? i)); auto.
      unfold hap. rewrite K, fadds_R by lia. rops. rewrite (Rs_zero t m) by (intros r Hr; rewrite IH by lia; zbq; ring). unfold Rdiv. ring. }
    destruct (Z.eqb_spec j t) as [->|Hne].
    { unfold r_bU, r_vU. rewrite (hR_col m t (r_c t) ltac:(lia)); [zbq; auto| |lia]. intros r Hr. rewrite IH by lia. unfold r_c. zbq; auto. }
    rewrite hR_app by lia. assert (K : forall r, t <= r < m -> r_M t r j = sr_A (st t) r j) by (intros; rewrite IH by lia; zbq; auto).
    unfold r_A2, ca_M. replace (t <? j) with true by (symmetry; apply Z.ltb_lt; lia). rewrite andb_true_r. destruct (r_bU t && (t <=? i)) eqn:Eb.
    - unfold hap. rewrite !fadds_R by lia. unfold sc_M at 1. replace (j =? t) with false by (symmetry; apply Z.eqb_neq; lia). cbn [andb]. rewrite K by lia. rops.
      rewrite (Rs_ext t m (fun r => sc_M (O := ROps) m t (sr_A (st t)) r t * sc_M (O := ROps) m t (sr_A (st t)) r j)%R (fun r => r_vU t r * r_M t r j)%R).
      2:{ intros r Hr. unfold sc_M, r_vU. rewrite Z.eqb_refl. zbq. cbn [andb]. rewrite K by lia. auto. }
      unfold sc_M, r_vU. rewrite Z.eqb_refl, Z.leb_refl. zbq. cbn [andb]. auto.
    - unfold sc_M. replace (j =? t) with false by (symmetry; apply Z.eqb_neq; lia). cbn [andb]. rewrite K by lia. auto. }
  set (X := mmul m (r_H t) (r_M t)) in *. intros i j Hi Hj. unfold r_G. rewrite hR_app_r by lia.
  destruct (Z.ltb_spec i (t + 1)) as [Hit|Hit].
  - destruct (Z.eq_dec i t) as [->|Hne].
    + (* row t *)
      destruct (Z.leb_spec (t + 1) j) as [Htj|Htj].
      2:{ rewrite andb_false_r, EL by lia. zbq; auto. }
      destruct (Z.ltb_spec t nrt) as [Hr|Hr].
      * assert (K : mmul n (hR (r_bV t) (r_vV t) (t + 1)) (trm X) j t = if j <? t + 1 then trm X j t else if j =? t + 1 then r_e t else 0%R).
        { unfold r_bV. replace (t <? nrt) with true by (symmetry; apply Z.ltb_lt; lia). cbn [andb]. unfold r_vV, r_e. apply hR_col; try lia.
          intros r Hr'. unfold trm. rewrite EL by lia. unfold r_r. zbq; auto. }
        rewrite hR_app in K by lia. replace (t + 1 <=? j) with true in K by (symmetry; apply Z.leb_le; lia). rewrite !andb_true_r in *.
        replace (j <? t + 1) with false in K by (symmetry; apply Z.ltb_ge; lia). replace (j =? t) with false by (symmetry; apply Z.eqb_neq; lia). rewrite <- K.
        destruct (r_bV t); auto. unfold hap. rewrite fadds_R by lia. rops. unfold trm. rewrite Rplus_0_l. unfold Rdiv. ring.
      * assert (EbV : r_bV t = false) by (unfold r_bV; zbq; auto). rewrite EbV. cbn [andb]. rewrite EL by lia. zbq; auto; try lia. f_equal. lia.
    + (* earlier rows *)
      assert (K : X i j = r_M t i j) by (rewrite EL by lia; zbq; auto). rewrite K. rewrite (IH i j) by lia. replace (i <? t) with true by (symmetry; apply Z.ltb_lt; lia).
      destruct (r_bV t && (t + 1 <=? j)) eqn:Eb; auto. apply andb_prop in Eb. destruct Eb as [_ Eb]. apply Z.leb_le in Eb.
      rewrite (Rs_zero (t + 1) n) by (intros r Hr; rewrite EL by lia; replace (i <? t) with true by (symmetry; apply Z.ltb_lt; lia); rewrite IH by lia; zbq; ring). ring.
  - rewrite (EL i j) by lia. replace (i <? t) with false by (symmetry; apply Z.ltb_ge; lia). replace (i =? t) with false by (symmetry; apply Z.eqb_neq; lia).
    destruct (Z.ltb_spec j (t + 1)).
    + replace (t + 1 <=? j) with false by (symmetry; apply Z.leb_gt; lia). rewrite andb_false_r. zbq; auto.
    + replace (t + 1 <=? j) with true by (symmetry; apply Z.leb_le; lia). rewrite andb_true_r. rewrite EA by lia. replace (t <? i) with true by (symmetry; apply Z.ltb_lt; lia). replace (t <? j) with true by (symmetry; apply Z.ltb_lt; lia). rewrite !andb_true_r.
      replace (j <? t) with false by (symmetry; apply Z.ltb_ge; lia). replace (j =? t) with false by (symmetry; apply Z.eqb_neq; lia). destruct (r_bV t); auto. f_equal. f_equal.
      apply Rs_ext. intros r Hr. rewrite EL by lia. zbq; auto.
Qed.

Lemma r_H_sq k : 0 <= k < nct -> hsq m (r_bU k) (r_vU k) k.
Proof. intros Hk. pose proof nct_le. apply v_sq. lia. Qed.
Lemma r_G_sq k : 0 <= k < n -> hsq n (r_bV k) (r_vV k) (k + 1).
Proof.
  intros Hk. pose proof nrt_le. unfold r_bV. destruct (Z.ltb_spec k nrt); cbn [andb]; [apply v_sq; lia|]. intros K. discriminate.
Qed.
Lemma r_A_form k : 0 <= k <= nct -> meq m n A (mmul n (mmul m (lp m r_H k) (r_M k)) (trm (lp n r_G k))).
Proof.
  intros [Hk Hc]. revert Hc. pose proof nct_le as Hct. apply (Rs_ind (fun k => k <= nct -> meq m n A (mmul n (mmul m (lp m r_H k) (r_M k)) (trm (lp n r_G k)))) 0 k Hk).
  { intros _ i j Hi Hj. unfold lp, r_M. cbn [Z.to_nat accum]. rewrite (mmul_ext n _ A _ idm); [symmetry; apply mmul_1_r; auto|intros; apply mmul_1_l; auto|intros; unfold trm; apply idm_sym]. }
  intros t Ht IH Hc i j Hi Hj. rewrite (IH ltac:(lia) i j Hi Hj). rewrite !lp_S, r_M_S by lia.
  set (P := lp m r_H t). set (W := lp n r_G t). set (M := r_M t).
  assert (HH : meq m m (mmul m (r_H t) (r_H t)) idm) by (apply hR_inv; [lia|apply r_H_sq; lia]).
  assert (HG : meq n n (mmul n (r_G t) (r_G t)) idm) by (apply hR_inv; [lia|apply r_G_sq; lia]).
  symmetry. rewrite (mmul_ext n _ (mmul n (mmul m (mmul m P (r_H t)) (mmul m (r_H t) M)) (r_G t)) _ (mmul n (trm (r_G t)) (trm W))).
  2:{ intros q Hq. symmetry. apply mmul_assoc. }
  2:{ intros q Hq. apply trm_mmul. }
  rewrite mmul_assoc. apply mmul_ext.
  - intros q Hq. rewrite mmul_assoc. apply mmul_ext; auto. intros q' Hq'. rewrite <- mmul_assoc. rewrite (mmul_ext m _ idm _ M) by (intros; auto). apply mmul_1_l. auto.
  - intros q Hq. rewrite <- mmul_assoc. rewrite (mmul_ext n _ idm _ (trm W)); [apply mmul_1_l; auto| |auto]. intros q' Hq'. rewrite <- (HG q q' Hq Hq'). apply mmul_ext; auto.
    intros. unfold trm, r_G. apply hR_sym.
Qed.

(** The columns accumulated in U and V. *)
Lemma gu_col k : 0 <= k <= nct -> forall i j, j < k -> gu_iter (O := ROps) m nct (bd_S (O := ROps) m n (st nct)) (sr_U (st nct)) k i j = sr_U (st nct) i j.
Proof.
  intros Hk. replace k with (nct - (nct - k)) by lia. assert (HH : 0 <= nct - k <= nct) by lia. revert HH. generalize (nct - k). intros t [Ht Ht2]. revert Ht2.
  apply (Rs_ind (fun t => t <= nct -> forall i j, j < nct - t -> gu_iter (O := ROps) m nct (bd_S (O := ROps) m n (st nct)) (sr_U (st nct)) (nct - t) i j = sr_U (st nct) i j) 0 t Ht).
  - intros _ i j Hj. unfold gu_iter. replace (Z.to_nat (nct - (nct - 0))) with 0%nat by lia. cbn [accum]. unfold gu_init. zbq; auto.
  - intros s Hs IH Hs2 i j Hj. rewrite gu_iter_S by lia. replace (nct - (s + 1) + 1) with (nct - s) by lia. unfold gu_step.
    destruct (fne _ _); zbq; cbn [andb]; apply IH; lia.
Qed.
Lemma gu_ls k : 0 <= k <= nct -> forall i j, 0 <= i < m -> k <= j < n -> gu_iter (O := ROps) m nct (bd_S (O := ROps) m n (st nct)) (sr_U (st nct)) k i j = ls m r_H nct k i j.
Proof.
  intros Hk. pose proof nct_le as Hct. replace k with (nct - (nct - k)) by lia. assert (HH : 0 <= nct - k <= nct) by lia. revert HH. generalize (nct - k). intros t [Ht Ht2]. revert Ht2.
  apply (Rs_ind (fun t => t <= nct -> forall i j, 0 <= i < m -> nct - t <= j < n -> gu_iter (O := ROps) m nct (bd_S (O := ROps) m n (st nct)) (sr_U (st nct)) (nct - t) i j = ls m r_H nct (nct - t) i j) 0 t Ht).
  - intros _ i j Hi Hj. unfold gu_iter. replace (Z.to_nat (nct - (nct - 0))) with 0%nat by lia. cbn [accum]. unfold gu_init. rewrite ls_nil by lia. unfold idm. zbq; auto.
  - intros s Hs IH Hs2 i j Hi Hj. rewrite gu_iter_S, ls_S by lia. replace (nct - (s + 1) + 1) with (nct - s) by lia. set (q := nct - (s + 1)) in *.
    destruct (stab nct ltac:(lia) q ltac:(lia)) as (ES & _ & EU & _).
    assert (Eb : fne (O := ROps) (bd_S (O := ROps) m n (st nct) q) fzero = r_bU q).
    { unfold bd_S. fold nct. replace (q =? nct) with false by (symmetry; apply Z.eqb_neq; lia). rewrite andb_false_r, ES. apply (sg_ne m q (r_c q)). }
    rewrite Eb. unfold r_H at 1. rewrite hR_app by lia. set (W := gu_iter (O := ROps) m nct (bd_S (O := ROps) m n (st nct)) (sr_U (st nct)) (nct - s)) in *.
    assert (EW : forall r, q <= r < m -> W r q = r_vU q r) by (intros r Hr; unfold W; rewrite gu_col by lia; apply EU; lia).
    assert (EW0 : forall r, r < q -> W r q = 0%R) by (intros r Hr; unfold W; rewrite gu_col by lia; apply U_upper; lia).
    assert (EI : forall r, 0 <= r < m -> ls m r_H nct (nct - s) r q = idm r q).
    { intros r Hr. pose proof (ls_low m r_bU r_vU 0 nct (nct - s) ltac:(lia) ltac:(lia) ltac:(lia) ltac:(lia) r q ltac:(lia) ltac:(lia) ltac:(lia)) as K. rewrite <- K.
      refine (f_equal (fun f : Z -> Z -> R => f r q) (_ : ls m r_H nct (nct - s) = ls m _ nct (nct - s))). unfold ls. apply TabTac.accum_ext. intros. rewrite Z.add_0_r. auto. }
    unfold gu_step. destruct (r_bU q) eqn:EbU; cbn [andb].
    + destruct (Z.ltb_spec q j) as [Hqj|Hqj]; cbn [andb].
      * destruct (Z.leb_spec q i).
        -- unfold hap. rewrite !fadds_R by lia. rewrite !EW by lia. rewrite IH by lia. rops.
           rewrite (Rs_ext q m (fun r => W r q * W r j)%R (fun r => r_vU q r * ls m r_H nct (nct - s) r j)%R) by (intros r Hr; rewrite EW, IH by lia; auto). auto.
        -- zbq. apply IH; lia.
      * assert (j = q) by lia. subst j. rewrite Z.eqb_refl.
        assert (Hv : (r_vU q q <> 0)%R). { pose proof (v_pos m q (r_c q) ltac:(lia) EbU) as K. unfold r_vU. lra. }
        destruct (Z.leb_spec q i).
        -- unfold hap. rewrite fadds_R by lia. rewrite (EI i Hi). rops.
           rewrite (Rs_ext q m _ (fun r => r_vU q r * idm r q)%R) by (intros r Hr; rewrite EI by lia; auto).
           rewrite (Rs_pick q m q) by (try lia; intros r Hr Hn'; unfold idm; zbq; ring). unfold idm. rewrite Z.eqb_refl. destruct (Z.eqb_spec i q) as [->|].
           ++ rewrite EW by lia. field. auto.
           ++ rewrite EW by lia. field. auto.
        -- rewrite EI by lia. unfold idm. zbq; auto; rewrite EW0 by lia; auto.
    + destruct (Z.eqb_spec j q) as [->|]; [rewrite EI by lia; unfold idm; auto|apply IH; lia].
Qed.
Lemma gv_col k : 0 <= k <= n -> forall i j, j < k -> gv_iter (O := ROps) n nrt (bd_E (O := ROps) n (st nct)) (sr_V (st nct)) k i j = sr_V (st nct) i j.
Proof.
  intros Hk. replace k with (n - (n - k)) by lia. assert (HH : 0 <= n - k <= n) by lia. revert HH. generalize (n - k). intros t [Ht Ht2]. revert Ht2.
  apply (Rs_ind (fun t => t <= n -> forall i j, j < n - t -> gv_iter (O := ROps) n nrt (bd_E (O := ROps) n (st nct)) (sr_V (st nct)) (n - t) i j = sr_V (st nct) i j) 0 t Ht).
  - intros _ i j Hj. unfold gv_iter. replace (Z.to_nat (n - (n - 0))) with 0%nat by lia. auto.
  - intros s Hs IH Hs2 i j Hj. rewrite gv_iter_S by lia. replace (n - (s + 1) + 1) with (n - s) by lia. unfold gv_step.
    replace (n - (s + 1) <? j) with false by (symmetry; apply Z.ltb_ge; lia). replace (j =? n - (s + 1)) with false by (symmetry; apply Z.eqb_neq; lia). rewrite andb_false_r. cbn [andb]. apply IH; lia.
Qed.
Lemma gv_ls k : 0 <= k <= n -> forall i j, 0 <= i < n -> k <= j < n -> gv_iter (O := ROps) n nrt (bd_E (O := ROps) n (st nct)) (sr_V (st nct)) k i j = ls n r_G n k i j.
Proof.
  intros Hk. pose proof nct_le as Hct. pose proof nrt_le as Hrt. replace k with (n - (n - k)) by lia. assert (HH : 0 <= n - k <= n) by lia. revert HH. generalize (n - k). intros t [Ht Ht2]. revert Ht2.
  apply (Rs_ind (fun t => t <= n -> forall i j, 0 <= i < n -> n - t <= j < n -> gv_iter (O := ROps) n nrt (bd_E (O := ROps) n (st nct)) (sr_V (st nct)) (n - t) i j = ls n r_G n (n - t) i j) 0 t Ht).
  - intros _ i j Hi Hj. lia.
  - intros s Hs IH Hs2 i j Hi Hj. assert (EI : forall q, 0 <= q < n -> forall r, 0 <= r < n -> ls n r_G n q r q = idm r q).
    { intros q Hq r Hr. exact (ls_low n r_bV r_vV 1 n q ltac:(lia) ltac:(lia) ltac:(lia) ltac:(lia) r q ltac:(lia) ltac:(lia) ltac:(lia)). }
    destruct (Z.eq_dec j (n - (s + 1))) as [Ej|Ej].
    { rewrite gv_iter_S by lia. unfold gv_step. rewrite Ej, Z.eqb_refl. rewrite EI by lia. unfold idm. auto. }
    rewrite gv_iter_S, ls_S by lia. replace (n - (s + 1) + 1) with (n - s) by lia. set (q := n - (s + 1)) in *.
    unfold r_G at 1. rewrite hR_app by lia. set (W := gv_iter (O := ROps) n nrt (bd_E (O := ROps) n (st nct)) (sr_V (st nct)) (n - s)) in *.
    unfold gv_step. replace (j =? q) with false by (symmetry; apply Z.eqb_neq; lia). replace (q <? j) with true by (symmetry; apply Z.ltb_lt; lia). rewrite andb_true_r.
    destruct (Z.ltb_spec q nrt) as [Hq|Hq].
    2:{ replace (r_bV q) with false by (unfold r_bV; zbq; auto). cbn [andb]. apply IH; lia. }
    destruct (stab nct ltac:(lia) q ltac:(lia)) as (_ & Ee & _ & EV & _). specialize (Ee Hq). specialize (EV Hq).
    assert (Eb : true && fne (O := ROps) (bd_E (O := ROps) n (st nct) q) fzero = r_bV q).
    { unfold bd_E. fold nrt. replace (q =? nrt) with false by (symmetry; apply Z.eqb_neq; lia). replace (q =? n - 1) with false by (symmetry; apply Z.eqb_neq; lia). rewrite andb_false_r, Ee. unfold r_bV.
      replace (q <? nrt) with true by (symmetry; apply Z.ltb_lt; lia). cbn [andb]. apply (sg_ne n (q + 1) (r_r q)). }
    rewrite Eb. replace (q + 1 <=? i) with (q <? i) by (destruct (Z.ltb_spec q i), (Z.leb_spec (q + 1) i); auto; lia).
    assert (EW : forall r, q < r < n -> W r q = r_vV q r) by (intros r Hr; unfold W; rewrite gv_col by lia; apply EV; lia).
    destruct (r_bV q); cbn [andb]; [|apply IH; lia]. destruct (Z.ltb_spec q i); [|apply IH; lia].
    unfold hap. rewrite !fadds_R by lia. rewrite !EW by lia. rewrite IH by lia. rops.
    rewrite (Rs_ext (q + 1) n (fun r => W r q * W r j)%R (fun r => r_vV q r * ls n r_G n (n - s) r j)%R) by (intros r Hr; rewrite EW, IH by lia; auto). auto.
Qed.
End Red.

(** Bidiagonal tables; columns that are orthonormal. *)
Definition bid (S E : Z -> R) (i j : Z) : R := if i =? j then S i else if j =? i + 1 then E i else 0%R.
Definition orthcols (m n : Z) (U : Z -> Z -> R) : Prop := forall i j, 0 <= i < n -> 0 <= j < n -> Rs 0 m (fun r => U r i * U r j)%R = idm i j.
Definition usv (n : Z) (U B V : Z -> Z -> R) : Z -> Z -> R := mmul n (mmul n U B) (trm V).

Theorem sv0_real m n A : 1 <= n -> n <= m -> let y := sv0 (O := ROps) m n A in
  meq m n A (usv n (t_U y) (bid (t_S y) (t_E y)) (t_V y)) /\ orthcols m n (t_U y) /\ orthogonal n (t_V y) /\ t_E y (n - 1) = 0%R.
Proof.
  intros Hn Hm y. pose proof (nct_le m n Hn Hm) as Hct. pose proof (nrt_le m n Hn) as Hrt. unfold y, sv0. cbn [t_U t_S t_E t_V]. unfold sr_fin.
  set (nct := s_nct m n) in *. set (nrt := s_nrt n) in *. set (st := sr_iter (O := ROps) m n A nct).
  set (L := lp m (r_H m n A) nct). set (W := lp n (r_G m n A) nct).
  assert (EU : forall i j, 0 <= i < m -> 0 <= j < n -> gu_iter (O := ROps) m nct (bd_S (O := ROps) m n st) (sr_U st) 0 i j = L i j).
  { intros i j Hi Hj. unfold L. rewrite (lp_end m _ nct ltac:(lia) i j) by lia. apply (gu_ls m n A Hn Hm 0); lia. }
  assert (EV : meq n n (gv_iter (O := ROps) n nrt (bd_E (O := ROps) n st) (sr_V st) 0) W).
  { intros i j Hi Hj. transitivity (lp n (r_G m n A) n i j).
    - rewrite (lp_end n _ n ltac:(lia) i j) by lia. apply (gv_ls m n A Hn Hm 0); lia.
    - unfold W. destruct (Z.eq_dec nct n) as [->|]; auto. assert (nct = n - 1) by lia. assert (En : lp n (r_G m n A) n = lp n (r_G m n A) (nct + 1)) by (f_equal; lia). rewrite En, lp_S by lia.
      rewrite (mmul_ext n _ (lp n (r_G m n A) nct) _ idm); auto; [apply mmul_1_r; auto|]. intros q Hq. unfold r_G, hR.
      replace (r_bV m n A nct) with false; auto. unfold r_bV. fold nrt. zbq; auto. }
  assert (OL : orthogonal m L) by (apply lp_orth; [lia|]; intros t Ht; apply hR_orth; [lia|]; apply (r_H_sq m n A Hn Hm t Ht)).
  assert (OW : orthogonal n W) by (apply lp_orth; [lia|]; intros t Ht; apply hR_orth; [lia|]; apply (r_G_sq m n A Hn t); lia).
  split; [|split; [|split]].
  - intros i j Hi Hj. rewrite (r_A_form m n A Hn Hm nct ltac:(lia) i j Hi Hj). fold L W. unfold usv. apply mmul_ext.
    + intros q Hq. unfold mmul. rewrite (Rs_trunc 0 n m).
      * apply Rs_ext. intros a Ha. rewrite EU by lia. f_equal. rewrite (r_M_form m n A Hn Hm nct ltac:(lia)) by lia. fold st nrt. unfold bid, bd_S, bd_E. fold nct nrt.
        assert (KA : forall c, 0 <= c < n -> 0 <= a < nct -> sr_A st a c = r_A2 m n A a a c).
        { intros c Hc' Ha'. destruct (stab m n A Hn Hm nct ltac:(lia) a ltac:(lia)) as (_ & _ & _ & _ & K). apply K. auto. }
        assert (KS : 0 <= a < nct -> sr_S st a = r_s m n A a).
        { intros Ha'. destruct (stab m n A Hn Hm nct ltac:(lia) a ltac:(lia)) as (K & _). apply K. }
        assert (KE : 0 <= a < nct -> a < nrt -> sr_e st a = r_e m n A a).
        { intros Ha' Hr. destruct (stab m n A Hn Hm nct ltac:(lia) a ltac:(lia)) as (_ & K & _). apply K; auto. }
        destruct (Z.ltb_spec a nct) as [Hac|Hac].
        -- destruct (Z.eqb_spec q a) as [->|Hqa].
           { rewrite Z.eqb_refl. replace (a =? nct) with false by (symmetry; apply Z.eqb_neq; lia). rewrite andb_false_r. symmetry. apply KS. lia. }
           replace (a =? q) with false by (symmetry; apply Z.eqb_neq; lia). destruct (Z.eqb_spec q (a + 1)) as [->|]; auto.
           replace (a =? n - 1) with false by (symmetry; apply Z.eqb_neq; lia). destruct (Z.ltb_spec a nrt).
           { replace (a =? nrt) with false by (symmetry; apply Z.eqb_neq; lia). rewrite andb_false_r. symmetry. apply KE; lia. }
           assert (a = nrt) by lia. subst a. rewrite Z.eqb_refl. replace (nrt + 1 <? n) with true by (symmetry; apply Z.ltb_lt; lia). cbn [andb].
           replace (n - 1) with (nrt + 1) by lia. symmetry. apply KA; lia.
        -- assert (a = nct /\ nct = n - 1) as [-> Ec] by lia. destruct (Z.ltb_spec q nct) as [Hq'|Hq'].
           { replace (nct =? q) with false by (symmetry; apply Z.eqb_neq; lia). replace (q =? nct + 1) with false by (symmetry; apply Z.eqb_neq; lia). auto. }
           assert (q = nct) by lia. subst q. rewrite Z.eqb_refl. replace (nct <? n) with true by (symmetry; apply Z.ltb_lt; lia). auto.
      * lia.
      * intros a Ha. rewrite (r_M_form m n A Hn Hm nct ltac:(lia)) by lia. replace (a <? nct) with false by (symmetry; apply Z.ltb_ge; lia).
        destruct (Z.ltb_spec q nct); [ring|]. unfold nct, s_nct in *. lia.
    + intros q Hq. unfold trm. symmetry. apply EV; auto.
  - intros i j Hi Hj. destruct OL as [OL _]. rewrite <- (OL i j ltac:(lia) ltac:(lia)). unfold mmul, trm. apply Rs_ext. intros r Hr. rewrite !EU by lia. auto.
  - apply (orth_ext n W); auto. apply meq_sym. exact EV.
  - unfold bd_E. rewrite Z.eqb_refl. auto.
Qed.

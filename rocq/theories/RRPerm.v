(** The rank-revealing QR decomposition is the QR decomposition of the matrix
    with its columns rearranged, in any arithmetic. *)
From Coq Require Import ZArith List Lia Bool.
From Verif Require Import Base BaseLemmas Scalar Vector VecSpec Matrix MatSpec MatFacts Array2D BlockM Diagonal RealMatrixM MatrixOps TabTac FSum Array2DFacts  CholFacts LUSpec QR QRSpec QRFacts QRFacts2 QRFacts3 QRProps.
Import ListNotations.
Open Scope Z_scope.

Section RRPerm.
Context {O : Ops}.
Variable m : Z.
Lemma hh_norm_ext x x' k : (forall r, x r = x' r) -> hh_norm m x k = hh_norm m x' k.
Proof. intros H. unfold hh_norm. f_equal. apply fadds_ext. intros. rewrite !H. auto. Qed.
Lemma hh_a_ext x x' k : (forall r, x r = x' r) -> hh_a m x k = hh_a m x' k.
Proof. intros H. unfold hh_a. rewrite (H k), (hh_norm_ext x x' k H). auto. Qed.
Lemma hh_v_ext x x' k r : (forall r, x r = x' r) -> hh_v m x k r = hh_v m x' k r.
Proof. intros H. unfold hh_v. rewrite (hh_a_ext x x' k H), !H. auto. Qed.
Lemma hh_alpha_ext x x' z z' k : (forall r, x r = x' r) -> (forall r, z r = z' r) -> hh_alpha m x z k = hh_alpha m x' z' k.
Proof.
  intros H Hz. unfold hh_alpha. rewrite (hh_a_ext x x' k H), (hh_v_ext x x' k k H). f_equal. apply fsubl_ext. intros. rewrite Hz, (hh_v_ext x x' k _ H). auto.
Qed.
Lemma hh_M_ext M M' k j j' r : (forall r, M k r = M' k r) -> (forall r, M j r = M' j' r) -> (j =? k) = (j' =? k) -> (k <? j) = (k <? j') -> hh_M m M k j r = hh_M m M' k j' r.
Proof.
  intros H Hj E1 E2. unfold hh_M. rewrite (hh_a_ext _ _ k H), E1, E2, (hh_v_ext _ _ k r H), (hh_alpha_ext _ _ _ _ k H Hj), Hj. auto.
Qed.
Lemma hh_iter_S A k : 0 <= k -> hh_iter m A (k + 1) = hh_step m k (hh_iter m A k). Proof. intros. unfold hh_iter. apply accum_S. auto. Qed.
(** Columns not reached yet can be exchanged first. *)
Lemma hh_iter_swap A k l t : 0 <= t <= k -> k <= l -> 
  (forall j r, fst (hh_iter m (fun r j => A r (swp k l j)) t) j r = fst (hh_iter m A t) (swp k l j) r) /\
  (forall i, snd (hh_iter m (fun r j => A r (swp k l j)) t) i = snd (hh_iter m A t) i).
Proof.
  intros [Ht Htk] Hkl. revert Htk. pattern t. apply natlike_ind; auto; clear t Ht.
  intros t Ht IH Htk. change (Z.succ t) with (t + 1) in *. destruct (IH ltac:(lia)) as [I1 I2]. rewrite !hh_iter_S by auto.
  assert (Et : swp k l t = t) by (unfold swp; zbq; lia).
  assert (Ek : forall r, fst (hh_iter m (fun r j => A r (swp k l j)) t) t r = fst (hh_iter m A t) t r) by (intros; rewrite I1, Et; auto).
  unfold hh_step. cbn [fst snd]. split.
  - intros j r. apply hh_M_ext; auto.
    + unfold swp. destruct (Z.eqb_spec j k), (Z.eqb_spec j l); repeat match goal with |- context[?a =? ?b] => destruct (Z.eqb_spec a b) | |- context[?a <? ?b] => destruct (Z.ltb_spec a b) end; auto; exfalso; lia.
    + unfold swp. destruct (Z.eqb_spec j k), (Z.eqb_spec j l); repeat match goal with |- context[?a =? ?b] => destruct (Z.eqb_spec a b) | |- context[?a <? ?b] => destruct (Z.ltb_spec a b) end; auto; exfalso; lia.
  - intros i. unfold hh_D. destruct (i =? t); auto. apply hh_a_ext. auto.
Qed.
Lemma hh_iter_ext A A' k : 0 <= k -> (forall r j, A r j = A' r j) ->
  (forall j r, fst (hh_iter m A k) j r = fst (hh_iter m A' k) j r) /\ (forall i, snd (hh_iter m A k) i = snd (hh_iter m A' k) i).
Proof.
  intros Hk H. pattern k. apply natlike_ind; auto; clear k Hk.
  - split; intros; cbn; auto.
  - intros t Ht [I1 I2]. change (Z.succ t) with (t + 1) in *. rewrite !hh_iter_S by auto. unfold hh_step. cbn [fst snd]. split.
    + intros j r. apply hh_M_ext; auto.
    + intros i. unfold hh_D. destruct (i =? t); auto. apply hh_a_ext. auto.
Qed.
Lemma rr_iter_hh n A k : 0 <= k <= n -> let s := rr_iter m n A k in let H := hh_iter m (fun r j => A r (snd s j)) k in
  (forall j r, fst (fst s) j r = fst H j r) /\ (forall i, snd (fst s) i = snd H i).
Proof.
  cbv zeta. intros [Hk Hkn]. revert Hkn. pattern k. apply natlike_ind; auto; clear k Hk.
  intros t Ht IH Htn. change (Z.succ t) with (t + 1) in *. destruct (IH ltac:(lia)) as [I1 I2].
    replace (rr_iter m n A (t + 1)) with (rr_step m n t (rr_iter m n A t)) by (unfold rr_iter; rewrite accum_S by lia; auto).
    destruct (rr_iter m n A t) as [[M D] q]. cbn [rr_step fst snd] in *. pose proof (pick_range m n M t ltac:(lia)) as Hp. set (ix := snd (rr_pick m n M t)) in *.
    rewrite !hh_iter_S by auto. unfold hh_step. cbn [fst snd]. destruct (hh_iter_swap (fun r j => A r (q j)) t ix t ltac:(lia) ltac:(lia)) as [S1 S2]. cbn beta in S1, S2.
    assert (E : forall j r, M (swp t ix j) r = fst (hh_iter m (fun r j => A r (q (swp t ix j))) t) j r) by (intros; rewrite S1; apply I1). split.
    + intros j r. apply hh_M_ext; auto.
    + intros i. unfold hh_D. destruct (i =? t); [apply hh_a_ext; auto|]. rewrite S2. auto.
Qed.
End RRPerm.

Section State.
Context {O : Ops}.
(** The columns in the order of the pivots. *)
Definition pcols (m n : Z) (A : Z -> Z -> F) (i j : Z) : F := A i (rrq m n A j).
Lemma rr_state2 x m n A thr d : transposable x -> MatIs x m n A -> 1 <= m -> 1 <= n -> rr_of x thr d ->
  let H := hh_iter m (pcols m n A) (Z.min m n) in rr_ok m n (fst H) (snd H) (rrq m n A) thr d.
Proof.
  intros Ht Hx Hm Hn H. cbv zeta. destruct (rr_of_new _ _ _ H) as (d0 & E & Hc). eapply rr_calls_ok; [auto|auto| |exact Hc].
  destruct (rr_new_spec x m n A thr (transposes_ok _ _ _ _ Ht Hx) Hm Hn) as (d1 & E1 & (H1 & H2 & H3 & H4) & C0 & C1 & C2 & C3 & C4 & C5).
  rewrite E in E1. injection E1 as <-. unfold rr_ok, qr_ok. rewrite C0, C1, C2, C3, C4.
  destruct (rr_iter_hh m n A (Z.min m n) ltac:(lia)) as [I1 I2]. fold (rrq m n A) in I1, I2. refine (conj _ (conj H3 (conj H4 (conj _ I)))).
  - refine (conj _ (conj _ (conj C5 _))).
    + eapply RTab_ext; [exact H1|]. intros. cbn beta. apply I1.
    + eapply VTab_ext; [exact H2|]. intros. cbn beta. apply I2.
    + repeat split.
  - apply rr_iter_perm. lia.
Qed.
Lemma rr_lift3 m n M D q thr d f r c (T : Z -> Z -> F) : rr_ok m n M D q thr d -> wp (f (rr_qr d)) (fun x => general (fst x) /\ MatIs (fst x) r c T /\ qr_ok m n M D thr (snd x)) ->
  wp (rr_lift f d) (fun x => MatIs (fst x) r c T /\ rr_ok m n M D q thr (snd x)).
Proof. intros K W. apply (rr_lift_ok m n M D q thr d f (fun x => MatIs x r c T)); auto. eapply wp_conseq; [exact W|]. cbn beta. intros x (_ & H1 & H2). auto. Qed.
(** Both decompositions have the same factors. *)
Lemma rr_is_qr x m n A thr d : transposable x -> MatIs x m n A -> 1 <= m -> 1 <= n -> rr_of x thr d ->
  exists p Pm d4, rr_P d = Ok (Pm, d4) /\ MatIs Pm n n (fun i j => if i =? p j then fone else fzero) /\ permutes n p /\
  forall y d', transposable y -> MatIs y m n (fun i j => A i (p j)) -> qr_of y thr d' ->
    exists Q R H Qm Rm Hm Qm' Rm' Hm' d1 d2 d3 d1' d2' d3',
      rr_lift qr_Q d = Ok (Qm, d1) /\ rr_lift qr_R d = Ok (Rm, d2) /\ rr_lift qr_H d = Ok (Hm, d3) /\
      qr_Q d' = Ok (Qm', d1') /\ qr_R d' = Ok (Rm', d2') /\ qr_H d' = Ok (Hm', d3') /\
      MatIs Qm m m Q /\ MatIs Qm' m m Q /\ MatIs Rm m n R /\ MatIs Rm' m n R /\ MatIs Hm m n H /\ MatIs Hm' m n H /\
      rrs_IsNonSingular d = qrs_IsNonSingular d'.
Proof.
  intros Ht Hx Hm Hn Hd. pose proof (rr_state2 x m n A thr d Ht Hx Hm Hn Hd) as K. cbv zeta in K. destruct (rr_P_ok _ _ _ _ _ _ d Hn K) as ([P d4] & E4 & [_ H4] & _). cbn [fst] in *.
  exists (rrq m n A), P, d4. split; [auto|]. split; [exact H4|]. split; [apply K|]. intros y d' Hty Hy Hd'. pose proof (qr_state y m n _ thr d' Hty Hy Hm Hn Hd') as K'. fold (pcols m n A) in K'.
  change (fun i j : Z => A i (rrq m n A j)) with (pcols m n A) in K'.
  destruct (rr_lift3 _ _ _ _ _ _ d qr_Q _ _ _ K (qr_Q_ok _ _ _ _ _ _ Hm Hn (proj1 K))) as ([a1 d1] & E1 & H1 & _).
  destruct (rr_lift3 _ _ _ _ _ _ d qr_R _ _ _ K (qr_R_ok _ _ _ _ _ _ Hm Hn (proj1 K))) as ([a2 d2] & E2 & H2 & _).
  destruct (rr_lift3 _ _ _ _ _ _ d qr_H _ _ _ K (qr_H_ok _ _ _ _ _ _ Hm Hn (proj1 K))) as ([a3 d3] & E3 & H3 & _).
  destruct (qr_Q_ok _ _ _ _ _ _ Hm Hn K') as ([b1 e1] & F1 & _ & G1 & _). destruct (qr_R_ok _ _ _ _ _ _ Hm Hn K') as ([b2 e2] & F2 & _ & G2 & _). destruct (qr_H_ok _ _ _ _ _ _ Hm Hn K') as ([b3 e3] & F3 & _ & G3 & _).
  cbn [fst snd] in *. do 3 eexists. exists a1, a2, a3, b1, b2, b3, d1, d2, d3, e1, e2, e3. do 6 (split; [eassumption|]).
  split; [exact H1|]. split; [exact G1|]. split; [exact H2|]. split; [exact G2|]. split; [exact H3|]. split; [exact G3|].
  unfold rrs_IsNonSingular. destruct (qrs_IsNonSingular_ok _ _ _ _ _ _ Hm Hn (proj1 K)) as (s & -> & Hs). destruct (qrs_IsNonSingular_ok _ _ _ _ _ _ Hm Hn K') as (s' & -> & Hs').
  destruct s, s'; auto; exfalso.
  - pose proof (proj2 Hs' (proj1 Hs eq_refl)). discriminate.
  - pose proof (proj2 Hs (proj1 Hs' eq_refl)). discriminate.
Qed.
End State.

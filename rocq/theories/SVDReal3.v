(** The singular value decomposition in exact arithmetic: the rotations of one
    turn of the iteration. *)
From Coq Require Import ZArith QArith List Lia Bool Reals Lra Psatz.
From Verif Require Import Base BaseLemmas Scalar Vector VecSpec VectorFacts Matrix MatSpec MatFacts TabTac FSum RealOps RSum Tri House QR QRSpec QRFacts QRReal QRReal2 CholFacts HessReal Frob EigenFacts SchurReal SVDFacts SVDFacts2 SVDFacts3 SVDReal SVDReal2.
Open Scope Z_scope.

(** The rotation of columns a and b as a matrix. *)
Definition gr (a b : Z) (cs sn : R) : Z -> Z -> R := rotp (O := ROps) a b cs sn idm.
Lemma mmul_sym_idm n (M : Z -> Z -> R) i a : 0 <= a < n -> Rs 0 n (fun r => M i r * idm r a)%R = M i a.
Proof. intros. apply (mmul_1_r n M i a). auto. Qed.
Lemma gr_r n a b cs sn M i j : 0 <= a < n -> 0 <= b < n -> 0 <= j < n -> mmul n M (gr a b cs sn) i j = rotp (O := ROps) a b cs sn M i j.
Proof.
  intros Ha Hb Hj. unfold mmul, gr, rotp. rops. destruct (j =? a); [|destruct (j =? b)].
  - rewrite (Rs_ext 0 n _ (fun r => cs * (M i r * idm r a) + sn * (M i r * idm r b))%R) by (intros; ring). rewrite Rs_plus, !Rs_scal_l, !mmul_sym_idm by auto. auto.
  - rewrite (Rs_ext 0 n _ (fun r => - sn * (M i r * idm r a) + cs * (M i r * idm r b))%R) by (intros; ring). rewrite Rs_plus, !Rs_scal_l, !mmul_sym_idm by auto. auto.
  - apply mmul_sym_idm. auto.
Qed.
Lemma gr_l n a b cs sn M i j : 0 <= a < n -> 0 <= b < n -> 0 <= i < n -> mmul n (trm (gr a b cs sn)) M i j = rotp (O := ROps) a b cs sn (trm M) j i.
Proof. intros Ha Hb Hi. rewrite <- (gr_r n a b cs sn (trm M) j i) by auto. unfold mmul, trm. apply Rs_ext. intros. ring. Qed.
Lemma gr_tr a b cs sn i j : a <> b -> trm (gr a b cs sn) i j = gr a b cs (- sn) i j.
Proof. intros Hab. unfold trm, gr, rotp, idm. rops. zbq; subst; auto; try contradiction; try ring; try lia. Qed.
Lemma gr_orth n a b cs sn : 0 <= a < n -> 0 <= b < n -> a <> b -> (cs * cs + sn * sn = 1)%R -> orthogonal n (gr a b cs sn).
Proof.
  assert (K : forall cs sn, 0 <= a < n -> 0 <= b < n -> a <> b -> (cs * cs + sn * sn = 1)%R -> meq n n (mmul n (trm (gr a b cs sn)) (gr a b cs sn)) idm).
  { clear. intros cs sn Ha Hb Hab H i j Hi Hj. rewrite gr_l by auto. unfold rotp, trm, gr, rotp. rops. unfold idm. zbq; subst; try contradiction; try lia; nra. }
  intros Ha Hb Hab H. split; [auto|]. intros i j Hi Hj. rewrite <- (K cs (- sn)%R Ha Hb Hab ltac:(nra) i j Hi Hj). apply mmul_ext.
  - intros r Hr. exact (gr_tr a b cs sn r i Hab).
  - intros r Hr. apply gr_tr. auto.
Qed.

(** (U, B, V) turned into (U P, P^T B Q, V Q) by orthogonal P and Q. *)
Definition eqv (m n : Z) (U B V U' B' V' : Z -> Z -> R) : Prop :=
  exists P Q, orthogonal n P /\ orthogonal n Q /\ meq m n U' (mmul n U P) /\ meq n n V' (mmul n V Q) /\ meq n n B' (mmul n (mmul n (trm P) B) Q).
Lemma trm_id n M i j : 0 <= i < n -> mmul n (trm idm) M i j = M i j.
Proof. intros Hi. rewrite (mmul_ext n _ idm _ M) by (intros; auto; unfold trm; apply idm_sym). apply mmul_1_l. auto. Qed.
Lemma eqv_same m n U B V U' B' V' : meq m n U' U -> meq n n B' B -> meq n n V' V -> eqv m n U B V U' B' V'.
Proof.
  intros HU HB HV. exists idm, idm. split; [apply orth_id|]. split; [apply orth_id|]. split; [|split].
  - intros i j Hi Hj. rewrite mmul_1_r by auto. auto.
  - intros i j Hi Hj. rewrite mmul_1_r by auto. auto.
  - intros i j Hi Hj. rewrite mmul_1_r, trm_id by auto. auto.
Qed.
Lemma eqv_trans m n U B V U1 B1 V1 U2 B2 V2 : eqv m n U B V U1 B1 V1 -> eqv m n U1 B1 V1 U2 B2 V2 -> eqv m n U B V U2 B2 V2.
Proof.
  intros (P & Q & HP & HQ & EU & EV & EB) (P' & Q' & HP' & HQ' & EU' & EV' & EB'). exists (mmul n P P'), (mmul n Q Q').
  split; [apply orth_mmul; auto|]. split; [apply orth_mmul; auto|]. split; [|split].
  - intros i j Hi Hj. rewrite (EU' i j Hi Hj). rewrite <- mmul_assoc. apply mmul_ext; auto.
  - intros i j Hi Hj. rewrite (EV' i j Hi Hj). rewrite <- mmul_assoc. apply mmul_ext; auto.
  - intros i j Hi Hj. rewrite (EB' i j Hi Hj). rewrite <- mmul_assoc. apply mmul_ext; auto. intros q Hq.
    rewrite (mmul_ext n _ (trm P') _ (mmul n (mmul n (trm P) B) Q)) by (intros; auto). rewrite <- mmul_assoc. apply mmul_ext; auto. intros q' Hq'.
    rewrite <- mmul_assoc. apply mmul_ext; auto. intros. symmetry. apply trm_mmul.
Qed.
Lemma eqv_right m n a b cs sn U B V B' : 0 <= a < n -> 0 <= b < n -> a <> b -> (cs * cs + sn * sn = 1)%R -> meq n n B' (rotp (O := ROps) a b cs sn B) ->
  eqv m n U B V U B' (rotp (O := ROps) a b cs sn V).
Proof.
  intros Ha Hb Hab H HB. exists idm, (gr a b cs sn). split; [apply orth_id|]. split; [apply gr_orth; auto|]. split; [|split].
  - intros i j Hi Hj. rewrite mmul_1_r by auto. auto.
  - intros i j Hi Hj. symmetry. apply gr_r; auto.
  - intros i j Hi Hj. rewrite gr_r by auto. rewrite HB by auto. unfold rotp. rewrite !trm_id by auto. auto.
Qed.
Lemma eqv_left m n a b cs sn U B V B' : 0 <= a < n -> 0 <= b < n -> a <> b -> (cs * cs + sn * sn = 1)%R -> meq n n (trm B') (rotp (O := ROps) a b cs sn (trm B)) ->
  eqv m n U B V (rotp (O := ROps) a b cs sn U) B' V.
Proof.
  intros Ha Hb Hab H HB. exists (gr a b cs sn), idm. split; [apply gr_orth; auto|]. split; [apply orth_id|]. split; [|split].
  - intros i j Hi Hj. symmetry. apply gr_r; auto.
  - intros i j Hi Hj. rewrite mmul_1_r by auto. auto.
  - intros i j Hi Hj. rewrite mmul_1_r, gr_l by auto. rewrite <- (HB j i) by auto. auto.
Qed.

(** What such a change preserves. *)
Definition nFr (m n : Z) (A : Z -> Z -> R) : R := sqrt (Rs 0 m (fun i => Rs 0 n (fun j => A i j * A i j)))%R.
Lemma orthcols_mmul m n U P : orthcols m n U -> orthogonal n P -> orthcols m n (mmul n U P).
Proof.
  intros HU [HP _] i j Hi Hj. unfold mmul.
  rewrite (Rs_ext 0 m _ (fun r => Rs 0 n (fun a => Rs 0 n (fun b => P a i * P b j * (U r a * U r b))))%R).
  2:{ intros r Hr. rewrite <- Rs_scal_r. apply Rs_ext. intros a Ha. rewrite <- Rs_scal_l. apply Rs_ext. intros. ring. }
  rewrite Rs_swap. rewrite <- (HP i j Hi Hj). unfold mmul, trm. apply Rs_ext. intros a Ha. rewrite Rs_swap.
  rewrite (Rs_ext 0 n _ (fun b => P a i * P b j * idm a b)%R) by (intros b Hb; rewrite Rs_scal_l, HU by auto; auto).
  rewrite (Rs_pick 0 n a) by (auto; intros b Hb Hne; unfold idm; zbq; ring). unfold idm. rewrite Z.eqb_refl. ring.
Qed.
Lemma orthcols_ext m n U U' : orthcols m n U -> meq m n U' U -> orthcols m n U'.
Proof. intros H E i j Hi Hj. rewrite <- (H i j Hi Hj). apply Rs_ext. intros r Hr. rewrite !E by auto. auto. Qed.
Lemma orthcols_norm m n U (x : Z -> R) : orthcols m n U -> Rs 0 m (fun i => Rs 0 n (fun k => U i k * x k) * Rs 0 n (fun k => U i k * x k))%R = Rs 0 n (fun k => x k * x k)%R.
Proof.
  intros HU. rewrite (Rs_ext 0 m _ (fun r => Rs 0 n (fun a => Rs 0 n (fun b => x a * x b * (U r a * U r b))))%R).
  2:{ intros r Hr. rewrite <- Rs_scal_r. apply Rs_ext. intros a Ha. rewrite <- Rs_scal_l. apply Rs_ext. intros. ring. }
  rewrite Rs_swap. apply Rs_ext. intros a Ha. rewrite Rs_swap.
  rewrite (Rs_ext 0 n _ (fun b => x a * x b * idm a b)%R) by (intros b Hb; rewrite Rs_scal_l, HU by auto; auto).
  rewrite (Rs_pick 0 n a) by (auto; intros b Hb Hne; unfold idm; zbq; ring). unfold idm. rewrite Z.eqb_refl. ring.
Qed.
Lemma nFr_usv m n U C V : orthcols m n U -> orthogonal n V -> nFr m n (usv n U C V) = nF n C.
Proof.
  intros HU HV. unfold nFr. transitivity (nF n (mmul n C (trm V))); [|apply nF_orth_r, orth_tr; auto]. unfold nF, ip. f_equal. rewrite Rs_swap.
  rewrite (Rs_swap 0 n 0 n). apply Rs_ext. intros j Hj. unfold usv. rewrite <- (orthcols_norm m n U (fun k => mmul n C (trm V) k j) HU). apply Rs_ext. intros i Hi.
  rewrite mmul_assoc. auto.
Qed.
Lemma nFr_ext m n A B : meq m n A B -> nFr m n A = nFr m n B.
Proof. intros H. unfold nFr. f_equal. apply Rs_ext. intros i Hi. apply Rs_ext. intros j Hj. rewrite H by auto. auto. Qed.
Lemma usv_sub n U C B V i j : (usv n U C V i j - usv n U B V i j = usv n U (msub C B) V i j)%R.
Proof.
  unfold usv, mmul. rewrite <- Rs_minus. apply Rs_ext. intros k Hk. rewrite <- Rmult_minus_distr_r. f_equal. rewrite <- Rs_minus. apply Rs_ext. intros. unfold msub. ring.
Qed.
Definition pcq (n : Z) (P C Q : Z -> Z -> R) : Z -> Z -> R := mmul n (mmul n (trm P) C) Q.
Lemma pcq_sub n P C B Q : meq n n (pcq n P (msub C B) Q) (msub (pcq n P C Q) (pcq n P B Q)).
Proof.
  intros i j Hi Hj. unfold pcq, msub, mmul. rewrite <- Rs_minus. apply Rs_ext. intros k Hk. rewrite <- Rmult_minus_distr_r. f_equal. rewrite <- Rs_minus. apply Rs_ext. intros. ring.
Qed.
Lemma pcq_nF n P C Q : orthogonal n P -> orthogonal n Q -> nF n (pcq n P C Q) = nF n C.
Proof. intros HP HQ. unfold pcq. rewrite nF_orth_r by auto. apply nF_orth_l, orth_tr; auto. Qed.
Lemma eqv_inv m n U B V U' B' V' C : eqv m n U B V U' B' V' -> orthcols m n U -> orthogonal n V -> exists C',
  orthcols m n U' /\ orthogonal n V' /\ meq m n (usv n U' C' V') (usv n U C V) /\ nF n C' = nF n C /\ nF n B' = nF n B /\ nF n (msub C' B') = nF n (msub C B).
Proof.
  intros (P & Q & HP & HQ & EU & EV & EB) HU HV. exists (pcq n P C Q). split; [|split; [|split; [|split; [|split]]]].
  - eapply orthcols_ext; [|exact EU]. apply orthcols_mmul; auto.
  - eapply orth_ext; [|apply meq_sym; exact EV]. apply orth_mmul; auto.
  - intros i j Hi Hj. unfold usv, pcq. rewrite (mmul_ext n _ (mmul n (mmul n U C) Q) _ (mmul n (trm Q) (trm V))).
    + rewrite mmul_assoc. apply mmul_ext; auto. intros k Hk. rewrite <- mmul_assoc. destruct HQ as [_ HQ]. rewrite (mmul_ext n _ idm _ (trm V)) by (intros; auto).
      apply mmul_1_l. auto.
    + intros k Hk. rewrite <- mmul_assoc. apply mmul_ext; auto. intros q Hq. rewrite (mmul_ext n _ (mmul n U P) _ (mmul n (trm P) C)) by (intros; auto).
      rewrite mmul_assoc. apply mmul_ext; auto. intros q' Hq'. rewrite <- mmul_assoc. destruct HP as [_ HP]. rewrite (mmul_ext n _ idm _ C) by (intros; auto). apply mmul_1_l. auto.
    + intros k Hk. rewrite <- trm_mmul. unfold trm. apply EV; auto.
  - apply pcq_nF; auto.
  - rewrite (nF_ext n B' _ EB). apply pcq_nF; auto.
  - rewrite <- (pcq_nF n P (msub C B) Q HP HQ). rewrite (nF_ext n _ _ (pcq_sub n P C B Q)). apply nF_ext. intros i j Hi Hj. unfold msub. rewrite EB by auto. auto.
Qed.

Lemma hyp_pos (f g : R) : (f <> 0 \/ g <> 0)%R -> (0 < sqrt (f * f + g * g))%R.
Proof. intros H. apply sqrt_lt_R0. destruct H; nra. Qed.
Lemma hyp_sq (f g : R) : (sqrt (f * f + g * g) * sqrt (f * f + g * g) = f * f + g * g)%R.
Proof. apply sqrt_sqrt. nra. Qed.
Lemma hyp_rot (f g : R) : (f <> 0 \/ g <> 0)%R -> let t := sqrt (f * f + g * g) in
  (t <> 0 /\ (f / t) * (f / t) + (g / t) * (g / t) = 1 /\ f / t * f + g / t * g = t /\ - (g / t) * f + f / t * g = 0)%R.
Proof.
  intros H t. pose proof (hyp_pos f g H) as Hp. fold t in Hp. pose proof (hyp_sq f g) as Hs. fold t in Hs. assert (Ht : t <> 0%R) by lra.
  split; [auto|]. split; [|split].
  - replace (f / t * (f / t) + g / t * (g / t))%R with ((f * f + g * g) / (t * t))%R by (field; auto). rewrite <- Hs. field. auto.
  - replace (f / t * f + g / t * g)%R with ((f * f + g * g) / t)%R by (field; auto). rewrite <- Hs. field. auto.
  - field. auto.
Qed.

(** ** Case 1: s[p-1] is negligible *)
Section Case1.
Variables m n p k : Z.
Hypothesis Hk : 0 <= k <= p - 2.
Hypothesis Hp : p <= n.
Variables S E : Z -> R.
Variables U V : Z -> Z -> R.
Hypothesis HS : S (p - 1) = 0%R.
Hypothesis HE : forall i, k <= i <= p - 2 -> E i <> 0%R.
Hypothesis HE0 : k = 0 \/ E (k - 1) = 0%R.
Hypothesis HEp : forall i, p - 1 <= i < n -> E i = 0%R.
Let x0 : it_st (O := ROps) := mkIT (O := ROps) S (vset (O := ROps) E (p - 2) 0%R) U V (E (p - 2)) 0%R.
(* j is the last value treated *)
Definition X1 (j : Z) (x : it_st (O := ROps)) (a b : Z) : R := if (k <? j) && (a =? j - 1) && (b =? p - 1) then it_f x else bid (it_S x) (it_E x) a b.
Lemma case1_iter c : 0 <= c <= p - 1 - k -> let x := c1_iter (O := ROps) p k c x0 in let j := p - 1 - c in
  eqv m n U (bid S E) V (it_U x) (X1 j x) (it_V x) /\ it_S x (p - 1) = 0%R /\ (k < j -> it_f x <> 0%R) /\
  (forall i, i < j - 1 -> it_E x i = E i) /\ it_E x (p - 2) = 0%R /\ (forall i, p - 1 <= i -> it_E x i = E i /\ it_S x i = S i) /\ (forall i, i < k -> it_E x i = E i).
Proof.
  intros [Hc Hc2]. revert Hc2. cbv zeta. apply (Rs_ind (fun c => c <= p - 1 - k -> eqv m n U (bid S E) V (it_U (c1_iter (O := ROps) p k c x0)) (X1 (p - 1 - c) (c1_iter (O := ROps) p k c x0)) (it_V (c1_iter (O := ROps) p k c x0)) /\
    it_S (c1_iter (O := ROps) p k c x0) (p - 1) = 0%R /\ (k < p - 1 - c -> it_f (c1_iter (O := ROps) p k c x0) <> 0%R) /\
    (forall i, i < p - 1 - c - 1 -> it_E (c1_iter (O := ROps) p k c x0) i = E i) /\ it_E (c1_iter (O := ROps) p k c x0) (p - 2) = 0%R /\
    (forall i, p - 1 <= i -> it_E (c1_iter (O := ROps) p k c x0) i = E i /\ it_S (c1_iter (O := ROps) p k c x0) i = S i) /\ (forall i, i < k -> it_E (c1_iter (O := ROps) p k c x0) i = E i)) 0 c Hc).
  - intros _. cbn [c1_iter accum Z.to_nat]. unfold x0. cbn [it_S it_E it_U it_V it_f]. unfold c1_iter. cbn [accum Z.to_nat it_S it_E it_U it_V it_f]. split; [|split; [|split; [|split; [|split; [|split]]]]].
    + apply eqv_same; try (intros i j Hi Hj; reflexivity). intros a b Ha Hb. unfold X1, bid, vset. cbn [it_S it_E it_f]. zbq; subst; auto; try lia. f_equal. lia.
    + auto.
    + intros _. apply HE. lia.
    + intros i Hi. unfold vset. zbq; auto.
    + unfold vset. rewrite Z.eqb_refl. auto.
    + intros i Hi. unfold vset. zbq; auto.
    + intros i Hi. unfold vset. zbq; auto.
  - intros t Ht IH Hc2. destruct (IH ltac:(lia)) as (Ieq & IS & If & IE & IE2 & IE3 & IE4). clear IH.
    assert (ES : c1_iter (O := ROps) p k (t + 1) x0 = c1_step p k (p - 2 - t) (c1_iter p k t x0)) by (unfold c1_iter; rewrite accum_S by lia; auto). rewrite ES. clear ES.
    set (x := c1_iter (O := ROps) p k t x0) in *. replace (p - 1 - (t + 1)) with (p - 2 - t) in * by lia. set (j := p - 2 - t) in *. replace (p - 1 - t) with (j + 1) in * by lia.
    specialize (If ltac:(lia)). unfold c1_step. rops. destruct (hyp_rot (it_S x j) (it_f x) (or_intror If)) as (Ht0 & H1 & H2 & H3).
    set (h := sqrt (it_S x j * it_S x j + it_f x * it_f x)) in *. set (cs := (it_S x j / h)%R) in *. set (sn := (it_f x / h)%R) in *.
    assert (Hsn : sn <> 0%R). { unfold sn. intros K. apply If. replace (it_f x) with (it_f x / h * h)%R by (field; auto). rewrite K. ring. }
    assert (EEj : forall i, i < j -> it_E x i = E i) by (intros; apply IE; lia).
    assert (Eb1 : forall a b, X1 (j + 1) x a b = if (a =? j) && (b =? p - 1) then it_f x else bid (it_S x) (it_E x) a b) by (intros; unfold X1; zbq; auto).
    destruct (Z.eqb_spec j k) as [Ejk|Ejk]; cbn [negb it_S it_E it_U it_V it_f].
    + split; [|split; [|split; [|split; [|split; [|split]]]]].
      * eapply eqv_trans; [exact Ieq|]. apply (eqv_right m n j (p - 1) cs sn); try lia; auto. intros a b Ha Hb. unfold rotp. rewrite !Eb1. unfold X1. cbn [it_S it_E it_f]. rops.
        unfold bid, vset. replace (k <? j) with false by (symmetry; apply Z.ltb_ge; lia). cbn [andb].
        destruct (Z.eqb_spec a j) as [->|Haj].
        { rewrite !Z.eqb_refl. cbn [andb]. zbq; subst; cbn [andb]; auto; try lia; try lra. assert (Ej : it_E x j = 0%R) by (replace j with (p - 2) by lia; exact IE2). rewrite Ej; lra. }
        cbn [andb]. destruct (Z.eq_dec a (j - 1)) as [Ea|Ea].
        { assert (E0 : it_E x a = 0%R) by (rewrite EEj by lia; rewrite Ea, Ejk; destruct HE0; [lia|auto]). rewrite E0. zbq; subst; auto; try lia; ring. }
        destruct (Z.eq_dec a (p - 1)) as [Ea'|Ea'].
        { subst a. rewrite IS. zbq; subst; auto; try lia; ring. }
        zbq; subst; auto; try lia; try ring. all: assert (E0 : it_E x a = 0%R) by (replace a with (p - 2) by lia; exact IE2); rewrite E0; ring.
      * unfold vset. zbq; auto.
      * lia.
      * intros i Hi. apply EEj. lia.
      * auto.
      * intros i Hi. unfold vset. destruct (IE3 i Hi). zbq; auto.
      * auto.
    + split; [|split; [|split; [|split; [|split; [|split]]]]].
      * eapply eqv_trans; [exact Ieq|]. apply (eqv_right m n j (p - 1) cs sn); try lia; auto. intros a b Ha Hb. unfold rotp. rewrite !Eb1. unfold X1. cbn [it_S it_E it_f]. rops.
        unfold bid, vset. replace (k <? j) with true by (symmetry; apply Z.ltb_lt; lia). cbn [andb].
        destruct (Z.eqb_spec a j) as [->|Haj].
        { rewrite !Z.eqb_refl. cbn [andb]. zbq; subst; cbn [andb]; auto; try lia; try lra. assert (Ej : it_E x j = 0%R) by (replace j with (p - 2) by lia; exact IE2). rewrite Ej; lra. }
        cbn [andb]. destruct (Z.eq_dec a (j - 1)) as [Ea|Ea].
        { subst a. change (@fhypot ROps (it_S x j) (it_f x)) with h. fold cs sn. zbq; subst; auto; try lia; try ring. }
        destruct (Z.eq_dec a (p - 1)) as [Ea'|Ea'].
        { subst a. rewrite IS. zbq; subst; auto; try lia; ring. }
        zbq; subst; auto; try lia; try ring. all: assert (E0 : it_E x a = 0%R) by (replace a with (p - 2) by lia; exact IE2); rewrite E0; ring.
      * unfold vset. zbq; auto.
      * intros _. rewrite EEj by lia. pose proof (HE (j - 1) ltac:(lia)). change (- sn * E (j - 1) <> 0)%R. nra.
      * intros i Hi. unfold vset. zbq; auto; apply EEj; lia.
      * unfold vset. zbq; auto.
      * intros i Hi. unfold vset. destruct (IE3 i Hi). zbq; auto.
      * intros i Hi. unfold vset. zbq; auto.
Qed.
End Case1.

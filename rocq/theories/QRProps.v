(** The QR properties assembled. *)
From Coq Require Import ZArith List Lia Bool Reals Lra.
From Verif Require Import Base BaseLemmas Wpe Scalar Vector VecSpec VectorFacts Matrix MatSpec MatFacts Array2D BlockM Diagonal RealMatrixM Array2DFacts MatrixOps DiagSpec DiagFacts DiagFacts3 DiagProps TabTac FSum QR QRSpec QRFacts QRFacts2 QRFacts3 LUSpec LUFacts2 RealOps RSum RealMat RealMat2 RealMat3 Det Tri LUReal CholFacts House QRReal QRReal2 QRReal3.
Import ListNotations.
Open Scope Z_scope.

Section AnyOps.
Context {O : Ops}.
Lemma transposes_ok x m n A : transposable x -> MatIs x m n A -> transposes x m n A.
Proof.
  intros [Hg|[Hl Hz]] H; [apply transposes_general; auto|]. destruct x as [a|b|d|? ? ?]; try contradiction; [apply transposes_general; auto; exact I..|].
  split; auto. destruct (MatIs_DIs _ _ _ _ H) as (-> & Hd & H0). destruct (d_Transpose_spec d n _ Hd Hz) as (d' & E & Hd').
  exists (MDiag d'). cbn [m_Transpose]. unfold liftD. rewrite E. cbn [bind]. split; auto. split; [exact I|].
  eapply MatIs_ext; [apply DIs_MatIs; exact Hd'|]. intros i j Hi Hj. cbn beta. unfold dg. destruct (Z.eqb_spec i j) as [->|]; auto. symmetry. apply H0; auto.
Qed.
Lemma MatIs_same x r c f g : MatIs x r c f -> MatIs x r c g -> forall i j, 0 <= i < r -> 0 <= j < c -> f i j = g i j.
Proof. intros H1 H2 i j Hi Hj. pose proof (MatIs_At _ _ _ _ i j H1 Hi Hj) as E1. rewrite (MatIs_At _ _ _ _ i j H2 Hi Hj) in E1. congruence. Qed.
Lemma qr_calls_ok m n M D thr d d' : 1 <= m -> 1 <= n -> qr_ok m n M D thr d -> qr_calls d d' -> qr_ok m n M D thr d'.
Proof.
  intros Hm Hn Hd Hc. induction Hc as [d|d d1 d2 x E _ IH|d d1 d2 x E _ IH|d d1 d2 x E _ IH|d d1 d2 x E _ IH]; auto; apply IH.
  - destruct (qr_Q_ok m n M D thr d Hm Hn Hd) as ([x' d1'] & E' & _ & _ & K). rewrite E in E'. injection E' as <- <-. exact K.
  - destruct (qr_QT_ok m n M D thr d Hm Hn Hd) as ([x' d1'] & E' & _ & _ & K). rewrite E in E'. injection E' as <- <-. exact K.
  - destruct (qr_R_ok m n M D thr d Hm Hn Hd) as ([x' d1'] & E' & _ & _ & K). rewrite E in E'. injection E' as <- <-. exact K.
  - destruct (qr_H_ok m n M D thr d Hm Hn Hd) as ([x' d1'] & E' & _ & _ & K). rewrite E in E'. injection E' as <- <-. exact K.
Qed.
Lemma qr_of_new x thr d : qr_of x thr d -> exists d0, NewQRDecompositionWithThreshold x thr = Ok d0 /\ qr_calls d0 d.
Proof. intros (d0 & [E|[-> E]] & Hc); eauto. Qed.
Lemma qr_state x m n A thr d : transposable x -> MatIs x m n A -> 1 <= m -> 1 <= n -> qr_of x thr d ->
  qr_ok m n (fst (hh_iter m A (Z.min m n))) (snd (hh_iter m A (Z.min m n))) thr d.
Proof.
  intros Ht Hx Hm Hn H. destruct (qr_of_new _ _ _ H) as (d0 & E & Hc). eapply qr_calls_ok; [auto|auto| |exact Hc].
  destruct (qr_new_spec x m n A thr (transposes_ok _ _ _ _ Ht Hx) Hm Hn) as (d1 & E1 & (H1 & H2) & C1 & C2 & C3 & C4 & C5).
  rewrite E in E1. injection E1 as <-. unfold qr_ok. rewrite C1, C2, C3, C4. refine (conj H1 (conj H2 (conj C5 _))). repeat split.
Qed.
Lemma qr_total x m n A thr : transposable x -> MatIs x m n A -> 1 <= m -> 1 <= n ->
  (exists d, NewQRDecompositionWithThreshold x thr = Ok d) /\ exists d, NewQRDecomposition x = Ok d.
Proof.
  intros Ht Hx Hm Hn. pose proof (fun thr => qr_new_spec x m n A thr (transposes_ok _ _ _ _ Ht Hx) Hm Hn) as K.
  split; [destruct (K thr) as (d & E & _)|destruct (K fzero) as (d & E & _)]; eauto.
Qed.
(** Everything the accessors return, in any arithmetic. *)
Lemma qr_any x m n A thr d d' : transposable x -> MatIs x m n A -> 1 <= m -> 1 <= n -> qr_of x thr d -> qr_of x thr d' ->
  exists Q R H Qm QTm Rm Hm d1 d2 d3 d4,
    qr_Q d = Ok (Qm, d1) /\ qr_QT d = Ok (QTm, d2) /\ qr_R d = Ok (Rm, d3) /\ qr_H d = Ok (Hm, d4) /\
    MatIs Qm m m Q /\ MatIs QTm m m (fun i j => Q j i) /\ MatIs Rm m n R /\ MatIs Hm m n H /\
    (forall i j, 0 <= j < i -> i < m -> R i j = fzero) /\ (forall i j, 0 <= i < j -> j < n -> H i j = fzero) /\
    (* the same whatever was called before *)
    exists Qm' QTm' Rm' Hm' d1' d2' d3' d4',
      qr_Q d' = Ok (Qm', d1') /\ qr_QT d' = Ok (QTm', d2') /\ qr_R d' = Ok (Rm', d3') /\ qr_H d' = Ok (Hm', d4') /\
      MatIs Qm' m m Q /\ MatIs QTm' m m (fun i j => Q j i) /\ MatIs Rm' m n R /\ MatIs Hm' m n H.
Proof.
  intros Ht Hx Hm Hn Hd Hd'. pose proof (qr_state x m n A thr d Ht Hx Hm Hn Hd) as K. pose proof (qr_state x m n A thr d' Ht Hx Hm Hn Hd') as K'.
  set (M := fst (hh_iter m A (Z.min m n))) in *. set (D := snd (hh_iter m A (Z.min m n))) in *.
  destruct (qr_Q_ok _ _ _ _ _ _ Hm Hn K) as ([a1 d1] & E1 & _ & H1 & _). destruct (qr_QT_ok _ _ _ _ _ _ Hm Hn K) as ([a2 d2] & E2 & _ & H2 & _).
  destruct (qr_R_ok _ _ _ _ _ _ Hm Hn K) as ([a3 d3] & E3 & _ & H3 & _). destruct (qr_H_ok _ _ _ _ _ _ Hm Hn K) as ([a4 d4] & E4 & _ & H4 & _).
  destruct (qr_Q_ok _ _ _ _ _ _ Hm Hn K') as ([b1 e1] & F1 & _ & G1 & _). destruct (qr_QT_ok _ _ _ _ _ _ Hm Hn K') as ([b2 e2] & F2 & _ & G2 & _).
  destruct (qr_R_ok _ _ _ _ _ _ Hm Hn K') as ([b3 e3] & F3 & _ & G3 & _). destruct (qr_H_ok _ _ _ _ _ _ Hm Hn K') as ([b4 e4] & F4 & _ & G4 & _).
  cbn [fst snd] in *. exists (fun i j => tabQT m n M D j i), (tabR m n M D), (tabH M D), a1, a2, a3, a4, d1, d2, d3, d4.
  do 8 (split; [auto|]). split; [intros; unfold tabR; zbq; auto|]. split; [intros; unfold tabH; zbq; auto|].
  exists b1, b2, b3, b4, e1, e2, e3, e4. auto 10.
Qed.
Lemma qr_singular x m n A thr d : transposable x -> MatIs x m n A -> 1 <= m -> 1 <= n -> qr_of x thr d ->
  exists R Rm d1 s, qr_R d = Ok (Rm, d1) /\ MatIs Rm m n R /\ qrs_IsNonSingular d = Ok s /\
    (s = true <-> forall i, 0 <= i < Z.min m n -> fle (fabs (R i i)) thr = false) /\
    (forall v, v_Dimension v <> m -> panics (qrs_SolveVector d v)) /\
    (forall b r c B, MatIs b r c B -> r <> m -> panics (qrs_SolveMatrix d b)) /\
    (s = false -> (forall v, panics (qrs_SolveVector d v)) /\ (forall b r c B, MatIs b r c B -> panics (qrs_SolveMatrix d b)) /\ panics (qrs_Inverse d)) /\
    (s = true -> (forall v b, VecIs v m b -> exists r y, qrs_SolveVector d v = Ok r /\ VecIs r n y) /\
      (forall b c B, MatIs b m c B -> 1 <= c -> exists r X, qrs_SolveMatrix d b = Ok r /\ MatIs r n c X /\
         (* a column of the answer depends on nothing but the same column of B *)
         forall b' c' B' r' X' q q', MatIs b' m c' B' -> 1 <= c' -> qrs_SolveMatrix d b' = Ok r' -> MatIs r' n c' X' -> 0 <= q < c -> 0 <= q' < c' ->
           (forall i, 0 <= i < m -> B i q = B' i q') -> forall i, 0 <= i < n -> X i q = X' i q') /\
      exists r X, qrs_Inverse d = Ok r /\ MatIs r n m X).
Proof.
  intros Ht Hx Hm Hn Hd. pose proof (qr_state x m n A thr d Ht Hx Hm Hn Hd) as K.
  set (M := fst (hh_iter m A (Z.min m n))) in *. set (D := snd (hh_iter m A (Z.min m n))) in *.
  destruct (qr_R_ok _ _ _ _ _ _ Hm Hn K) as ([a3 d3] & E3 & _ & H3 & _). cbn [fst snd] in *.
  destruct (qrs_IsNonSingular_ok _ _ _ _ _ _ Hm Hn K) as (s & Es & Hs).
  assert (ED : forall i, 0 <= i < Z.min m n -> tabR m n M D i i = D i) by (intros; unfold tabR; zbq; auto).
  exists (tabR m n M D), a3, d3, s. split; [auto|]. split; [auto|]. split; [auto|]. split.
  { rewrite Hs. split; intros H i Hi; [rewrite ED by auto|rewrite <- ED by auto]; auto. }
  destruct (qrs_Inverse_eq _ _ _ _ _ _ Hm Hn K) as (im & Hgi & Hi & Ei).
  split; [intros v Hv; eexists; eapply (qrs_SolveVector_dim m n M D thr); eauto|].
  split; [intros b r c B Hb Hr; eexists; eapply (qrs_SolveMatrix_dim m n M D thr); eauto|]. split.
  - intros ->. assert (Hz : exists i, 0 <= i < Z.min m n /\ fle (fabs (D i)) thr = true).
    { destruct (qrs_IsNonSingular_ok _ _ _ _ _ _ Hm Hn K) as (_ & _). unfold qrs_IsNonSingular in Es. destruct K as (_ & HD & Hthr & _). rewrite Hthr in Es.
      destruct (checkSingular_ok _ _ _ thr false HD ltac:(lia)) as [[H E]|[H E]]; auto. rewrite E in Es. discriminate. }
    split; [|split].
    + intros v. destruct (Z.eq_dec (v_Dimension v) m) as [Hv|Hv]; eexists; [eapply (qrs_SolveVector_sing m n M D thr)|eapply (qrs_SolveVector_dim m n M D thr)]; eauto.
    + intros b r c B Hb. destruct (Z.eq_dec r m) as [->|Hr]; eexists; [eapply (qrs_SolveMatrix_sing m n M D thr)|eapply (qrs_SolveMatrix_dim m n M D thr)]; eauto.
    + rewrite Ei. eexists. eapply (qrs_SolveMatrix_sing m n M D thr); eauto.
  - intros ->. assert (Hz : forall i, 0 <= i < Z.min m n -> fle (fabs (D i)) thr = false) by (apply Hs; auto). split; [|split].
    + intros v b Hv. destruct (qrs_SolveVector_ok _ _ _ _ _ _ v b Hm Hn K Hv Hz) as (r & Er & y & Hy & _). eauto.
    + intros b c B Hb Hc. destruct (qrs_SolveMatrix_ok _ _ _ _ _ _ b c B Hm Hn Hc K Hb Hz) as (r & Er & X & _ & HX & HS). exists r, X. split; [auto|]. split; [auto|].
      intros b' c' B' r' X' q q' Hb' Hc' Er' HX' Hq Hq' HB i Hi'. destruct (qrs_SolveMatrix_ok _ _ _ _ _ _ b' c' B' Hm Hn Hc' K Hb' Hz) as (r2 & Er2 & X2 & _ & HX2 & HS2).
      rewrite Er' in Er2. injection Er2 as <-. rewrite (MatIs_same _ _ _ _ _ HX' HX2) by auto. apply (sm_sol_det m n M D _ _ (fun i => X i q) (fun i => X2 i q') HB (HS q Hq) (HS2 q' Hq')); auto.
    + rewrite Ei. destruct (qrs_SolveMatrix_ok _ _ _ _ _ _ im m _ Hm Hn Hm K Hi Hz) as (r & Er & X & _ & HX & HS). eauto.
Qed.
End AnyOps.

(** ** Rank-revealing *)
Section AnyRR.
Context {O : Ops}.
Lemma rr_calls_ok m n M D q thr d d' : 1 <= m -> 1 <= n -> rr_ok m n M D q thr d -> rr_calls d d' -> rr_ok m n M D q thr d'.
Proof.
  intros Hm Hn Hd Hc. induction Hc as [d|d d1 d2 x E _ IH|d d1 d2 x E _ IH|d d1 d2 x E _ IH|d d1 d2 x E _ IH|d d1 d2 x E _ IH|d d1 d2 drop x E _ IH]; auto; apply IH.
  - destruct (rr_lift_ok m n M D q thr d qr_Q (fun _ => True) Hd) as ([x' d1'] & E' & _ & K); [eapply wp_conseq; [apply (qr_Q_ok m n M D thr _ Hm Hn (proj1 Hd))|]; cbn beta; tauto|].
    rewrite E in E'. injection E' as <- <-. exact K.
  - destruct (rr_lift_ok m n M D q thr d qr_QT (fun _ => True) Hd) as ([x' d1'] & E' & _ & K); [eapply wp_conseq; [apply (qr_QT_ok m n M D thr _ Hm Hn (proj1 Hd))|]; cbn beta; tauto|].
    rewrite E in E'. injection E' as <- <-. exact K.
  - destruct (rr_lift_ok m n M D q thr d qr_R (fun _ => True) Hd) as ([x' d1'] & E' & _ & K); [eapply wp_conseq; [apply (qr_R_ok m n M D thr _ Hm Hn (proj1 Hd))|]; cbn beta; tauto|].
    rewrite E in E'. injection E' as <- <-. exact K.
  - destruct (rr_lift_ok m n M D q thr d qr_H (fun _ => True) Hd) as ([x' d1'] & E' & _ & K); [eapply wp_conseq; [apply (qr_H_ok m n M D thr _ Hm Hn (proj1 Hd))|]; cbn beta; tauto|].
    rewrite E in E'. injection E' as <- <-. exact K.
  - destruct (rr_P_ok m n M D q thr d Hn Hd) as ([x' d1'] & E' & _ & K). rewrite E in E'. injection E' as <- <-. exact K.
  - destruct (rr_Rank_ok m n M D q thr d drop Hm Hn Hd) as ([x' d1'] & E' & _ & K). rewrite E in E'. injection E' as <- <-. exact K.
Qed.
Lemma rr_of_new x thr d : rr_of x thr d -> exists d0, NewRRQRDecompositionWithThreshold x thr = Ok d0 /\ rr_calls d0 d.
Proof. intros (d0 & [E|[-> E]] & Hc); eauto. Qed.
Definition rrM m n A := fst (fst (rr_iter m n A (Z.min m n))).
Definition rrD m n A := snd (fst (rr_iter m n A (Z.min m n))).
Definition rrq m n A := snd (rr_iter m n A (Z.min m n)).
Lemma rr_state x m n A thr d : transposable x -> MatIs x m n A -> 1 <= m -> 1 <= n -> rr_of x thr d ->
  rr_ok m n (rrM m n A) (rrD m n A) (rrq m n A) thr d.
Proof.
  intros Ht Hx Hm Hn H. destruct (rr_of_new _ _ _ H) as (d0 & E & Hc). eapply rr_calls_ok; [auto|auto| |exact Hc].
  destruct (rr_new_spec x m n A thr (transposes_ok _ _ _ _ Ht Hx) Hm Hn) as (d1 & E1 & (H1 & H2 & H3 & H4) & C0 & C1 & C2 & C3 & C4 & C5).
  rewrite E in E1. injection E1 as <-. unfold rr_ok, qr_ok. rewrite C0, C1, C2, C3, C4. refine (conj _ (conj H3 (conj H4 (conj _ I)))).
  - refine (conj H1 (conj H2 (conj C5 _))). repeat split.
  - apply rr_iter_perm. lia.
Qed.
Lemma rr_total x m n A thr : transposable x -> MatIs x m n A -> 1 <= m -> 1 <= n ->
  (exists d, NewRRQRDecompositionWithThreshold x thr = Ok d) /\ exists d, NewRRQRDecomposition x = Ok d.
Proof.
  intros Ht Hx Hm Hn. pose proof (fun thr => rr_new_spec x m n A thr (transposes_ok _ _ _ _ Ht Hx) Hm Hn) as K.
  split; [destruct (K thr) as (d & E & _)|destruct (K fzero) as (d & E & _)]; eauto.
Qed.
Lemma rr_accessors m n M D q thr d : 1 <= m -> 1 <= n -> rr_ok m n M D q thr d ->
  exists Qm QTm Rm Pm d1 d2 d3 d4,
    rr_lift qr_Q d = Ok (Qm, d1) /\ rr_lift qr_QT d = Ok (QTm, d2) /\ rr_lift qr_R d = Ok (Rm, d3) /\ rr_P d = Ok (Pm, d4) /\
    MatIs Qm m m (fun i j => tabQT m n M D j i) /\ MatIs QTm m m (tabQT m n M D) /\ MatIs Rm m n (tabR m n M D) /\ MatIs Pm n n (tabPt q).
Proof.
  intros Hm Hn K.
  destruct (rr_lift_ok m n M D q thr d qr_Q (fun r => MatIs r m m (fun i j => tabQT m n M D j i)) K) as ([a1 d1] & E1 & H1 & _); [eapply wp_conseq; [apply (qr_Q_ok m n M D thr _ Hm Hn (proj1 K))|]; cbn beta; tauto|].
  destruct (rr_lift_ok m n M D q thr d qr_QT (fun r => MatIs r m m (tabQT m n M D)) K) as ([a2 d2] & E2 & H2 & _); [eapply wp_conseq; [apply (qr_QT_ok m n M D thr _ Hm Hn (proj1 K))|]; cbn beta; tauto|].
  destruct (rr_lift_ok m n M D q thr d qr_R (fun r => MatIs r m n (tabR m n M D)) K) as ([a3 d3] & E3 & H3 & _); [eapply wp_conseq; [apply (qr_R_ok m n M D thr _ Hm Hn (proj1 K))|]; cbn beta; tauto|].
  destruct (rr_P_ok m n M D q thr d Hn K) as ([a4 d4] & E4 & [_ H4] & _). cbn [fst snd] in *.
  exists a1, a2, a3, a4, d1, d2, d3, d4. auto 10.
Qed.
Lemma rr_any x m n A thr d d' : transposable x -> MatIs x m n A -> 1 <= m -> 1 <= n -> rr_of x thr d -> rr_of x thr d' ->
  exists Q R p Qm QTm Rm Pm d1 d2 d3 d4,
    rr_lift qr_Q d = Ok (Qm, d1) /\ rr_lift qr_QT d = Ok (QTm, d2) /\ rr_lift qr_R d = Ok (Rm, d3) /\ rr_P d = Ok (Pm, d4) /\
    MatIs Qm m m Q /\ MatIs QTm m m (fun i j => Q j i) /\ MatIs Rm m n R /\ MatIs Pm n n (fun i j => if i =? p j then fone else fzero) /\
    permutes n p /\ (forall i j, 0 <= j < i -> i < m -> R i j = fzero) /\
    exists Qm' QTm' Rm' Pm' d1' d2' d3' d4',
      rr_lift qr_Q d' = Ok (Qm', d1') /\ rr_lift qr_QT d' = Ok (QTm', d2') /\ rr_lift qr_R d' = Ok (Rm', d3') /\ rr_P d' = Ok (Pm', d4') /\
      MatIs Qm' m m Q /\ MatIs QTm' m m (fun i j => Q j i) /\ MatIs Rm' m n R /\ MatIs Pm' n n (fun i j => if i =? p j then fone else fzero).
Proof.
  intros Ht Hx Hm Hn Hd Hd'. pose proof (rr_state x m n A thr d Ht Hx Hm Hn Hd) as K. pose proof (rr_state x m n A thr d' Ht Hx Hm Hn Hd') as K'.
  destruct (rr_accessors _ _ _ _ _ _ _ Hm Hn K) as (a1 & a2 & a3 & a4 & d1 & d2 & d3 & d4 & E1 & E2 & E3 & E4 & H1 & H2 & H3 & H4).
  destruct (rr_accessors _ _ _ _ _ _ _ Hm Hn K') as (b1 & b2 & b3 & b4 & e1 & e2 & e3 & e4 & F1 & F2 & F3 & F4 & G1 & G2 & G3 & G4).
  exists (fun i j => tabQT m n (rrM m n A) (rrD m n A) j i), (tabR m n (rrM m n A) (rrD m n A)), (rrq m n A), a1, a2, a3, a4, d1, d2, d3, d4.
  do 8 (split; [auto|]). split; [apply K|]. split; [intros; unfold tabR; zbq; auto|].
  exists b1, b2, b3, b4, e1, e2, e3, e4. auto 10.
Qed.
Lemma rr_rank_range x m n A thr d drop : transposable x -> MatIs x m n A -> 1 <= m -> 1 <= n -> rr_of x thr d ->
  exists r d', rr_Rank d drop = Ok (r, d') /\ 1 <= r <= Z.min m n.
Proof.
  intros Ht Hx Hm Hn Hd. destruct (rr_Rank_ok _ _ _ _ _ _ d drop Hm Hn (rr_state x m n A thr d Ht Hx Hm Hn Hd)) as ([r d'] & E & H & _). eauto.
Qed.
(** The solver. *)
Lemma qrs_SolveVector_arr d v r : qrs_SolveVector d v = Ok r -> exists x, r = VArr x.
Proof.
  unfold qrs_SolveVector. destruct (zget _ 0); cbn [bind]; try discriminate. destruct (negb _); try discriminate.
  destruct (checkSingular _ _ _); cbn [bind]; try discriminate. destruct (make _ _); cbn [bind]; try discriminate.
  match goal with |- (bind ?X _ = _) -> _ => destruct X end; cbn [bind]; try discriminate.
  match goal with |- (bind ?X _ = _) -> _ => destruct X as [[? ?]|?|?] end; cbn [bind]; try discriminate. intros E. injection E as <-. eauto.
Qed.
Lemma rr_singular x m n A thr d : transposable x -> MatIs x m n A -> 1 <= m -> 1 <= n -> rr_of x thr d ->
  exists R Rm d1 s, rr_lift qr_R d = Ok (Rm, d1) /\ MatIs Rm m n R /\ rrs_IsNonSingular d = Ok s /\
    (s = true <-> forall i, 0 <= i < Z.min m n -> fle (fabs (R i i)) thr = false) /\
    (forall v, v_Dimension v <> m -> panics (rrs_SolveVector d v)) /\
    (forall b r c B, MatIs b r c B -> r <> m -> panics (rrs_SolveMatrix d b)) /\
    (m <> n -> panics (rrs_Inverse d)) /\
    (s = false -> (forall v, panics (rrs_SolveVector d v)) /\ (forall b r c B, MatIs b r c B -> panics (rrs_SolveMatrix d b)) /\ panics (rrs_Inverse d)).
Proof.
  intros Ht Hx Hm Hn Hd. pose proof (rr_state x m n A thr d Ht Hx Hm Hn Hd) as K. set (M := rrM m n A) in *. set (D := rrD m n A) in *.
  destruct (rr_accessors _ _ _ _ _ _ _ Hm Hn K) as (a1 & a2 & a3 & a4 & d1 & d2 & d3 & d4 & _ & _ & E3 & _ & _ & _ & H3 & _).
  destruct (qrs_IsNonSingular_ok _ _ _ _ _ _ Hm Hn (proj1 K)) as (s & Es & Hs).
  assert (ED : forall i, 0 <= i < Z.min m n -> tabR m n M D i i = D i) by (intros; unfold tabR; zbq; auto).
  assert (SV : forall d, rr_ok m n M D (rrq m n A) thr d -> forall v e, (forall d, qr_ok m n M D thr d -> qrs_SolveVector d v = Panic e) -> panics (rrs_SolveVector d v)).
  { intros e K1 v er H. unfold rrs_SolveVector. destruct (rr_P_ok _ _ _ _ _ _ e Hn K1) as ([p e1] & -> & _ & K2). cbn [bind snd] in *. rewrite (H _ (proj1 K2)). eexists; reflexivity. }
  assert (SM : forall d, rr_ok m n M D (rrq m n A) thr d -> forall v e, (forall d, qr_ok m n M D thr d -> qrs_SolveMatrix d v = Panic e) -> panics (rrs_SolveMatrix d v)).
  { intros e K1 v er H. unfold rrs_SolveMatrix. destruct (rr_P_ok _ _ _ _ _ _ e Hn K1) as ([p e1] & -> & _ & K2). cbn [bind snd] in *. rewrite (H _ (proj1 K2)). eexists; reflexivity. }
  assert (IV : forall e, (forall d b, qr_ok m n M D thr d -> MatIs b n n (diagonal (fun _ => fone)) -> qrs_SolveMatrix d b = Panic e) -> panics (rrs_Inverse d)).
  { intros e H. unfold rrs_Inverse. destruct (rr_P_ok _ _ _ _ _ _ d Hn K) as ([p e1] & -> & [_ Hp] & K2). cbn [bind fst snd] in *. rewrite (MatIs_rows _ _ _ _ Hp).
    destruct (identity_ok n Hn) as (i & -> & _ & Hi). cbn [orpanic bind]. eapply SM; eauto. }
  exists (tabR m n M D), a3, d3, s. split; [auto|]. split; [auto|]. split; [auto|]. split.
  { rewrite Hs. split; intros H i Hi; [rewrite ED by auto|rewrite <- ED by auto]; auto. }
  split; [intros v Hv; eapply SV; eauto; intros; eapply (qrs_SolveVector_dim m n M D thr); eauto|].
  split; [intros b r c B Hb Hr; eapply SM; eauto; intros; eapply (qrs_SolveMatrix_dim m n M D thr); eauto|].
  split; [intros Hne; eapply IV; intros; eapply (qrs_SolveMatrix_dim m n M D thr); eauto|].
  intros ->. assert (Hz : exists i, 0 <= i < Z.min m n /\ fle (fabs (D i)) thr = true).
  { unfold qrs_IsNonSingular in Es. destruct K as ((_ & HD & Hthr & _) & _). rewrite Hthr in Es.
    destruct (checkSingular_ok _ _ _ thr false HD ltac:(lia)) as [[H E]|[H E]]; auto. rewrite E in Es. discriminate. }
  split; [|split].
  - intros v. destruct (Z.eq_dec (v_Dimension v) m) as [Hv|Hv]; (eapply SV; eauto; intros); [eapply (qrs_SolveVector_sing m n M D thr)|eapply (qrs_SolveVector_dim m n M D thr)]; eauto.
  - intros b r c B Hb. destruct (Z.eq_dec r m) as [->|Hr]; (eapply SM; eauto; intros); [eapply (qrs_SolveMatrix_sing m n M D thr)|eapply (qrs_SolveMatrix_dim m n M D thr)]; eauto.
  - destruct (Z.eq_dec m n) as [Emn|Hr]; (eapply IV; intros); [eapply (qrs_SolveMatrix_sing m n M D thr)|eapply (qrs_SolveMatrix_dim m n M D thr)]; eauto. rewrite Emn. eauto.
Qed.
End AnyRR.

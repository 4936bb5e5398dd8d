(** The Schur transform, for arbitrary scalar operations: the upper Hessenberg
    shape of T, the outcome of the constructor, the accessors. *)
From Coq Require Import ZArith QArith List Lia Bool.
From Verif Require Import Base BaseLemmas Wpe Scalar Vector VecSpec VectorFacts Matrix MatSpec MatFacts Array2D BlockM Diagonal RealMatrixM Array2DFacts MatrixOps MatHist MatProps BlockFacts RealMat2 RealMat3 TabTac FSum CholFacts LUFacts2 QRFacts Hess HessSpec HessFacts Schur SchurFacts SchurSpec.
Import ListNotations.
Open Scope Z_scope.

Section SchurFacts2.
Context {O : Ops}.

(** ** The shape of T *)
Definition hess (n : Z) (T : Z -> Z -> F) : Prop := forall i j, 0 <= j -> j + 1 < i < n -> T i j = fzero.
Definition band (n im iu : Z) (T : Z -> Z -> F) : Prop := forall i j, 0 <= j -> j + 1 < i < n -> j < im \/ iu < i \/ j + 3 < i -> T i j = fzero.
Lemma chase_band n il im iu h k T P : im <= k < iu -> band n im iu T -> band n im iu (fst (chaseF n il im iu h k (T, P))).
Proof.
  intros Hk HT. unfold chaseF. destruct (chaseV im iu h k T) as [[sk [[p q] r]] x]. destruct sk; [exact HT|].
  destruct (feq (sgnroot p q r) fzero); [exact HT|]. cbn [fst]. intros i j Hj Hi Hc. rewrite <- (HT i j Hj Hi Hc).
  assert (N1 : k <= j -> i <> k /\ i <> k + 1) by lia. assert (N2 : k <= j -> k <> iu - 1 -> i <> k + 2) by lia.
  assert (E1 : chaseT il im k (sgnroot p q r) x T i j = T i j). { unfold chaseT, tset. zbq; auto; exfalso; lia. }
  assert (E2 : rowsF k (negb (k =? iu - 1)) (q / (p + sgnroot p q r))%f (r / (p + sgnroot p q r))%f ((p + sgnroot p q r) / sgnroot p q r)%f (q / sgnroot p q r)%f (r / sgnroot p q r)%f (chaseT il im k (sgnroot p q r) x T) i j = T i j).
  { unfold rowsF. destruct (Z.ltb_spec j k); [auto|]. destruct (N1 ltac:(lia)). deq. destruct (Z.eqb_spec k (iu - 1)); cbn [negb andb]; auto.
    specialize (N2 ltac:(lia) ltac:(auto)). deq. auto. }
  unfold colsF. destruct (Z.leb_spec (Z.min iu (k + 3) + 1) i); [exact E2|]. destruct (Z.eqb_spec j k); [lia|]. destruct (Z.eqb_spec j (k + 1)); [lia|].
  destruct (Z.eqb_spec k (iu - 1)); cbn [negb andb]; [exact E2|]. destruct (Z.eqb_spec j (k + 2)); [lia|]. exact E2.
Qed.
Lemma chases_band n il im iu h k T P : im <= k <= iu -> band n im iu T -> band n im iu (fst (chasesF n il im iu h k (T, P))).
Proof.
  intros Hk HT. revert Hk. intros Hk. replace k with (im + (k - im)) by lia. assert (G : k - im <= iu - im) by lia. revert G. 
  apply (natlike_ind (fun c => c <= iu - im -> band n im iu (fst (chasesF n il im iu h (im + c) (T, P))))); [| |lia].
  - intros _. unfold chasesF. replace (im + 0 - im) with 0 by lia. exact HT.
  - intros c Hc IH Hl. unfold chasesF in *. replace (im + Z.succ c - im) with (c + 1) by lia. rewrite accum_S by lia. replace (im + c - im) with c in IH by lia.
    destruct (accum _ _ _) as [T1 P1]. apply chase_band; [lia|]. apply IH. lia.
Qed.
Lemma double_hess n il im iu h T P : im < iu -> hess n T -> hess n (fst (doubleF n il im iu h (T, P))).
Proof.
  intros Hi HT. unfold doubleF. assert (B : band n im iu T) by (intros i j Hj Hij _; auto).
  pose proof (chases_band n il im iu h iu T P ltac:(lia) B) as K. destruct (chasesF _ _ _ _ _ _ _) as [T1 P1]. cbn [fst] in *.
  intros i j Hj Hij. unfold cleanF.
  destruct (Z_lt_dec j im) as [E|E]; [zbq; auto; apply K; auto|]. destruct (Z_lt_dec iu i) as [E2|E2]; [zbq; auto; apply K; auto|].
  destruct (Z_lt_dec (j + 3) i) as [E3|E3]; [zbq; auto; apply K; auto|]. zbq; auto; exfalso; lia.
Qed.
Lemma two_hess n iu ex T P : 1 <= iu -> hess n T -> hess n (fst (twoF n iu ex (T, P))).
Proof.
  intros Hi HT. unfold twoF. destruct (twoR iu T) as [b [p q]].
  assert (D : hess n (twoD iu ex T)). { intros i j Hj Hij. unfold twoD, tset. rewrite <- (HT i j Hj Hij). zbq; auto; exfalso; lia. }
  destruct b; cbn [fst]; [|exact D]. intros i j Hj Hij. rewrite <- (D i j Hj Hij). unfold rotCF, rotRF. zbq; auto; exfalso; lia.
Qed.
Lemma turn_hess n norm s s' : turnR n norm s s' -> hess n (fst (fst (fst (fst s)))) -> hess n (fst (fst (fst (fst s')))).
Proof.
  intros K. destruct K as [T P ex it iu Hf|T P ex it iu Hf|T P ex it iu il im h x y w T1 ex' Hf Hl Hi Hs Hm Hh Ht]; cbn [fst]; intros HT.
  - intros i j Hj Hij. unfold tset. rewrite <- (HT i j Hj Hij). zbq; auto; exfalso; lia.
  - apply two_hess; auto. destruct Hf as [Hf _]. lia.
  - apply double_hess; [lia|]. destruct Hs as [(s & _ & _ & ->)|[_ ->]]; auto. intros i j Hj Hij. unfold subD. rewrite <- (HT i j Hj Hij). zbq; auto; exfalso; lia.
Qed.
Lemma turns_hess n norm s s' : turnsR n norm s s' -> hess n (fst (fst (fst (fst s)))) -> hess n (fst (fst (fst (fst s')))).
Proof. induction 1; auto. intros. eapply turn_hess; eauto. Qed.

(** ** The constructor *)
Definition sc_made (n : Z) (H0 P0 T P : Z -> Z -> F) : Prop :=
  exists Hm norm ex it, RTab Hm n n H0 /\ sc_norm Hm = Ok norm /\ turnsR n norm ((H0, P0), fzero, 0, n - 1) ((T, P), ex, it, -1).
Lemma sc_transform_ok n fuel Tm Pm H0 P0 : RTab Tm n n H0 -> RTab Pm n n P0 -> 0 <= n -> 101 * n < Z.of_nat fuel ->
  outcome (sc_transform fuel Tm Pm) (fun r => exists T P, RTab (fst r) n n T /\ RTab (snd r) n n P /\ sc_made n H0 P0 T P) (3 <= n).
Proof.
  intros HT HP Hn Hf. unfold sc_transform. destruct (sc_norm_total n Tm H0 HT Hn) as (norm & En & _). rewrite En. cbn [bind]. rewrite (RTab_len _ _ _ _ HT).
  pose proof (sc_loop_ok n norm Tm Pm H0 P0 fuel HT HP Hn Hf) as K. destruct (while_ _ _ _ _) as [st|e|e]; cbn [outcome bind] in *; auto.
  destruct st as [[[[T1 P1] ex] it] iu]. destruct K as ([[[[T P] ex'] it'] iu'] & ([K1 K2] & -> & -> & ->) & Ht & Hu). cbn [snd fst outcome] in *. subst iu'.
  exists T, P. split; auto. split; auto. exists Tm, norm, ex', it'. auto.
Qed.
Lemma sc_transform_fuel n fuel fuel' Tm Pm H0 P0 : RTab Tm n n H0 -> RTab Pm n n P0 -> 0 <= n -> 101 * n < Z.of_nat fuel -> (fuel <= fuel')%nat -> sc_transform fuel' Tm Pm = sc_transform fuel Tm Pm.
Proof.
  intros HT HP Hn Hf Hle. unfold sc_transform. destruct (sc_norm_total n Tm H0 HT Hn) as (norm & En & _). rewrite En. cbn [bind]. rewrite (RTab_len _ _ _ _ HT).
  rewrite (while_more _ _ fuel fuel'); auto.
  pose proof (sc_loop_ok n norm Tm Pm H0 P0 fuel HT HP Hn Hf) as K. destruct (while_ _ _ _ _) as [st|e|e]; cbn [outcome] in *; try congruence. destruct K as [-> _]. congruence.
Qed.

Section Made.
Variables (x : RealMatrix) (n : Z) (A : Z -> Z -> F).
Hypothesis Hl : library x.
Hypothesis Hx : MatIs x n n A.
Hypothesis Hn : 1 <= n.
Let M := fst (hs_iter n A (n - 2)).
Let D := snd (hs_iter n A (n - 2)).
Lemma sc_prep : exists Tm Pm, RTab Tm n n (hs_tabH M) /\ RTab Pm n n (hs_tabP n M D) /\
  forall fuel, NewSchurTransformerFuel fuel x = let* (T, P) := sc_transform fuel Tm Pm in Ok (mkScD P T None None None).
Proof.
  unfold NewSchurTransformerFuel, IsSquare. rewrite (MatIs_rows _ _ _ _ Hx), (MatIs_cols _ _ _ _ Hx). cbn [bind]. rewrite Z.eqb_refl. cbn [negb].
  destruct (hs_new_spec x n A Hl Hx Hn) as (d0 & E0 & K1 & K2 & C1 & C2 & C3).
  assert (K : hs_ok n M D d0). { unfold hs_ok. rewrite C1, C2, C3. refine (conj K1 (conj _ _)); auto. repeat split. }
  rewrite E0. cbn [bind]. destruct (hs_H_ok n M D d0 Hn K) as ([h d1] & E1 & G1 & H1 & K'). rewrite E1. cbn [bind fst snd] in *.
  destruct (m_Data_ok h n n _ (gen_lib h G1) H1) as (Tm & E2 & HT). rewrite E2. cbn [bind].
  destruct (hs_P_ok n M D d1 Hn K') as ([p d2] & E3 & G2 & H2 & K''). rewrite E3. cbn [bind fst snd] in *.
  destruct (m_Data_ok p n n _ (gen_lib p G2) H2) as (Pm & E4 & HP). rewrite E4. cbn [bind].
  exists Tm, Pm. auto.
Qed.
Lemma sc_new_ok fuel : 101 * n < Z.of_nat fuel ->
  outcome (NewSchurTransformerFuel fuel x) (fun d => exists T P, RTab (sc_T d) n n T /\ RTab (sc_P d) n n P /\ sc_cachedP d = None /\ sc_cachedT d = None /\ sc_cachedPt d = None /\
    sc_made n (hs_tabH M) (hs_tabP n M D) T P) (3 <= n).
Proof.
  intros Hf. destruct sc_prep as (Tm & Pm & HT & HP & E). rewrite E. pose proof (sc_transform_ok n fuel Tm Pm _ _ HT HP ltac:(lia) Hf) as K.
  destruct (sc_transform fuel Tm Pm) as [[T1 P1]|e|e]; cbn [outcome bind fst snd] in *; auto. destruct K as (T & P & K1 & K2 & K3). exists T, P. cbn. repeat (split; [auto; fail|]); auto.
Qed.
Lemma sc_new_fuel fuel : (Z.to_nat (101 * n + 1) <= fuel)%nat -> NewSchurTransformerFuel fuel x = NewSchurTransformer x.
Proof.
  intros Hf. destruct sc_prep as (Tm & Pm & HT & HP & E). unfold NewSchurTransformer. rewrite !E. rewrite (MatIs_rows _ _ _ _ Hx).
  rewrite (sc_transform_fuel n (Z.to_nat (101 * n + 1)) fuel Tm Pm _ _ HT HP); auto; lia.
Qed.
End Made.
Lemma sc_nonsquare x r c A : MatIs x r c A -> r <> c -> NewSchurTransformer x = Err ENonSquare.
Proof.
  intros Hx Hr. unfold NewSchurTransformer, NewSchurTransformerFuel, IsSquare. rewrite (MatIs_cols _ _ _ _ Hx). cbn [bind].
  rewrite (MatIs_rows _ _ _ _ Hx). destruct (Z.eqb_spec c r); [congruence|]. reflexivity.
Qed.

(** ** The accessors *)
Definition sc_ok (n : Z) (T P : Z -> Z -> F) (d : ScD) : Prop :=
  RTab (sc_T d) n n T /\ RTab (sc_P d) n n P /\ tcache (sc_cachedP d) n n P /\ tcache (sc_cachedPt d) n n (fun i j => P j i) /\ tcache (sc_cachedT d) n n T.
Ltac scok := refine (conj _ (conj _ (conj _ (conj _ _)))); try discriminate; auto; try (split; auto; fail).
Lemma sc_P_ok n T P d : 1 <= n -> sc_ok n T P d -> wp (sc_getP d) (fun r => general (fst r) /\ MatIs (fst r) n n P /\ sc_ok n T P (snd r)).
Proof.
  intros Hn (HT & HP & CP & CPt & CT). unfold sc_getP. destruct (sc_cachedP d) as [r|] eqn:Ec.
  - apply wp_ok. cbn [fst snd]. destruct CP as [G1 G2]. refine (conj G1 (conj G2 _)). unfold sc_ok. rewrite Ec. scok.
  - destruct (FromSlices_RTab _ n n _ ltac:(lia) ltac:(lia) HP) as (r & -> & Hg & Hr). cbn [orpanic bind]. apply wp_ok. cbn [fst snd].
    refine (conj Hg (conj Hr _)). unfold sc_ok. cbn. scok.
Qed.
Lemma sc_T_ok n T P d : 1 <= n -> sc_ok n T P d -> wp (sc_getT d) (fun r => general (fst r) /\ MatIs (fst r) n n T /\ sc_ok n T P (snd r)).
Proof.
  intros Hn (HT & HP & CP & CPt & CT). unfold sc_getT. destruct (sc_cachedT d) as [r|] eqn:Ec.
  - apply wp_ok. cbn [fst snd]. destruct CT as [G1 G2]. refine (conj G1 (conj G2 _)). unfold sc_ok. rewrite Ec. scok.
  - destruct (FromSlices_RTab _ n n _ ltac:(lia) ltac:(lia) HT) as (r & -> & Hg & Hr). cbn [orpanic bind]. apply wp_ok. cbn [fst snd].
    refine (conj Hg (conj Hr _)). unfold sc_ok. cbn. scok.
Qed.
Lemma sc_PT_ok n T P d : 1 <= n -> sc_ok n T P d -> wp (sc_getPT d) (fun r => general (fst r) /\ MatIs (fst r) n n (fun i j => P j i) /\ sc_ok n T P (snd r)).
Proof.
  intros Hn H. unfold sc_getPT. destruct (sc_cachedPt d) as [r|] eqn:Ec.
  - destruct H as (HT & HP & CP & CPt & CT). rewrite Ec in CPt. apply wp_ok. cbn [fst snd]. destruct CPt as [G1 G2]. refine (conj G1 (conj G2 _)). unfold sc_ok. rewrite Ec. scok.
  - apply wp_bind. eapply wp_conseq; [apply (sc_P_ok n T P d Hn H)|]. cbn beta. intros [t d1] (Hg & Ht & H1). cbn [fst snd] in *.
    destruct (m_Transpose_ok t n n _ Hg Ht) as (r & -> & Hgr & Hr). cbn [bind]. apply wp_ok. cbn [fst snd].
    refine (conj Hgr (conj Hr _)). destruct H1 as (HT & HP & CP & CPt & CT). unfold sc_ok. cbn. scok.
Qed.
Lemma sc_calls_ok n T P d d' : 1 <= n -> sc_ok n T P d -> sc_calls d d' -> sc_ok n T P d'.
Proof.
  intros Hn Hd Hc. induction Hc as [d|d d1 d2 x E _ IH|d d1 d2 x E _ IH|d d1 d2 x E _ IH]; auto; apply IH.
  - destruct (sc_P_ok n T P d Hn Hd) as ([x' d1'] & E' & _ & _ & K). rewrite E in E'. injection E' as <- <-. exact K.
  - destruct (sc_PT_ok n T P d Hn Hd) as ([x' d1'] & E' & _ & _ & K). rewrite E in E'. injection E' as <- <-. exact K.
  - destruct (sc_T_ok n T P d Hn Hd) as ([x' d1'] & E' & _ & _ & K). rewrite E in E'. injection E' as <- <-. exact K.
Qed.
Lemma sc_state x n A d : library x -> MatIs x n n A -> 1 <= n -> sc_of x d ->
  exists T P, sc_ok n T P d /\ sc_made n (hs_tabH (fst (hs_iter n A (n - 2)))) (hs_tabP n (fst (hs_iter n A (n - 2))) (snd (hs_iter n A (n - 2)))) T P.
Proof.
  intros Hl Hx Hn (d0 & E & Hc). unfold NewSchurTransformer in E. rewrite (MatIs_rows _ _ _ _ Hx) in E.
  pose proof (sc_new_ok x n A Hl Hx Hn (Z.to_nat (101 * n + 1)) ltac:(lia)) as K. rewrite E in K. cbn [outcome] in K. destruct K as (T & P & K1 & K2 & C1 & C2 & C3 & K3).
  exists T, P. split; auto. eapply sc_calls_ok; [auto| |exact Hc]. unfold sc_ok. rewrite C1, C2, C3. scok.
Qed.
(** The three accessors together. *)
Lemma sc_access x n A d : library x -> MatIs x n n A -> 1 <= n -> sc_of x d ->
  exists Pm Qm Tm P Q T d1 d2 d3, sc_getP d = Ok (Pm, d1) /\ sc_getPT d = Ok (Qm, d2) /\ sc_getT d = Ok (Tm, d3) /\
    MatIs Pm n n P /\ MatIs Qm n n Q /\ MatIs Tm n n T /\ (forall i j, 0 <= i < n -> 0 <= j < n -> Q i j = P j i) /\ (forall i j, 0 <= j -> j + 1 < i < n -> T i j = fzero) /\
    sc_made n (hs_tabH (fst (hs_iter n A (n - 2)))) (hs_tabP n (fst (hs_iter n A (n - 2))) (snd (hs_iter n A (n - 2)))) T P.
Proof.
  intros Hl Hx Hn Hd. destruct (sc_state x n A d Hl Hx Hn Hd) as (T & P & K & Km).
  destruct (sc_P_ok _ _ _ _ Hn K) as ([a1 d1] & E1 & _ & H1 & _). destruct (sc_PT_ok _ _ _ _ Hn K) as ([a2 d2] & E2 & _ & H2 & _). destruct (sc_T_ok _ _ _ _ Hn K) as ([a3 d3] & E3 & _ & H3 & _).
  cbn [fst snd] in *. exists a1, a2, a3, P, (fun i j => P j i), T, d1, d2, d3. do 6 (split; [auto|]). split; [auto|]. split; [|auto].
  destruct Km as (Hm & norm & ex & it & _ & _ & Ht). pose proof (turns_hess n norm _ _ Ht) as G. cbn [fst] in G. apply G. intros i j Hj Hij. unfold hs_tabH. zbq; auto.
Qed.
End SchurFacts2.

(** Lemmas behind P_Heap.v. *)
From Coq Require Import ZArith List Lia Bool.
From Verif Require Import Base BaseLemmas Scalar Vector Matrix MatSpec MatFacts Array2D Array2DFacts BlockM BlockFacts Diagonal DiagFacts
  Heap HeapSpec HeapFacts HeapIndep HeapSim HeapSim2 HeapSim3 HeapSim4 HeapMain HeapVec.
Import ListNotations.
Open Scope Z_scope.

Section Props.
Context {O : Ops}.

Lemma fresh_of {A} (m : M A) of h R : wfheap h -> separate m of -> returns m h R -> fresh m of h R.
Proof.
  intros Hw Hs (y & h' & E & HR). destruct (Hs h Hw _ _ E) as (A1 & A2 & A3). destruct (A3 y eq_refl) as [A4 A5].
  exists y, h'. auto 10.
Qed.
Lemma keeps_sepF (m : M slice) : (forall h0, keeps h0 h0 m (isnewF h0)) -> separate m OF.
Proof. intros H. apply keeps_separate. exact H. Qed.
Lemma keeps_sepS (m : M slice) : (forall h0, keeps h0 h0 m (isnewS h0)) -> separate m OM.
Proof. intros H. apply keeps_separate. exact H. Qed.
Lemma keeps_sepB (m : M HBlk) : (forall h0, keeps h0 h0 m (isnewB h0)) -> separate m (fun b => OM (hb_blocks b)).
Proof. intros H. apply keeps_separate. exact H. Qed.

Definition C36_sep_stmt : Prop :=
  (forall a, separate (h2_Copy a) OM /\ separate (h2_Data a) OM /\ separate (h2_Transpose a) OM /\ separate (h2_FromSlices a true) OM) /\
  (forall a i, separate (h2_RowAt a i) OF /\ separate (h2_ColumnAt a i) OF /\ separate (h2_RowVectorAt a i) OF /\ separate (h2_ColumnVectorAt a i) OF /\
     separate (h2_RowMatrixAt a i) OM /\ separate (h2_ColumnMatrixAt a i) OM) /\
  (forall a r0 r1 c0 c1, separate (h2_SubMatrix a r0 r1 c0 c1) OM) /\
  (forall b, separate (hb_Copy b) (fun b => OM (hb_blocks b)) /\ separate (hb_Data b) OM) /\
  (forall a, separate (hb_FromSlices a) (fun b => OM (hb_blocks b))) /\
  (forall b i, separate (hb_RowAt b i) OF /\ separate (hb_ColumnAt b i) OF) /\
  (forall b r0 r1 c0 c1, separate (hb_SubMatrix b r0 r1 c0 c1) (fun b => OM (hb_blocks b))) /\
  (forall d, separate (hd_New d true) OF /\ separate (hd_Copy d) OF /\ separate (hd_Data d) OM) /\
  (forall d i, separate (hd_RowAt d i) OF /\ separate (hd_ColumnAt d i) OF) /\
  (forall v, separate (h_NewArrayRealVectorCopy v) OF) /\
  (forall s, separate (h_Copy s) OF /\ separate (h_ToArray s) OF /\ separate (h_NewArrayRealVector s true) OF) /\
  (forall s i n, separate (h_SubVector s i n) OF) /\
  (forall s t, separate (h_FromTwo s t) OF) /\ (forall s x, separate (h_Append s x) OF) /\ (forall s v, separate (h_Add s v) OF).
Lemma C36_sep : C36_sep_stmt.
Proof.
  assert (forall d, separate (hd_New d true) OF) by (intros; apply keeps_sepF; intros; apply kd_New).
  repeat apply conj; intros; repeat apply conj;
    try (apply keeps_sepS; intros h0; first [apply k2_Copy|apply k2_copyOut|apply k2_Transpose|apply k2_FromSlices
      |apply k2_RowMatrixAt|apply k2_ColumnMatrixAt|apply k2_SubMatrix|apply kb_Data|apply kd_Data]);
    try (apply keeps_sepF; intros h0; first [apply k2_RowAt|apply k2_ColumnAt|apply k2_RowVectorAt|apply k2_ColumnVectorAt
      |apply kb_RowAt|apply kb_ColumnAt|apply kd_Copy|apply kd_RowAt|apply kd_ColumnAt|apply k_NewCopy|apply keeps_appendF
      |apply k_NewVector|apply k_SubVector|apply k_FromTwo|apply k_Append|apply k_Add]);
    try (apply keeps_sepB; intros h0; first [apply kb_Copy|apply kb_FromSlices|apply kb_SubMatrix]); auto.
Qed.

Ltac fr := apply fresh_of; [assumption|first [apply C36_sep|idtac]|].

Lemma C36_arr h a r c f : wfheap h -> HTab h a r c f ->
  fresh (h2_Copy a) OM h (fun h' o => HTab h' o r c f) /\
  fresh (h2_Data a) OM h (fun h' o => HTab h' o r c f) /\
  fresh (h2_FromSlices a true) OM h (fun h' o => HTab h' o r c f) /\
  fresh (h2_Transpose a) OM h (fun h' o => HTab h' o c r (fun i j => f j i)) /\
  (forall i, 0 <= i < r ->
    fresh (h2_RowAt a i) OF h (fun h' s => HVecIs h' s c (f i)) /\
    fresh (h2_RowVectorAt a i) OF h (fun h' s => HVecIs h' s c (f i)) /\
    fresh (h2_RowMatrixAt a i) OM h (fun h' o => HTab h' o 1 c (fun _ j => f i j))) /\
  (forall j, 0 <= j < c ->
    fresh (h2_ColumnAt a j) OF h (fun h' s => HVecIs h' s r (fun i => f i j)) /\
    fresh (h2_ColumnVectorAt a j) OF h (fun h' s => HVecIs h' s r (fun i => f i j)) /\
    fresh (h2_ColumnMatrixAt a j) OM h (fun h' o => HTab h' o r 1 (fun i _ => f i j))) /\
  (forall r0 r1 c0 c1, 0 <= r0 <= r1 -> r1 < r -> 0 <= c0 <= c1 -> c1 < c ->
    fresh (h2_SubMatrix a r0 r1 c0 c1) OM h (fun h' o => HTab h' o (r1 - r0 + 1) (c1 - c0 + 1) (fun i j => f (r0 + i) (c0 + j)))).
Proof.
  intros Hw H. destruct C36_sep as (S1 & S2 & S3 & _). destruct (S1 a) as (P1 & P2 & P3 & P4).
  split; [|split; [|split; [|split; [|split; [|split]]]]].
  - apply fresh_of; auto. apply m2_Copy; auto.
  - apply fresh_of; auto. apply m2_Data; auto.
  - apply fresh_of; auto. apply m2_FromSlices; auto.
  - apply fresh_of; auto. apply m2_Transpose; auto.
  - intros i Hi. destruct (S2 a i) as (Q1 & Q2 & Q3 & Q4 & Q5 & Q6). split; [|split].
    + apply fresh_of; auto. eapply m2_RowAt; eauto.
    + apply fresh_of; auto. eapply m2_RowVectorAt; eauto.
    + apply fresh_of; auto. eapply m2_RowMatrixAt; eauto.
  - intros i Hi. destruct (S2 a i) as (Q1 & Q2 & Q3 & Q4 & Q5 & Q6). split; [|split].
    + apply fresh_of; auto. eapply m2_ColumnAt; eauto.
    + apply fresh_of; auto. eapply m2_ColumnVectorAt; eauto.
    + apply fresh_of; auto. eapply m2_ColumnMatrixAt; eauto.
  - intros. apply fresh_of; auto. eapply m2_SubMatrix; eauto.
Qed.
Lemma C36_blk h b r c f : wfheap h -> HBlkIs h b r c f ->
  fresh (hb_Copy b) (fun b => OM (hb_blocks b)) h (fun h' o => HBlkIs h' o r c f) /\
  fresh (hb_Data b) OM h (fun h' o => HTab h' o r c f) /\
  (forall i, 0 <= i < r -> fresh (hb_RowAt b i) OF h (fun h' s => HVecIs h' s c (f i))) /\
  (forall j, 0 <= j < c -> fresh (hb_ColumnAt b j) OF h (fun h' s => HVecIs h' s r (fun i => f i j))) /\
  (forall r0 r1 c0 c1, 0 <= r0 <= r1 -> r1 < r -> 0 <= c0 <= c1 -> c1 < c ->
    fresh (hb_SubMatrix b r0 r1 c0 c1) (fun b => OM (hb_blocks b)) h (fun h' o => HBlkIs h' o (r1 - r0 + 1) (c1 - c0 + 1) (fun i j => f (r0 + i) (c0 + j)))).
Proof.
  intros Hw H. destruct C36_sep as (_ & _ & _ & S1 & _ & S2 & S3 & _). destruct (S1 b) as (P1 & P2).
  split; [|split; [|split; [|split]]].
  - apply fresh_of; auto. apply mb_Copy; auto.
  - apply fresh_of; auto. apply mb_Data; auto.
  - intros i Hi. destruct (S2 b i). apply fresh_of; auto. eapply mb_RowAt; eauto.
  - intros i Hi. destruct (S2 b i). apply fresh_of; auto. eapply mb_ColumnAt; eauto.
  - intros. apply fresh_of; auto. eapply mb_SubMatrix; eauto.
Qed.
Lemma C36_blk_from h a r c f : wfheap h -> HTab h a r c f ->
  fresh (hb_FromSlices a) (fun b => OM (hb_blocks b)) h (fun h' o => HBlkIs h' o r c f).
Proof.
  intros Hw H. destruct C36_sep as (_ & _ & _ & _ & S1 & _). apply fresh_of; auto. apply mb_FromSlices; auto.
Qed.
Lemma C36_diag h s n g : wfheap h -> HVecIs h s n g -> sl_arr s <> -1 ->
  fresh (hd_New s true) OF h (fun h' t => HVecIs h' t n g) /\
  fresh (hd_Copy s) OF h (fun h' t => HVecIs h' t n g) /\
  (1 <= n -> fresh (hd_Data s) OM h (fun h' o => HTab h' o n n (fun i j => if i =? j then g i else fzero))) /\
  (forall i, 0 <= i < n ->
    fresh (hd_RowAt s i) OF h (fun h' t => HVecIs h' t n (fun j => if i =? j then g i else fzero)) /\
    fresh (hd_ColumnAt s i) OF h (fun h' t => HVecIs h' t n (fun j => if j =? i then g j else fzero))).
Proof.
  intros Hw H Hn. destruct C36_sep as (_ & _ & _ & _ & _ & _ & _ & S1 & S2 & _). destruct (S1 s) as (P1 & P2 & P3).
  split; [|split; [|split]].
  - apply fresh_of; auto. unfold hd_New, isnil. rewrite (proj2 (Z.eqb_neq _ _) Hn). apply mv_append; auto.
  - apply fresh_of; auto. apply mv_append; auto.
  - intros. apply fresh_of; auto. apply md_Data; auto.
  - intros i Hi. destruct (S2 s i). split; apply fresh_of; auto; [apply md_RowAt|apply md_ColumnAt]; auto.
Qed.
Lemma C36_vec h s n g : wfheap h -> HVecIs h s n g ->
  fresh (h_Copy s) OF h (fun h' t => HVecIs h' t n g) /\
  fresh (h_ToArray s) OF h (fun h' t => HVecIs h' t n g) /\
  (sl_arr s <> -1 -> fresh (h_NewArrayRealVector s true) OF h (fun h' t => HVecIs h' t n g)) /\
  (forall i m, 0 <= i -> 1 <= m -> i + m <= n -> fresh (h_SubVector s i m) OF h (fun h' t => HVecIs h' t m (fun j => g (i + j)))) /\
  (forall x, fresh (h_Append s x) OF h (fun h' t => HVecIs h' t (n + 1) (fun i => if i <? n then g i else x))) /\
  (forall t m e, HVecIs h t m e -> fresh (h_FromTwo s t) OF h (fun h' u => HVecIs h' u (n + m) (fun i => if i <? n then g i else e (i - n)))) /\
  (forall v e, HVIs h v n e -> fresh (h_Add s v) OF h (fun h' u => HVecIs h' u n (fun i => (g i + e i)%f))) /\
  (forall v m e, HVIs h v m e -> fresh (h_NewArrayRealVectorCopy v) OF h (fun h' u => HVecIs h' u m e)).
Proof.
  intros Hw H. destruct C36_sep as (_ & _ & _ & _ & _ & _ & _ & _ & _ & S1 & S2 & S3 & S4 & S5 & S6). destruct (S2 s) as (P1 & P2 & P3).
  split; [|split; [|split; [|split; [|split; [|split; [|split]]]]]].
  - apply fresh_of; auto. apply mv_Copy; auto.
  - apply fresh_of; auto. apply mv_append; auto.
  - intros. apply fresh_of; auto. apply mv_FromSlice; auto.
  - intros. apply fresh_of; auto. eapply mv_SubVector; eauto.
  - intros. apply fresh_of; auto. apply mv_Append; auto.
  - intros. apply fresh_of; auto. apply mv_FromTwo; auto.
  - intros. apply fresh_of; auto. apply mv_Add; auto.
  - intros. apply fresh_of; auto. apply mv_NewCopy; auto.
Qed.

(** ** The writing methods *)
Lemma wF {A} s (m : M A) : (forall K, kF K (sl_arr s) -> acts K m anyk) -> writes (OF s) m.
Proof. intros H. eapply acts_writes. apply H. reflexivity. Qed.
Lemma wS {A} s (m : M A) : (forall K, kS K (sl_arr s) -> acts K m anyk) -> writes (OM s) m.
Proof. intros H. eapply acts_writes. apply H. reflexivity. Qed.
Lemma C36_wr : 
  (forall s i x, writes (OF s) (h_SetEntry s i x) /\ writes (OF s) (h_AddToEntry s i x)) /\
  (forall s x, writes (OF s) (h_Set s x)) /\ (forall s f, writes (OF s) (h_Map s f)) /\
  (forall s i d, writes (OF s) (h_SetSubVectorWithSlice s i d)) /\ (forall s i v, writes (OF s) (h_SetSubVector s i v)) /\
  (forall s v, writes (OF s) (h_CopyFrom s v)) /\ (forall s a b v, writes (OF s) (h_Combine s a b v)) /\
  (forall s i x, writes (OF s) (wrF s i x)) /\ (forall a i j x, writes (OM a) (wr2 a i j x)) /\
  (forall a i j x, writes (OM a) (h2_SetEntry a i j x) /\ writes (OM a) (h2_AddToEntry a i j x) /\ writes (OM a) (h2_MultiplyEntry a i j x)) /\
  (forall a i d, writes (OM a) (h2_SetRow a i d) /\ writes (OM a) (h2_SetColumn a i d)) /\
  (forall a d i j, sl_arr a <> -1 -> writes (OM a) (h2_SetSubMatrix a d i j)) /\
  (forall s i j x, writes (OF s) (hd_SetEntry s i j x) /\ writes (OF s) (hd_AddToEntry s i j x) /\ writes (OF s) (hd_MultiplyEntry s i j x)) /\
  (forall s i d, writes (OF s) (hd_SetRow s i d) /\ writes (OF s) (hd_SetColumn s i d)) /\
  (forall b i j x, writes (OM (hb_blocks b)) (hb_SetEntry b i j x) /\ writes (OM (hb_blocks b)) (hb_AddToEntry b i j x) /\
     writes (OM (hb_blocks b)) (hb_MultiplyEntry b i j x)).
Proof.
  repeat apply conj; intros; repeat apply conj;
   try (apply wF; intros K HK; first [apply a_SetEntry|apply a_AddToEntry|apply a_Set|apply a_Map|apply a_SetSubVectorWithSlice
     |apply a_SetSubVector|apply a_CopyFrom|apply a_Combine|apply acts_wrF|apply ad_SetEntry|apply ad_AddToEntry|apply ad_MultiplyEntry|apply ad_SetRow|apply ad_SetColumn]; auto);
   try (apply wS; intros K HK; first [apply a_wr2|apply a2_SetEntry|apply a2_modEntry|apply a2_SetRow|apply a2_SetColumn|apply a2_SetSubMatrix
     |apply ab_SetEntry|apply ab_modEntry]; auto; unfold isnil; apply Z.eqb_neq; auto).
Qed.

(** ** Histories of calls *)
Lemma step_mono K h K1 h1 L : step K h K1 h1 -> kle K L -> exists L1, step L h L1 h1 /\ kle K1 L1.
Proof.
  intros H [A B]. inversion H; subst.
  - eexists. split; [constructor; eauto|split; auto].
  - eexists. split; [apply st_head; eauto|split; auto]. destruct H1; auto.
  - eexists. split; [eapply st_look; eauto|]. split; cbn; auto. intros a [X|X]; auto.
  - eexists. split; [apply st_newF|]. split; cbn; auto. intros a [X|X]; auto.
  - eexists. split; [apply st_newS|]. { intros s Hs. destruct (H0 s Hs); auto. } split; cbn; auto. intros a [X|X]; auto.
Qed.
Lemma steps_mono K h K1 h1 : steps K h K1 h1 -> forall L, kle K L -> exists L1, steps L h L1 h1 /\ kle K1 L1.
Proof.
  induction 1 as [|K h K1 h1 K2 h2 S1 S2 IH]; intros L HL.
  - exists L. split; [constructor|auto].
  - destruct (step_mono _ _ _ _ _ S1 HL) as (L1 & T1 & HL1). destruct (IH _ HL1) as (L2 & T2 & HL2).
    exists L2. split; auto. econstructor; eauto.
Qed.
Lemma step_grows K h K1 h1 : step K h K1 h1 -> kle K K1.
Proof. inversion 1; subst; split; cbn; auto. Qed.
Lemma steps_grow K h K1 h1 : steps K h K1 h1 -> kle K K1.
Proof. induction 1; [apply kle_refl|]. eapply kle_trans; [eapply step_grows; eauto|auto]. Qed.
Lemma turns_app K L h K1 L1 h1 : turns K L h K1 L1 h1 -> forall K2 L2 h2, turns K1 L1 h1 K2 L2 h2 -> turns K L h K2 L2 h2.
Proof. induction 1; intros; auto; [eapply tn_one|eapply tn_two]; eauto. Qed.
Lemma turns_x K h K1 h1 L : steps K h K1 h1 -> turns K L h K1 L h1.
Proof. induction 1; [constructor|eapply tn_one; eauto]. Qed.
Lemma turns_y K h K1 h1 L : steps K h K1 h1 -> turns L K h L K1 h1.
Proof. induction 1; [constructor|eapply tn_two; eauto]. Qed.
Lemma history_turns x y h h1 : history x y h h1 -> exists K L, turns (holds x) (holds y) h K L h1 /\ kle (holds x) K /\ kle (holds y) L.
Proof.
  induction 1 as [h|A m h h1 r h2 H (K & L & T & HK & HL) W E|A m h h1 r h2 H (K & L & T & HK & HL) W E].
  - exists (holds x), (holds y). split; [constructor|]. split; apply kle_refl.
  - destruct (W _ _ _ E) as (K' & S). destruct (steps_mono _ _ _ _ S _ HK) as (K2 & S2 & _).
    exists K2, L. split; [eapply turns_app; [exact T|]; apply turns_x; auto|]. split; auto. eapply kle_trans; [exact HK|]. eapply steps_grow; eauto.
  - destruct (W _ _ _ E) as (K' & S). destruct (steps_mono _ _ _ _ S _ HL) as (L2 & S2 & _).
    exists K, L2. split; [eapply turns_app; [exact T|]; apply turns_y; auto|]. split; auto. eapply kle_trans; [exact HL|]. eapply steps_grow; eauto.
Qed.
Lemma C36_hist h x y : independent h x y -> forall h1, history x y h h1 ->
  forall A (m : M A) r h2, m h1 = (r, h2) -> (writes x m -> view h2 y = view h1 y) /\ (writes y m -> view h2 x = view h1 x).
Proof.
  intros HI h1 HH A m r h2 E. destruct (history_turns _ _ _ _ HH) as (K & L & T & HK & HL). destruct (HI _ _ _ T) as [X Y].
  split; intros W; destruct (W _ _ _ E) as (K' & S).
  - destruct (steps_mono _ _ _ _ S _ HK) as (K2 & S2 & _). eapply X; eauto.
  - destruct (steps_mono _ _ _ _ S _ HL) as (K2 & S2 & _). eapply Y; eauto.
Qed.

(** ** What does share *)
Lemma wr_then_rd h s i x : inheap h s -> 0 <= i < sl_len s ->
  exists h', wrF s i x h = (Ok tt, h') /\ rdF s i h' = (Ok x, h').
Proof.
  intros (_ & _ & H) Hi. destruct (H i Hi) as (y & Hy). destruct (wrF_slot h s i x y Hi Hy) as (h' & R & _ & Hs).
  exists h'. split; auto. apply rdF_slot; auto. rewrite Hs, !Z.eqb_refl. reflexivity.
Qed.
Lemma wr2_then_rd2 h a i j x y : rd2 a i j h = (Ok y, h) ->
  exists h', wr2 a i j x h = (Ok tt, h') /\ rd2 a i j h' = (Ok x, h') /\ hs h' = hs h.
Proof.
  intros R. unfold rd2, wr2, mbind in *. destruct (rdS a i h) as [[s| |] h1] eqn:E; try discriminate.
  assert (h1 = h) by (unfold rdS in E; congruence). subst h1. unfold rdF in R.
  destruct (inb j (sl_len s)) eqn:Ej; [|discriminate]. apply inb_true in Ej.
  assert (Hy : slot h (sl_arr s) (sl_off s + j) = Ok y) by (unfold slot; congruence).
  destruct (wrF_slot h s j x y Ej Hy) as (h' & R' & Eh & Hs). exists h'. split; [exact R'|]. split; auto.
  assert (E' : rdS a i h' = (Ok s, h')) by (unfold rdS; rewrite Eh; unfold rdS in E; congruence).
  rewrite E'. apply rdF_slot; auto. rewrite Hs, !Z.eqb_refl. reflexivity.
Qed.
Lemma HVecIs_inheap h s n g : HVecIs h s n g -> inheap h s /\ sl_len s = n.
Proof.
  intros (l & HV & Hl & Hg). pose proof HV as (_ & E & Ho & Hc). split; [|congruence]. split; [auto|split; auto].
  intros j Hj. exists (g j). eapply VRep_slots; eauto. apply Hg. lia.
Qed.
Lemma sh_vec h s n g : HVecIs h s n g -> sl_arr s <> -1 -> exists t, h_NewArrayRealVector s false h = (Ok t, h) /\
  forall i x, 0 <= i < n ->
    (exists h', h_SetEntry t i x h = (Ok tt, h') /\ rdF s i h' = (Ok x, h') /\ rdF (h_DataRef t) i h' = (Ok x, h')) /\
    (exists h', wrF s i x h = (Ok tt, h') /\ hv_At (HArr t) i h' = (Ok x, h')) /\
    (exists h', wrF (h_DataRef t) i x h = (Ok tt, h') /\ hv_At (HArr t) i h' = (Ok x, h')).
Proof.
  intros H Hn. destruct (HVecIs_inheap _ _ _ _ H) as [HI El]. exists s. split.
  { unfold h_NewArrayRealVector, isnil. rewrite (proj2 (Z.eqb_neq _ _) Hn). reflexivity. }
  intros i x Hi. destruct (wr_then_rd h s i x HI) as (h' & W & R); [lia|].
  assert (EI : inb i (sl_len s) = true) by (apply inb_true; lia).
  repeat split; exists h'; repeat split; auto;
    try (unfold h_SetEntry, hcheck; rewrite EI; exact W); unfold hv_At; cbn [hv_dim]; rewrite EI; exact R.
Qed.
Lemma sh_diag h s n g : HVecIs h s n g -> sl_arr s <> -1 -> exists t, hd_New s false h = (Ok t, h) /\
  forall i x, 0 <= i < n ->
    (exists h', hd_SetEntry t i i x h = (Ok tt, h') /\ rdF s i h' = (Ok x, h') /\ rdF (hd_DataRef t) i h' = (Ok x, h')) /\
    (exists h', wrF s i x h = (Ok tt, h') /\ hd_At t i i h' = (Ok x, h')) /\
    (exists h', wrF (hd_DataRef t) i x h = (Ok tt, h') /\ hd_At t i i h' = (Ok x, h')).
Proof.
  intros H Hn. destruct (HVecIs_inheap _ _ _ _ H) as [HI El]. exists s. split.
  { unfold hd_New, isnil. rewrite (proj2 (Z.eqb_neq _ _) Hn). reflexivity. }
  intros i x Hi. destruct (wr_then_rd h s i x HI) as (h' & W & R); [lia|].
  assert (EI : inb i (sl_len s) = true) by (apply inb_true; lia).
  repeat split; exists h'; repeat split; auto;
    try (unfold hd_SetEntry, hcheck; rewrite Z.eqb_refl, EI; exact W); unfold hd_At, hcheck, mbind; rewrite EI; cbn; rewrite Z.eqb_refl; exact R.
Qed.
Lemma h2_ck_hs a i j h h' : hs h' = hs h -> fst (h2_ck a i j h') = fst (h2_ck a i j h) /\ snd (h2_ck a i j h) = h /\ snd (h2_ck a i j h') = h'.
Proof.
  intros E. unfold h2_ck, h2_ckrow, h2_ckcol, h2_cols, mbind, rdS, ret, mpanic.
  destruct (inb i (h2_rows a)); cbn; auto. destruct (j <? 0); cbn; auto.
  destruct (isnil a); cbn; [destruct (0 <=? j); cbn; auto|]. rewrite E.
  destruct (0 <? sl_len a); cbn; auto.
  destruct (zget (hs h) (sl_arr a)) as [l| |]; cbn; auto. destruct (zget l (sl_off a + 0)) as [s| |]; cbn; auto. destruct (sl_len s <=? j); cbn; auto.
Qed.
Lemma HTab_set h a r c f i j x : HTab h a r c f -> 0 <= i < r -> 0 <= j < c ->
  exists h', wr2 a i j x h = (Ok tt, h') /\ h2_SetEntry a i j x h = (Ok tt, h') /\ rd2 a i j h' = (Ok x, h') /\ h2_At a i j h' = (Ok x, h').
Proof.
  intros H Hi Hj. pose proof (m2_At h a r c f i j H Hi Hj) as R. unfold h2_At, mbind in R.
  destruct (h2_ck a i j h) as [[u| |] h1] eqn:Ec; try discriminate.
  destruct (h2_ck_hs a i j h h eq_refl) as (_ & E1 & _). rewrite Ec in E1. cbn in E1. subst h1.
  destruct (wr2_then_rd2 h a i j x _ R) as (h' & W & R' & Eh). exists h'. split; auto. split.
  - unfold h2_SetEntry, mbind. rewrite Ec. exact W.
  - split; auto. destruct (h2_ck_hs a i j h h' Eh) as (E1 & _ & E2). rewrite Ec in E1. cbn in E1.
    unfold h2_At, mbind. destruct (h2_ck a i j h') as [u' h1']. cbn in E1, E2. subst. exact R'.
Qed.
Lemma sh_arr h a r c f : HTab h a r c f -> exists t, h2_FromSlices a false h = (Ok t, h) /\
  forall i j x, 0 <= i < r -> 0 <= j < c ->
    (exists h', h2_SetEntry t i j x h = (Ok tt, h') /\ rd2 a i j h' = (Ok x, h') /\ rd2 (h2_DataRef t) i j h' = (Ok x, h')) /\
    (exists h', wr2 a i j x h = (Ok tt, h') /\ h2_At t i j h' = (Ok x, h')) /\
    (exists h', wr2 (h2_DataRef t) i j x h = (Ok tt, h') /\ h2_At t i j h' = (Ok x, h')).
Proof.
  intros H. exists a. split.
  - destruct H as (Hn & Hr & Hc & d & HM & HR & _). unfold h2_FromSlices, isnil. rewrite (proj2 (Z.eqb_neq _ _) Hn).
    pose proof HM as (_ & El & _). destruct HR as [ER HR]. rewrite El, ER, (proj2 (Z.eqb_neq r 0)) by lia.
    assert (RR : forall i, 0 <= i < r -> exists s, rdS a i h = (Ok s, h) /\ sl_len s = c).
    { intros i Hi. assert (E : zget d i = Ok (nthZ d i)) by (apply zget_ok; lia).
      destruct (runs_rdS h a d i _ HM E) as (s & R & (_ & E2 & _)). exists s. split; auto. rewrite E2. apply HR; lia. }
    unfold mbind. destruct (RR 0) as (s & E & Es); [lia|]. rewrite E, Es, (proj2 (Z.eqb_neq c 0)) by lia.
    destruct (mfor_inv (fun _ h' => h' = h) 1 r (fun r0 (_ : unit) => let! dr := rdS a r0 in if negb (sl_len dr =? c) then merr EDimMismatch else ret tt) h)
      as (u & h' & R & ->); auto.
    + intros i h1 Hi ->. destruct (RR i) as (s1 & E1 & Es1); [lia|]. exists tt, h. split; auto. unfold runs, mbind. rewrite E1, Es1, Z.eqb_refl. reflexivity.
    + unfold runs, mbind in R. rewrite R. reflexivity.
  - intros i j x Hi Hj. destruct (HTab_set h a r c f i j x H Hi Hj) as (h' & A1 & A2 & A3 & A4).
    repeat split; exists h'; auto.
Qed.
Lemma sh_blk h b0 r c f : HBlkIs h b0 r c f -> exists b, hb_FromBlockData r c (hb_blocks b0) h = (Ok b, h) /\ HBlkIs h b r c f /\
  forall i j x, 0 <= i < r -> 0 <= j < c ->
    (exists h', hb_SetEntry b i j x h = (Ok tt, h') /\ hb_At b0 i j h' = (Ok x, h')) /\
    (exists h', hb_SetEntry b0 i j x h = (Ok tt, h') /\ hb_At b i j h' = (Ok x, h')).
Proof.
  intros H. destruct (HBlkIs_pos _ _ _ _ _ H) as [Hr Hc].
  destruct (HBlkIs_elim _ _ _ _ _ H) as (v & HB & HI).
  assert (Eb : b0 = mkHBlk (hb_blocks b0) r c (hb_nblk r) (hb_nblk c)).
  { destruct H as (bl & _ & A & B & C & D & _). destruct b0; cbn in *. subst. unfold hb_nblk. rewrite !nblk_BLOCK. reflexivity. }
  exists b0. split; [|split; auto].
  - destruct HI as (bl & Ev & _ & _ & HT). pose proof (FromBlockData_ok bl r c f Hr Hc HT) as E.
    destruct HB as (HM & _). rewrite Ev in HM. cbn in HM.
    destruct (sb_FromBlockData h r c (hb_blocks b0) bl _ HM E) as (b & h' & R & -> & Q1 & Q2).
    unfold runs in R. rewrite R. f_equal. f_equal. rewrite Eb. destruct Q2 as (_ & A & B & C & D). destruct b. cbn in *. subst. unfold hb_nblk. rewrite !nblk_BLOCK. reflexivity.
  - intros i j x Hi Hj. pose proof (mb_At _ _ _ _ _ i j H Hi Hj) as R.
    assert (E1 : hb_rows b0 = r) by (rewrite Eb; reflexivity). assert (E2 : hb_columns b0 = c) by (rewrite Eb; reflexivity).
    unfold hb_At, hb_ckrow, hb_ckcol, mbind in R. rewrite E1, E2, !(proj2 (inb_true _ _)) in R by auto. cbn in R.
    destruct (wr2_then_rd2 h _ _ _ x _ R) as (h' & W & R' & _).
    assert (A1 : hb_SetEntry b0 i j x h = (Ok tt, h')).
    { unfold hb_SetEntry, hb_ckrow, hb_ckcol, mbind. rewrite E1, E2, !(proj2 (inb_true _ _)) by auto. cbn. exact W. }
    assert (A2 : hb_At b0 i j h' = (Ok x, h')).
    { unfold hb_At, hb_ckrow, hb_ckcol, mbind. rewrite E1, E2, !(proj2 (inb_true _ _)) by auto. cbn. exact R'. }
    split; exists h'; auto.
Qed.

(** ** C37, C54 *)
Lemma sub_with h s i v : inheap h s -> inheap h v -> 0 <= i -> 1 <= sl_len v -> i + sl_len v <= sl_len s ->
  exists h', h_SetSubVectorWithSlice s i v h = (Ok tt, h') /\ stored h h' s i (sl_len v) (vval h (HArr v)).
Proof. intros A B C D E. destruct (mv_SetSubVectorWithSlice h s i v A B C D E) as ([] & h' & R & H). eauto. Qed.
Lemma stored_ext h h' s i n f g : (forall k, 0 <= k < n -> f k = g k) -> stored h h' s i n f -> stored h h' s i n g.
Proof.
  intros E [A B]. split; auto. intros a k. rewrite B. destruct (_ && _) eqn:X; auto.
  rewrite !andb_true_iff, Z.leb_le, Z.ltb_lt in X. apply E. lia.
Qed.
Lemma sub_apart h s i v n : inheap h s -> vok h v -> hv_dim v = n -> 0 <= i -> 1 <= n -> i + n <= sl_len s ->
  apart_from s i n v \/ (exists t, v = HArr t /\ sl_arr t = sl_arr s /\ sl_off t = sl_off s + i) ->
  exists h', h_SetSubVector s i v h = (Ok tt, h') /\ stored h h' s i n (vval h v).
Proof.
  intros A B C D E F G. destruct (mv_SetSubVector h s i v n A B C D E F) as ([] & h' & R & H). exists h'. split; auto.
  eapply stored_ext; [|exact H]. intros k Hk. destruct G as [G|(t & -> & G1 & G2)]; [apply endsub_apart; auto|].
  cbn [endsub]. rewrite G1, G2, Z.sub_diag, !Z.eqb_refl, orb_true_r. reflexivity.
Qed.
Lemma sub_overlap h s i t n : inheap h s -> inheap h t -> sl_len t = n -> 0 <= i -> i + n <= sl_len s ->
  sl_arr t = sl_arr s -> 0 < Z.abs (sl_off t - (sl_off s + i)) < n ->
  exists h', h_SetSubVector s i (HArr t) h = (Ok tt, h') /\ stored h h' s i n (fun k =>
    let d := sl_off t - (sl_off s + i) in
    vval h (HArr t) (if 0 <? d then (if k + d <? n then k + d else k) else k mod (- d))).
Proof.
  intros A B C D E F G. destruct (mv_SetSubVector h s i (HArr t) n A B C D) as ([] & h' & R & H); [lia|lia|]. exists h'. split; auto.
  eapply stored_ext; [|exact H]. intros k Hk. cbn [endsub]. cbv zeta. rewrite F, Z.eqb_refl.
  rewrite (proj2 (Z.leb_gt n _)), (proj2 (Z.eqb_neq (sl_off t - (sl_off s + i)) 0)) by lia. cbn [negb orb].
  destruct (0 <? _); reflexivity.
Qed.
Lemma stored_get h h' s i n f k : stored h h' s i n f -> 0 <= k < n -> slot h' (sl_arr s) (sl_off s + i + k) = f k.
Proof.
  intros [_ H] Hk. rewrite H, Z.eqb_refl, (proj2 (Z.leb_le _ _)), (proj2 (Z.ltb_lt _ _)) by lia. cbn. f_equal. lia.
Qed.
Lemma sub_wrong h s i t n : inheap h s -> inheap h t -> sl_len t = n -> 0 <= i -> i + n <= sl_len s ->
  sl_arr t = sl_arr s -> 0 < Z.abs (sl_off t - (sl_off s + i)) < n ->
  vval h (HArr t) 0 <> vval h (HArr t) (Z.abs (sl_off t - (sl_off s + i))) ->
  exists h' k, h_SetSubVector s i (HArr t) h = (Ok tt, h') /\ 0 <= k < n /\
    slot h' (sl_arr s) (sl_off s + i + k) <> vval h (HArr t) k.
Proof.
  intros A B C D E F G N. destruct (sub_overlap h s i t n A B C D E F G) as (h' & R & H). cbv beta zeta in H. 
  set (d := sl_off t - (sl_off s + i)) in *.
  destruct (Z.ltb_spec 0 d).
  - exists h', 0. split; auto. split; [lia|]. rewrite (stored_get _ _ _ _ _ _ _ H) by lia.
    rewrite Z.add_0_l, (proj2 (Z.ltb_lt d n)) by lia. rewrite Z.abs_eq in N by lia. auto.
  - exists h', (- d). split; auto. split; [lia|]. rewrite (stored_get _ _ _ _ _ _ _ H) by lia.
    rewrite Z_mod_same_full. rewrite Z.abs_neq in N by lia. auto.
Qed.
Lemma cf_apart h s v n : inheap h s -> vok h v -> hv_dim v = n -> 0 <= n -> sl_len s = n ->
  apart_from s 0 n v \/ (exists t, v = HArr t /\ sl_arr t = sl_arr s /\ sl_off s <= sl_off t) ->
  exists h', h_CopyFrom s v h = (Ok tt, h') /\ stored h h' s 0 n (vval h v).
Proof.
  intros A B C D E G. destruct (mv_CopyFrom h s v n A B C D E) as ([] & h' & R & H). exists h'. split; auto.
  eapply stored_ext; [|exact H]. intros k Hk. destruct v as [t|]; cbn [endcopy]; auto. cbv zeta.
  destruct (_ || _) eqn:X; auto. rewrite !orb_false_iff, negb_false_iff, Z.eqb_eq, !Z.leb_gt in X.
  destruct G as [G|(t' & G0 & G1 & G2)]; [cbn in G; lia|]. injection G0 as <-. lia.
Qed.
Lemma cf_overlap h s t n : inheap h s -> inheap h t -> sl_len t = n -> sl_len s = n -> sl_arr t = sl_arr s ->
  0 < sl_off s - sl_off t < n ->
  exists h', h_CopyFrom s (HArr t) h = (Ok tt, h') /\ stored h h' s 0 n (fun k => vval h (HArr t) (k mod (sl_off s - sl_off t))).
Proof.
  intros A B C D F G. destruct (mv_CopyFrom h s (HArr t) n A B C) as ([] & h' & R & H); [lia|auto|]. exists h'. split; auto.
  eapply stored_ext; [|exact H]. intros k Hk. cbn [endcopy]. cbv zeta. rewrite F, Z.eqb_refl.
  rewrite (proj2 (Z.leb_gt n _)), (proj2 (Z.leb_gt 0 _)) by lia. cbn [negb orb]. f_equal. f_equal. lia.
Qed.
Lemma cf_wrong h s t n : inheap h s -> inheap h t -> sl_len t = n -> sl_len s = n -> sl_arr t = sl_arr s ->
  0 < sl_off s - sl_off t < n -> vval h (HArr t) 0 <> vval h (HArr t) (sl_off s - sl_off t) ->
  exists h' k, h_CopyFrom s (HArr t) h = (Ok tt, h') /\ 0 <= k < n /\ slot h' (sl_arr s) (sl_off s + k) <> vval h (HArr t) k.
Proof.
  intros A B C D F G N. destruct (cf_overlap h s t n A B C D F G) as (h' & R & H). exists h', (sl_off s - sl_off t).
  split; auto. split; [lia|]. pose proof (stored_get _ _ _ _ _ _ (sl_off s - sl_off t) H ltac:(lia)) as X.
  rewrite Z.add_0_r in X. rewrite X. rewrite Z_mod_same_full. auto.
Qed.
End Props.

(** Contents of the results on the heap: the value model's theorems carried over. *)
From Coq Require Import ZArith List Lia Bool.
From Verif Require Import Base BaseLemmas Scalar Vector Matrix MatSpec MatFacts Array2D Array2DFacts BlockM BlockFacts BlockFacts2 BlockSub
  Diagonal DiagFacts Heap HeapSpec HeapFacts HeapIndep HeapSim HeapSim2 HeapSim3 HeapSim4.
Import ListNotations.
Open Scope Z_scope.

Section Main.
Context {O : Ops}.

Lemma goes_returns {A} (m : M A) h (P R : A -> heap -> Prop) : goes m h P -> (forall y h', P y h' -> R y h') ->
  returns m h (fun h' y => R y h').
Proof. intros (y & h' & E & H) HI. exists y, h'. auto. Qed.
Lemma HTab_elim h o r c f : HTab h o r c f -> exists d, ARep h o (mkA2D (Some d)) /\ MatIs (MArr (mkA2D (Some d))) r c f /\ RTab d r c f.
Proof.
  intros (Hn & Hr & Hc & d & HM & HR & Hv). exists d.
  assert (HT : RTab d r c f).
  { split; auto. intros i j Hi Hj. pose proof (Hv i j Hi Hj) as E. rewrite (mget_ok _ _ _ _ _ HR Hi Hj) in E. congruence. }
  split; [|split; [apply MatIs_arr; auto|auto]]. split; auto. unfold isnil. apply Z.eqb_neq. auto.
Qed.
Lemma HTab_intro h o d r c f : 1 <= r -> 1 <= c -> isnil o = false -> MRep h o d -> RTab d r c f -> HTab h o r c f.
Proof.
  intros Hr Hc Hn HM [HR Hv]. split; [unfold isnil in Hn; apply Z.eqb_neq; auto|]. split; [auto|split; auto].
  exists d. split; [auto|split; auto]. intros i j Hi Hj. rewrite (mget_ok _ _ _ _ _ HR Hi Hj), Hv; auto.
Qed.
Lemma HVecIs_intro h s l n g : VRep h s l -> VTab l n g -> HVecIs h s n g.
Proof. intros HV [H1 H2]. exists l. split; [auto|split; auto]. intros j Hj. rewrite zget_ok by lia. rewrite H2; auto. Qed.
Lemma HVecIs_elim h s n g : HVecIs h s n g -> exists l, VRep h s l /\ VTab l n g.
Proof.
  intros (l & HV & Hl & H). exists l. split; auto. split; auto. intros j Hj. specialize (H j Hj).
  rewrite zget_ok in H by lia. congruence.
Qed.
Lemma HBlkIs_elim h b r c f : HBlkIs h b r c f -> exists v, BRep h b v /\ BIs v r c f.
Proof.
  intros (bl & HM & A & B & C & D & H). exists (mkBlock bl r c (nblk r) (nblk c)).
  split; [split; [auto|repeat split; auto]|]. apply MatIs_blk_inv; auto.
Qed.
Lemma HBlkIs_intro h b v r c f : BRep h b v -> BIs v r c f -> HBlkIs h b r c f.
Proof.
  intros (HM & A & B & C & D) HB. pose proof (MatIs_blk _ _ _ _ HB). destruct HB as (bl & -> & _). exists bl.
  cbn in *. auto 10.
Qed.
Lemma TabE_HTab h0 o d h r c f : 1 <= r -> 1 <= c -> TabE h0 o d h -> RTab d r c f -> HTab h o r c f.
Proof. intros Hr Hc HT HR. destruct (TabE_MRep _ _ _ _ HT). eapply HTab_intro; eauto. Qed.
Lemma OwnE_HVec h0 s r h n g : OwnE h0 s r h -> VTab r n g -> HVecIs h s n g.
Proof. intros HO HV. eapply HVecIs_intro; eauto. eapply OwnE_VRep; eauto. Qed.

Ltac go H := eapply goes_returns; [eapply H; eauto|cbv beta].

(** ** Array2DRowRealMatrix *)
Lemma m2_Copy h a r c f : HTab h a r c f -> returns (h2_Copy a) h (fun h' o => HTab h' o r c f).
Proof.
  intros H. destruct (HTab_elim _ _ _ _ _ H) as (d & HA & HM & _). pose proof H as (_ & Hr & Hc & _).
  destruct (a2_Copy_spec _ _ _ _ HM) as (A & E & HM'). apply MatIs_arr_inv in HM'. destruct HM' as (d' & -> & _ & _ & HT).
  go s2_Copy. intros o h' [Hn HM']. eapply HTab_intro; eauto.
Qed.
Lemma m2_Data h a r c f : HTab h a r c f -> returns (h2_Data a) h (fun h' o => HTab h' o r c f).
Proof.
  intros H. destruct (HTab_elim _ _ _ _ _ H) as (d & HA & HM & _). pose proof H as (_ & Hr & Hc & _).
  destruct (a2_copyOut_spec _ _ _ _ HM) as (d' & E & HT).
  go s2_copyOut. intros o h' HTo. eapply TabE_HTab; eauto.
Qed.
Lemma m2_FromSlices h a r c f : HTab h a r c f -> returns (h2_FromSlices a true) h (fun h' o => HTab h' o r c f).
Proof.
  intros H. destruct (HTab_elim _ _ _ _ _ H) as (d & [Hn HMR] & HM & HT0). pose proof H as (_ & Hr & Hc & _).
  destruct (FromSlices_copy_spec _ _ _ _ Hr Hc HT0) as (A & E & HM'). apply MatIs_arr_inv in HM'. destruct HM' as (d' & -> & _ & _ & HT).
  go s2_FromSlices. intros o h' [Hn' HM']. eapply HTab_intro; eauto.
Qed.
Lemma m2_Transpose h a r c f : HTab h a r c f -> returns (h2_Transpose a) h (fun h' o => HTab h' o c r (fun i j => f j i)).
Proof.
  intros H. destruct (HTab_elim _ _ _ _ _ H) as (d & HA & HM & _). pose proof H as (_ & Hr & Hc & _).
  destruct (a2_Transpose_spec _ _ _ _ HM) as (A & E & HM'). apply MatIs_arr_inv in HM'. destruct HM' as (d' & -> & _ & _ & HT).
  go s2_Transpose. intros o h' HTo. eapply TabE_HTab; eauto.
Qed.
Lemma m2_SubMatrix h a r c f r0 r1 c0 c1 : HTab h a r c f ->
  0 <= r0 <= r1 -> r1 < r -> 0 <= c0 <= c1 -> c1 < c ->
  returns (h2_SubMatrix a r0 r1 c0 c1) h (fun h' o => HTab h' o (r1 - r0 + 1) (c1 - c0 + 1) (fun i j => f (r0 + i) (c0 + j))).
Proof.
  intros H H1 H2 H3 H4. destruct (HTab_elim _ _ _ _ _ H) as (d & HA & HM & _).
  destruct (a2_SubMatrix_spec _ _ _ _ _ _ _ _ HM H1 H2 H3 H4) as (A & E & HM'). apply MatIs_arr_inv in HM'. destruct HM' as (d' & -> & _ & _ & HT).
  go s2_SubMatrix. intros o h' HTo. eapply TabE_HTab; eauto; lia.
Qed.
Lemma m2_RowAt h a r c f k : HTab h a r c f -> 0 <= k < r -> returns (h2_RowAt a k) h (fun h' s => HVecIs h' s c (f k)).
Proof.
  intros H Hk. destruct (HTab_elim _ _ _ _ _ H) as (d & HA & HM & _).
  destruct (a2_RowAt_spec _ _ _ _ _ HM Hk) as (v & E & HV). go s2_RowAt. intros s h' HO. eapply OwnE_HVec; eauto.
Qed.
Lemma m2_ColumnAt h a r c f k : HTab h a r c f -> 0 <= k < c -> returns (h2_ColumnAt a k) h (fun h' s => HVecIs h' s r (fun i => f i k)).
Proof.
  intros H Hk. destruct (HTab_elim _ _ _ _ _ H) as (d & HA & HM & _).
  destruct (a2_ColumnAt_spec _ _ _ _ _ HM Hk) as (v & E & HV). go s2_ColumnAt. intros s h' HO. eapply OwnE_HVec; eauto.
Qed.
Lemma m2_RowVectorAt h a r c f k : HTab h a r c f -> 0 <= k < r -> returns (h2_RowVectorAt a k) h (fun h' s => HVecIs h' s c (f k)).
Proof.
  intros H Hk. destruct (HTab_elim _ _ _ _ _ H) as (d & HA & HM & _).
  destruct (a2_RowAt_spec _ _ _ _ _ HM Hk) as (v & E & HV).
  assert (E' : a2_RowVectorAt (mkA2D (Some d)) k = Ok (VArr v)) by (unfold a2_RowVectorAt; rewrite E; reflexivity).
  go s2_RowVectorAt. intros s h' HO. eapply OwnE_HVec; eauto.
Qed.
Lemma m2_ColumnVectorAt h a r c f k : HTab h a r c f -> 0 <= k < c ->
  returns (h2_ColumnVectorAt a k) h (fun h' s => HVecIs h' s r (fun i => f i k)).
Proof.
  intros H Hk. destruct (HTab_elim _ _ _ _ _ H) as (d & HA & HM & _).
  destruct (a2_ColumnAt_spec _ _ _ _ _ HM Hk) as (v & E & HV).
  assert (E' : a2_ColumnVectorAt (mkA2D (Some d)) k = Ok (VArr v)) by (unfold a2_ColumnVectorAt; rewrite E; reflexivity).
  go s2_ColumnVectorAt. intros s h' HO. eapply OwnE_HVec; eauto.
Qed.
Lemma m2_RowMatrixAt h a r c f k : HTab h a r c f -> 0 <= k < r -> returns (h2_RowMatrixAt a k) h (fun h' o => HTab h' o 1 c (fun _ j => f k j)).
Proof.
  intros H Hk. destruct (HTab_elim _ _ _ _ _ H) as (d & HA & HM & _). pose proof H as (_ & Hr & Hc & _).
  destruct (a2_RowMatrixAt_spec _ _ _ _ _ HM Hk) as (A & E & HM'). apply MatIs_arr_inv in HM'. destruct HM' as (d' & -> & _ & _ & HT).
  go s2_RowMatrixAt. intros o h' HTo. eapply TabE_HTab; eauto; lia.
Qed.
Lemma m2_ColumnMatrixAt h a r c f k : HTab h a r c f -> 0 <= k < c -> returns (h2_ColumnMatrixAt a k) h (fun h' o => HTab h' o r 1 (fun i _ => f i k)).
Proof.
  intros H Hk. destruct (HTab_elim _ _ _ _ _ H) as (d & HA & HM & _). pose proof H as (_ & Hr & Hc & _).
  destruct (a2_ColumnMatrixAt_spec _ _ _ _ _ HM Hk) as (A & E & HM'). apply MatIs_arr_inv in HM'. destruct HM' as (d' & -> & _ & _ & HT).
  go s2_ColumnMatrixAt. intros o h' HTo. eapply TabE_HTab; eauto; lia.
Qed.
Lemma m2_At h a r c f i j : HTab h a r c f -> 0 <= i < r -> 0 <= j < c -> h2_At a i j h = (Ok (f i j), h).
Proof.
  intros H Hi Hj. destruct (HTab_elim _ _ _ _ _ H) as (d & HA & HM & HT).
  unfold h2_At, h2_ck.
  assert (R1 : runs (h2_ckrow a i) h tt h).
  { eapply s2_ckrow; eauto. unfold checkRowIndex. cbn. destruct HT as [[-> _] _].
    destruct (Z.ltb_spec i 0); [lia|]. destruct (Z.leb_spec r i); [lia|]. reflexivity. }
  assert (R2 : runs (h2_ckcol a j) h tt h).
  { eapply s2_ckcol; eauto. unfold checkColumnIndex. destruct HM as (_ & _ & -> & _). cbn.
    destruct (Z.ltb_spec j 0); [lia|]. destruct (Z.leb_spec c j); [lia|]. reflexivity. }
  eapply runs_bind; [eapply runs_bind; [exact R1|exact R2]|]. eapply (s2_rd2 h h); eauto; [apply Ext_refl|].
  cbn. rewrite (RTab_get _ _ _ _ i j HT) by auto. reflexivity.
Qed.

(** ** DiagonalMatrix *)
Definition diagf (g : Z -> F) (i j : Z) : F := if i =? j then g i else fzero.
Lemma md_Data h s n g : HVecIs h s n g -> 1 <= n -> returns (hd_Data s) h (fun h' o => HTab h' o n n (fun i j => if i =? j then g i else fzero)).
Proof.
  intros H Hn. destruct (HVecIs_elim _ _ _ _ H) as (l & HV & HT).
  destruct (d_Data_spec (mkDiag l) n g HT) as (d & E & HR). go sd_Data. intros o h' HTo.
  eapply TabE_HTab; eauto.
Qed.
Lemma md_RowAt h s n g i : HVecIs h s n g -> 0 <= i < n ->
  returns (hd_RowAt s i) h (fun h' s' => HVecIs h' s' n (fun j => if i =? j then g i else fzero)).
Proof.
  intros H Hi. destruct (HVecIs_elim _ _ _ _ H) as (l & HV & HT).
  destruct (d_RowAt_spec (mkDiag l) n g i HT Hi) as (d & E & HR). go sd_RowAt. intros s' h' HO. eapply OwnE_HVec; eauto.
Qed.
Lemma md_ColumnAt h s n g j : HVecIs h s n g -> 0 <= j < n ->
  returns (hd_ColumnAt s j) h (fun h' s' => HVecIs h' s' n (fun i => if i =? j then g i else fzero)).
Proof.
  intros H Hi. destruct (HVecIs_elim _ _ _ _ H) as (l & HV & HT).
  destruct (d_ColumnAt_spec (mkDiag l) n g j HT Hi) as (d & E & HR). go sd_ColumnAt. intros s' h' HO. eapply OwnE_HVec; eauto.
Qed.
Lemma mv_append h s n g : HVecIs h s n g -> returns (appendF s) h (fun h' s' => HVecIs h' s' n g).
Proof.
  intros H. destruct (HVecIs_elim _ _ _ _ H) as (l & HV & HT).
  eapply goes_returns; [eapply g_appendF; [apply Ext_refl|eauto]|]. intros s' h' HO. cbv beta in HO. eapply OwnE_HVec; eauto.
Qed.

(** ** BlockRealMatrix *)
Lemma mb_Copy h b r c f : HBlkIs h b r c f -> returns (hb_Copy b) h (fun h' b' => HBlkIs h' b' r c f).
Proof.
  intros H. destruct (HBlkIs_elim _ _ _ _ _ H) as (v & HB & HI). destruct (b_Copy_spec _ _ _ _ HI) as (v' & E & HI').
  go sb_Copy. intros b' h' HB'. eapply HBlkIs_intro; eauto.
Qed.
Lemma HBlkIs_pos h b r c f : HBlkIs h b r c f -> 1 <= r /\ 1 <= c.
Proof. intros (bl & _ & _ & _ & _ & _ & ((A & B & _) & _)). auto. Qed.
Lemma mb_Data h b r c f : HBlkIs h b r c f -> returns (hb_Data b) h (fun h' o => HTab h' o r c f).
Proof.
  intros H. destruct (HBlkIs_elim _ _ _ _ _ H) as (v & HB & HI). destruct (b_Data_spec _ _ _ _ HI) as (d & E & HR).
  destruct (HBlkIs_pos _ _ _ _ _ H).
  go sb_Data. intros o h' HTo. eapply TabE_HTab; eauto.
Qed.
Lemma mb_RowAt h b r c f i : HBlkIs h b r c f -> 0 <= i < r -> returns (hb_RowAt b i) h (fun h' s => HVecIs h' s c (f i)).
Proof.
  intros H Hi. destruct (HBlkIs_elim _ _ _ _ _ H) as (v & HB & HI). destruct (b_RowAt_spec _ _ _ _ _ HI Hi) as (d & E & HR).
  go sb_RowAt. intros s h' HO. eapply OwnE_HVec; eauto.
Qed.
Lemma mb_ColumnAt h b r c f j : HBlkIs h b r c f -> 0 <= j < c -> returns (hb_ColumnAt b j) h (fun h' s => HVecIs h' s r (fun i => f i j)).
Proof.
  intros H Hi. destruct (HBlkIs_elim _ _ _ _ _ H) as (v & HB & HI). destruct (b_ColumnAt_spec _ _ _ _ _ HI Hi) as (d & E & HR).
  go sb_ColumnAt. intros s h' HO. eapply OwnE_HVec; eauto.
Qed.
Lemma mb_SubMatrix h b r c f r0 r1 c0 c1 : HBlkIs h b r c f ->
  0 <= r0 <= r1 -> r1 < r -> 0 <= c0 <= c1 -> c1 < c ->
  returns (hb_SubMatrix b r0 r1 c0 c1) h (fun h' b' => HBlkIs h' b' (r1 - r0 + 1) (c1 - c0 + 1) (fun i j => f (r0 + i) (c0 + j))).
Proof.
  intros H H1 H2 H3 H4. destruct (HBlkIs_elim _ _ _ _ _ H) as (v & HB & HI).
  destruct (b_SubMatrix_spec _ _ _ _ _ _ _ _ HI H1 H2 H3 H4) as (v' & E & HI').
  go sb_SubMatrix. intros b' h' HB'. eapply HBlkIs_intro; eauto.
Qed.
Lemma mb_FromSlices h o r c f : HTab h o r c f -> returns (hb_FromSlices o) h (fun h' b => HBlkIs h' b r c f).
Proof.
  intros H. destruct (HTab_elim _ _ _ _ _ H) as (d & [Hn HM] & _ & HT). pose proof H as (_ & Hr & Hc & _).
  destruct (NewBlockRealMatrixFromSlices_spec _ _ _ _ Hr Hc HT) as (v & E & HI).
  go sb_FromSlices. intros b h' HB. eapply HBlkIs_intro; eauto.
Qed.
Lemma mb_At h b r c f i j : HBlkIs h b r c f -> 0 <= i < r -> 0 <= j < c -> hb_At b i j h = (Ok (f i j), h).
Proof.
  intros H Hi Hj. destruct (HBlkIs_elim _ _ _ _ _ H) as (v & HB & HI). eapply (sb_At h); eauto.
  pose proof (MatIs_blk _ _ _ _ HI) as (_ & _ & _ & Hv & _). apply Hv; auto.
Qed.
Lemma md_At h s n g i j : HVecIs h s n g -> 0 <= i < n -> 0 <= j < n -> hd_At s i j h = (Ok (if i =? j then g i else fzero), h).
Proof.
  intros H Hi Hj. destruct (HVecIs_elim _ _ _ _ H) as (l & HV & HT). eapply (sd_At h); eauto.
  pose proof (DIs_MatIs (mkDiag l) n g HT) as (_ & _ & _ & Hv & _). exact (Hv i j Hi Hj).
Qed.
End Main.

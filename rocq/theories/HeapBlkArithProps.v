(** The statements about HeapBlkArith.v. *)
From Coq Require Import ZArith List Lia Bool.
From Verif Require Import Base BaseLemmas Scalar Vector Matrix VecSpec MatSpec MatFacts Array2D Array2DFacts BlockM Diagonal BlockFacts BlockMul VectorFacts MatrixOps.
From Verif Require Import Heap HeapSpec HeapFacts HeapIndep HeapSim HeapSim2 HeapSim3 HeapSim4 HeapMain HeapProps HeapDec HeapDecFacts HeapAtom HeapRefSpec HeapRef2 HeapRef8 HeapRef9
  HeapSolve HeapSolveFacts HeapArith HeapArithFacts HeapArithMain HeapArithProps HeapBlkArith HeapBlkArithSpec HeapBlkArithFacts HeapBlkArithMain.
Import ListNotations.
Open Scope Z_scope.

Section HeapBlkArithProps.
Context {O : Ops}.
Ltac go H := eapply goes_returns; [eapply H; eauto|cbv beta].

Lemma sum4_fours w a : sum4 w a = sum_fours w a.
Proof. unfold sum4, sum_fours, fsum, quad. rewrite Z.mod_eq by lia. replace (4 * (w / 4)) with (w / 4 * 4) by lia. reflexivity. Qed.
Lemma bsum_blocks sum sum' n a : (forall w b, sum w b = sum' w b) -> bsum sum n a = sum_blocks sum' n a.
Proof.
  intros E. unfold bsum, sum_blocks, fsum. fold (nblk n). apply VectorFacts.accum_ext. intros k s Hk. rewrite E. unfold bw. f_equal. f_equal. lia.
Qed.

Lemma blk_separate (b : HBlk) (m : HMat) (x : F) (v : slice) (w : HVec) :
  (separate (hb_Add b m) (fun o => OM (hb_blocks o)) /\ separate (hb_Subtract b m) (fun o => OM (hb_blocks o)) /\ separate (hb_Multiply b m) (fun o => OM (hb_blocks o))) /\
  (separate (hb_ScalarAdd b x) (fun o => OM (hb_blocks o)) /\ separate (hb_ScalarMultiply b x) (fun o => OM (hb_blocks o))) /\
  (separate (hb_Operate b v) OF /\ separate (hb_PreMultiply b v) OF) /\
  (separate (hb_OperateVector b w) OF /\ separate (hb_PreMultiplyVector b w) OF).
Proof.
  split; [|split; [|split]].
  - split; [|split]; apply keeps_sepB; intros; [apply kc_Add|apply kc_Subtract|apply kc_Multiply].
  - split; apply keeps_sepB; intros; [apply kc_ScalarAdd|apply kc_ScalarMultiply].
  - split; apply sepV; intros; [apply kc_Operate|apply kc_PreMultiply].
  - split; apply sepV; intros; [apply kc_OperateVector|apply kc_PreMultiplyVector].
Qed.
Lemma HBlk_ext h b r c f g : HBlkIs h b r c f -> (forall i j, f i j = g i j) -> HBlkIs h b r c g.
Proof. intros (bl & A & B & C & D & E & H) X. exists bl. do 5 (split; [auto|]). eapply MatIs_ext; [exact H|]. intros. auto. Qed.
Lemma HVec_ext h s n f g : HVecIs h s n f -> (forall i, f i = g i) -> HVecIs h s n g.
Proof. intros (l & A & B & C) X. exists l. split; [auto|split; auto]. intros j Hj. rewrite <- X. auto. Qed.
Lemma mb_entries h b m r c f g x : HBlkIs h b r c f -> HMatIs h m r c g ->
  returns (hb_Add b m) h (fun h' o => HBlkIs h' o r c (fun i j => (f i j + g i j)%f)) /\
  returns (hb_Subtract b m) h (fun h' o => HBlkIs h' o r c (fun i j => (f i j - g i j)%f)) /\
  returns (hb_ScalarAdd b x) h (fun h' o => HBlkIs h' o r c (fun i j => (f i j + x)%f)) /\
  returns (hb_ScalarMultiply b x) h (fun h' o => HBlkIs h' o r c (fun i j => (f i j * x)%f)).
Proof.
  intros Hb Hm. destruct (HBlkIs_elim _ _ _ _ _ Hb) as (v & HB & HI). destruct (x_value _ _ _ _ _ Hm) as (_ & V & K & HV).
  split; [|split; [|split]].
  - destruct (b_Add_spec _ _ _ _ _ _ HI HV) as (v' & E & HI'). eapply goes_returns; [eapply (sb_Add h b v m V r c f g); eauto|]. intros o h' HB'. cbv beta in HB'. eapply HBlkIs_intro; eauto.
  - destruct (b_Subtract_spec _ _ _ _ _ _ HI HV) as (v' & E & HI'). eapply goes_returns; [eapply (sb_Subtract h b v m V r c f g); eauto|]. intros o h' HB'. cbv beta in HB'. eapply HBlkIs_intro; eauto.
  - destruct (b_ScalarAdd_spec _ x _ _ _ HI) as (v' & E & HI'). go sb_ScalarAdd. intros o h' HB'. cbv beta in HB'. eapply HBlkIs_intro; eauto.
  - destruct (b_ScalarMultiply_spec _ x _ _ _ HI) as (v' & E & HI'). go sb_ScalarMultiply. intros o h' HB'. cbv beta in HB'. eapply HBlkIs_intro; eauto.
Qed.
Lemma mb_product h b m r n c f g : HBlkIs h b r n f -> HMatIs h m n c g ->
  returns (hb_Multiply b m) h (fun h' o => HBlkIs h' o r c (fun i j => sum_blocks (match m with HB _ => sum_fours | _ => fsum end) n (fun k => (f i k * g k j)%f))).
Proof.
  intros Hb Hm. destruct (HBlkIs_elim _ _ _ _ _ Hb) as (v & HB & HI). destruct (x_value _ _ _ _ _ Hm) as (Hc & V & K & HV).
  destruct m as [a|s|mb]; cbn [vkind] in K.
  - destruct (b_Multiply_other_spec _ _ _ _ _ _ _ HI HV Hc K) as (v' & E & HI'). eapply goes_returns; [eapply (sb_MultiplyOther h b v (HA a) V r n c f g); eauto; discriminate|].
    intros o h' HB'. cbv beta in HB'. eapply HBlk_ext; [eapply HBlkIs_intro; eauto|]. intros i j. apply bsum_blocks. auto.
  - destruct (b_Multiply_other_spec _ _ _ _ _ _ _ HI HV Hc K) as (v' & E & HI'). eapply goes_returns; [eapply (sb_MultiplyOther h b v (HD s) V r n c f g); eauto; discriminate|].
    intros o h' HB'. cbv beta in HB'. eapply HBlk_ext; [eapply HBlkIs_intro; eauto|]. intros i j. apply bsum_blocks. auto.
  - destruct K as (m' & -> & HB2). apply MatIs_blk_inv in HV.
    destruct (b_Multiply_blk_spec _ _ _ _ _ _ _ HI HV) as (v' & E & HI'). eapply goes_returns; [eapply (sb_MultiplyBlk h b v mb m' r n c f g); eauto|].
    intros o h' HB'. cbv beta in HB'. eapply HBlk_ext; [eapply HBlkIs_intro; eauto|]. intros i j. apply bsum_blocks. apply sum4_fours.
Qed.
Lemma mb_Operate h b r c f v g : HBlkIs h b r c f -> HVecIs h v c g ->
  returns (hb_Operate b v) h (fun h' o => HVecIs h' o r (fun i => sum_blocks sum_fours c (fun j => (f i j * g j)%f))).
Proof.
  intros Hb Hv. destruct (HBlkIs_elim _ _ _ _ _ Hb) as (w & HB & HI). destruct (HVecIs_elim _ _ _ _ Hv) as (l & HVR & HT).
  destruct (b_Operate_spec _ _ _ _ _ _ HI (proj1 (Array2DFacts.VTab_VecIs _ _ _) HT)) as (v' & E & HI'). go sb_Operate. intros s h' HO.
  eapply HVec_ext; [eapply OwnE_HVec; [exact HO|apply Array2DFacts.VTab_VecIs; eauto]|]. intros i. apply bsum_blocks, sum4_fours.
Qed.
Lemma mb_PreMultiply h b r c f v g : HBlkIs h b r c f -> HVecIs h v r g ->
  returns (hb_PreMultiply b v) h (fun h' o => HVecIs h' o c (fun j => sum_blocks sum_fours r (fun i => (f i j * g i)%f))).
Proof.
  intros Hb Hv. destruct (HBlkIs_elim _ _ _ _ _ Hb) as (w & HB & HI). destruct (HVecIs_elim _ _ _ _ Hv) as (l & HVR & HT).
  destruct (b_PreMultiply_spec _ _ _ _ _ _ HI (proj1 (Array2DFacts.VTab_VecIs _ _ _) HT)) as (v' & E & HI'). go sb_PreMultiply. intros s h' HO.
  eapply HVec_ext; [eapply OwnE_HVec; [exact HO|apply Array2DFacts.VTab_VecIs; eauto]|]. intros i. apply bsum_blocks, sum4_fours.
Qed.
Lemma blk_entries h b m r c f g x : wfheap h -> HBlkIs h b r c f -> HMatIs h m r c g ->
  fresh (hb_Add b m) (fun o => OM (hb_blocks o)) h (fun h' o => HBlkIs h' o r c (fun i j => (f i j + g i j)%f)) /\
  fresh (hb_Subtract b m) (fun o => OM (hb_blocks o)) h (fun h' o => HBlkIs h' o r c (fun i j => (f i j - g i j)%f)) /\
  fresh (hb_ScalarAdd b x) (fun o => OM (hb_blocks o)) h (fun h' o => HBlkIs h' o r c (fun i j => (f i j + x)%f)) /\
  fresh (hb_ScalarMultiply b x) (fun o => OM (hb_blocks o)) h (fun h' o => HBlkIs h' o r c (fun i j => (f i j * x)%f)).
Proof.
  intros Hw Hb Hm. destruct (blk_separate b m x nilsl (HArr nilsl)) as ((A & B & _) & (C & D) & _). destruct (mb_entries h b m r c f g x Hb Hm) as (P & Q & R & S).
  split; [|split; [|split]]; apply fresh_of; auto.
Qed.
Lemma blk_product h b m r n c f g : wfheap h -> HBlkIs h b r n f -> HMatIs h m n c g ->
  fresh (hb_Multiply b m) (fun o => OM (hb_blocks o)) h
    (fun h' o => HBlkIs h' o r c (fun i j => sum_blocks (match m with HB _ => sum_fours | _ => fsum end) n (fun k => (f i k * g k j)%f))).
Proof. intros Hw Hb Hm. destruct (blk_separate b m fzero nilsl (HArr nilsl)) as ((_ & _ & A) & _). apply fresh_of; auto. apply mb_product; auto. Qed.
Lemma blk_vectors h b r c f v w g k : wfheap h -> HBlkIs h b r c f -> HVecIs h v c g -> HVecIs h w r k ->
  (fresh (hb_Operate b v) OF h (fun h' o => HVecIs h' o r (fun i => sum_blocks sum_fours c (fun j => (f i j * g j)%f))) /\
   fresh (hb_OperateVector b (HArr v)) OF h (fun h' o => HVecIs h' o r (fun i => sum_blocks sum_fours c (fun j => (f i j * g j)%f)))) /\
  (fresh (hb_PreMultiply b w) OF h (fun h' o => HVecIs h' o c (fun j => sum_blocks sum_fours r (fun i => (f i j * k i)%f))) /\
   fresh (hb_PreMultiplyVector b (HArr w)) OF h (fun h' o => HVecIs h' o c (fun j => sum_blocks sum_fours r (fun i => (f i j * k i)%f)))).
Proof.
  intros Hw Hb Hv Hk. destruct (blk_separate b (HB b) fzero v (HArr v)) as (_ & _ & (A & _) & (B & _)). destruct (blk_separate b (HB b) fzero w (HArr w)) as (_ & _ & (_ & C) & (_ & D)).
  split; split; apply fresh_of; auto; first [apply mb_Operate|apply mb_PreMultiply]; auto.
Qed.
Lemma blk_trace h b n f : HBlkIs h b n n f -> hb_Trace b h = (Ok (fsum n (fun i => f i i)), h).
Proof.
  intros Hb. destruct (HMat_dims h (HB b) n n f Hb) as [D1 D2]. destruct (HBlkIs_pos _ _ _ _ _ Hb). destruct Hb as (bl & A & B & C & D & E & H1) eqn:Eb. clear Eb.
  unfold hb_Trace. rewrite B, C, Z.eqb_refl. cbn [negb]. apply g_sum; [lia|]. intros i s Hi. unfold mbind.
  rewrite (mb_At h b n n f i i) by (auto; exists bl; auto 10). reflexivity.
Qed.
Lemma blk_mismatch h b m r c f r' c' g v n k : HBlkIs h b r c f -> HMatIs h m r' c' g -> HVecIs h v n k ->
  ((r <> r' \/ c <> c' -> hb_Add b m h = (Panic EMatDimMismatch, h) /\ hb_Subtract b m h = (Panic EMatDimMismatch, h)) /\
   (c <> r' -> hb_Multiply b m h = (Panic EDimMismatch, h))) /\
  (n <> c -> hb_Operate b v h = (Panic EDimMismatch, h)) /\
  (n <> r -> hb_PreMultiply b v h = (Panic EDimMismatch, h)) /\
  (r <> c -> hb_Trace b h = (Panic ENonSquare, h)).
Proof.
  intros Hb Hm Hv. destruct (vec_rd _ _ _ _ Hv) as [Lv _]. assert (D : hb_rows b = r /\ hb_columns b = c) by (destruct Hb as (bl & _ & B & C & _); auto). destruct D as [D1 D2].
  split; [split|split; [|split]].
  - intros N. pose proof (ckAdd_bad h (HB b) m r c f r' c' g Hb Hm N) as E. split; [unfold hb_Add|unfold hb_Subtract]; unfold mbind at 1; rewrite E; auto.
  - intros N. unfold hb_Multiply, mbind at 1. rewrite (ckMul_bad h (HB b) m r c f r' c' g) by auto. auto.
  - intros N. unfold hb_Operate. rewrite Lv, D2. destruct (Z.eqb_spec n c); [contradiction|reflexivity].
  - intros N. unfold hb_PreMultiply. rewrite Lv, D1. destruct (Z.eqb_spec n r); [contradiction|reflexivity].
  - intros N. unfold hb_Trace. rewrite D1, D2. destruct (Z.eqb_spec r c); [contradiction|reflexivity].
Qed.
End HeapBlkArithProps.

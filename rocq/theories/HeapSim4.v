(** Each copying function of Heap.v returns the table or slice that the value
    model computes: BlockRealMatrix. *)
From Coq Require Import ZArith List Lia Bool.
From Verif Require Import Base BaseLemmas Scalar Vector Matrix Array2D BlockM Diagonal Heap HeapSpec HeapFacts HeapSim HeapSim2 HeapSim3.
Import ListNotations.
Open Scope Z_scope.

Section Sim.
Context {O : Ops}.
Opaque BLOCK_SIZE.

Definition sameshape (hb : HBlk) (b : Block) : Prop :=
  hb_rows hb = b_rows b /\ hb_columns hb = b_columns b /\
  hb_blockRows hb = b_blockRows b /\ hb_blockColumns hb = b_blockColumns b.
Definition BRep (h : heap) (hb : HBlk) (b : Block) : Prop :=
  MRep h (hb_blocks hb) (b_blocks b) /\ sameshape hb b.
Lemma sh_height hb b i : sameshape hb b -> hb_height hb i = blockHeight b i.
Proof. intros (A & B & C & D). unfold hb_height, blockHeight. rewrite A, C. reflexivity. Qed.
Lemma sh_width hb b i : sameshape hb b -> hb_width hb i = blockWidth b i.
Proof. intros (A & B & C & D). unfold hb_width, blockWidth. rewrite B, D. reflexivity. Qed.
Lemma sb_ckrow h hb b i : sameshape hb b -> checkRowIndex (MBlk b) i = Ok tt -> runs (hb_ckrow hb i) h tt h.
Proof.
  intros (E & _) H. unfold hb_ckrow. rewrite E. unfold checkRowIndex in H. cbn in H.
  destruct (Z.ltb_spec i 0); [discriminate|]. destruct (Z.leb_spec (b_rows b) i); [discriminate|].
  rewrite (proj2 (inb_true _ _)) by lia. apply runs_ret.
Qed.
Lemma sb_ckcol h hb b i : sameshape hb b -> checkColumnIndex (MBlk b) i = Ok tt -> runs (hb_ckcol hb i) h tt h.
Proof.
  intros (_ & E & _) H. unfold hb_ckcol. rewrite E. unfold checkColumnIndex in H. cbn in H.
  destruct (Z.ltb_spec i 0); [discriminate|]. destruct (Z.leb_spec (b_columns b) i); [discriminate|].
  rewrite (proj2 (inb_true _ _)) by lia. apply runs_ret.
Qed.
Lemma src_rd2 h0 o d i j x h : Ext h0 h -> MRep h0 o d -> mget d i j = Ok x -> runs (rd2 o i j) h x h.
Proof. intros He HM H. eapply runs_rd2; eauto. eapply MRep_ext; eauto. Qed.
Lemma sb_At h hb b i j x : BRep h hb b -> b_At b i j = Ok x -> runs (hb_At hb i j) h x h.
Proof.
  intros (HM & Sh) H. unfold b_At in H. binv H u Hu. apply orpanic_ok in Hu. unfold checkMatrixIndex in Hu.
  binv Hu u1 Hu1. apply unit_tt in Hu, Hu1. unfold hb_At.
  eapply runs_bind; [eapply sb_ckrow; eauto|]. eapply runs_bind; [eapply sb_ckcol; eauto|].
  unfold hb_pos. cbn [fst snd]. rewrite (sh_width _ _ _ Sh). replace (hb_blockColumns hb) with (b_blockColumns b) by (symmetry; apply Sh).
  eapply runs_rd2; eauto.
Qed.

(** ** A new matrix *)
Lemma sb_create h0 h r c d : Ext h0 h -> createBlocksLayout r c = Ok d -> goes (hb_create r c) h (fun o => TabE h0 o d).
Proof.
  intros He H. unfold createBlocksLayout in H. unfold hb_create, hb_nblk. binv H d0 Hm.
  apply g_bind. eapply g_imp; [apply (g_makeS _ _ _ _ He Hm)|]. nx o h1 HT.
  binv H dk Hl. destruct dk as [d1 k1]. injection H as <-.
  apply g_bind. eapply g_imp; [eapply (g_for (fun _ '(d, k) k' h => k' = k /\ TabE h0 o d h)); [exact Hl|split; auto|]|].
  - intros i [d2 k2] k' h2 [d3 k3] Hi [-> HT2] HP. cbv zeta in HP.
    eapply g_imp; [eapply (g_for (fun _ '(d, k) k' h => k' = k /\ TabE h0 o d h)); [exact HP|split; auto|]|].
    + intros j [d4 k4] k' h3 [d5 k5] Hj [-> HT3] HQ. cbv zeta in HQ. binv HQ r1 Hr. binv HQ d6 Hz. injection HQ as <- <-.
      apply zset_inv in Hz. destruct Hz as [Hk ->]. eapply g_newrow; eauto. intros s h4 HR. apply g_ret. split; auto.
      eapply RowE_T; eauto.
    + intros k' h3 [-> HT3]. auto.
  - intros k' h2 [-> HT2]. apply g_ret. auto.
Qed.
Lemma sb_New h0 h r c b : Ext h0 h -> NewBlockRealMatrix r c = Ok b ->
  goes (hb_New r c) h (fun hb h' => TabE h0 (hb_blocks hb) (b_blocks b) h' /\ sameshape hb b).
Proof.
  intros He H. unfold NewBlockRealMatrix in H. unfold hb_New. destruct (r <? 1); [discriminate|]. destruct (c <? 1); [discriminate|].
  binv H d Hd. injection H as <-. apply g_bind. eapply g_imp; [eapply sb_create; eauto|]. nx o h1 HT. apply g_ret.
  split; auto. repeat split; reflexivity.
Qed.
Lemma sb_FromBlockData h r c o d b : MRep h o d -> NewBlockRealMatrixFromBlockData r c d = Ok b ->
  goes (hb_FromBlockData r c o) h (fun hb h' => h' = h /\ hb_blocks hb = o /\ BRep h hb b).
Proof.
  intros HM H. unfold NewBlockRealMatrixFromBlockData in H. unfold hb_FromBlockData.
  destruct (r <? 1); [discriminate|]. destruct (c <? 1); [discriminate|]. cbv zeta in *.
  match goal with H : (let* _ := for_ _ _ _ _ in Ok ?x) = _ |- _ => set (ans := x) in * end.
  set (hans := mkHBlk o r c _ _).
  assert (Sh : sameshape hans ans) by (repeat split; reflexivity).
  binv H k Hl. injection H as <-.
  apply g_bind. eapply g_imp; [eapply (g_for (fun _ k k' h' => k' = k /\ h' = h)); [exact Hl|split; auto|]|].
  - intros i k1 k' h1 k2 Hi [-> ->] HP. cbv zeta in HP.
    eapply g_imp; [eapply (g_for (fun _ k k' h' => k' = k /\ h' = h)); [exact HP|split; auto|]|].
    + intros j k3 k' h1 k4 Hj [-> ->] HQ. binv HQ blk Hb. destruct (runs_rdS _ _ _ _ _ HM Hb) as (s & R & (_ & E & _)).
      eapply g_step; [exact R|]. rewrite E, (sh_height _ _ _ Sh), (sh_width _ _ _ Sh).
      destruct (negb _); [discriminate|]. injection HQ as <-. apply g_ret. auto.
    + intros k' h1 [-> ->]. auto.
  - intros k' h1 [-> ->]. apply g_ret. repeat split; auto; apply HM.
Qed.
Lemma MRep_len h o d : MRep h o d -> sl_len o = len d. Proof. intros (_ & E & _). auto. Qed.
Lemma sb_toBlocks h0 o raw d : MRep h0 o raw -> toBlocksLayout raw = Ok d ->
  goes (hb_toBlocks o) h0 (fun o' => TabE h0 o' d).
Proof.
  intros HM H. unfold toBlocksLayout in H. unfold hb_toBlocks, hb_nblk. rewrite (MRep_len _ _ _ HM). cbv zeta in H.
  binv H raw0 H0. destruct (src_row _ _ _ _ _ HM H0) as (s0 & Hs0). destruct (Hs0 h0 (Ext_refl _)) as (R0 & (_ & E0 & _)).
  eapply g_step; [exact R0|]. rewrite E0. cbv zeta. binv H u Hu.
  apply g_bind. eapply g_imp; [eapply (g_for (fun _ (_ : unit) (_ : unit) h => h = h0)); [exact Hu|reflexivity|]|].
  { intros i [] [] h [] Hi -> HP. binv HP ri Hri. destruct (src_row _ _ _ _ _ HM Hri) as (s1 & Hs1).
    destruct (Hs1 h0 (Ext_refl _)) as (R1 & (_ & E1 & _)). eapply g_step; [exact R1|]. rewrite E1.
    destruct (negb _); [discriminate|]. apply g_ret. auto. }
  intros [] h ->. binv H d0 Hm.
  apply g_bind. eapply g_imp; [apply (g_makeS _ _ _ _ (Ext_refl _) Hm)|]. nx q h1 HT.
  binv H dk Hl. destruct dk as [d1 k1]. injection H as <-.
  apply g_bind. eapply g_imp; [eapply (g_for (fun _ '(d, k) k' h => k' = k /\ TabE h0 q d h)); [exact Hl|split; auto|]|].
  - intros i [d2 k2] k' h2 [d3 k3] Hi [-> HT2] HP. cbv zeta in HP.
    eapply g_imp; [eapply (g_for (fun _ '(d, k) k' h => k' = k /\ TabE h0 q d h)); [exact HP|split; auto|]|].
    + intros j [d4 k4] k' h3 [d5 k5] Hj [-> HT3] HQ. cbv zeta in HQ. binv HQ r1 Hr. binv HQ rx Hc. destruct rx as [r2 x2].
      binv HQ d6 Hz. injection HQ as <- <-.
      apply zset_inv in Hz. destruct Hz as [Hk ->]. eapply g_newrow; eauto. intros s h4 HR.
      apply g_bind. eapply g_imp.
      { eapply (g_for (fun _ '(r, x) x' h => x' = x /\ RowE h0 q (upd d4 k4 r) k4 s r h)); [exact Hc|split; auto|].
        intros p [r3 x3] x' h5 [r4 x4] Hp [-> HR5] HS. binv HS rp Hrp. binv HS r5 Hr5. injection HS as <- <-.
        eapply g_step; [eapply RowE_rd; eauto|]. destruct (src_row _ _ _ _ _ HM Hrp) as (t & Ht).
        destruct (Ht h5 (RowE_e _ _ _ _ _ _ _ HR5)) as (Rt & HVt). eapply g_step; [exact Rt|].
        apply g_bind. eapply g_imp; [eapply RowE_copyrange; eauto|]. nxu h6 HR6. apply g_ret. rewrite upd_upd in HR6. auto. }
      intros x' h5 [-> HR5]. apply g_ret. split; auto. eapply RowE_T; eauto.
    + intros k' h3 [-> HT3]. auto.
  - intros k' h2 [-> HT2]. apply g_ret. auto.
Qed.
Lemma sb_FromSlices h0 o raw b : MRep h0 o raw -> NewBlockRealMatrixFromSlices raw = Ok b ->
  goes (hb_FromSlices o) h0 (fun hb h => BRep h hb b).
Proof.
  intros HM H. unfold NewBlockRealMatrixFromSlices in H. unfold hb_FromSlices.
  binv H raw0 H0. destruct (src_row _ _ _ _ _ HM H0) as (s0 & Hs0). destruct (Hs0 h0 (Ext_refl _)) as (R0 & (_ & E0 & _)).
  eapply g_step; [exact R0|]. rewrite E0, (MRep_len _ _ _ HM). binv H bl Hbl.
  apply g_bind. eapply g_imp; [eapply sb_toBlocks; eauto|]. nx o' h1 HT.
  eapply g_imp; [eapply sb_FromBlockData; [apply (TabE_MRep _ _ _ _ HT)|eauto]|]. intros hb h2 (-> & _ & HB). auto.
Qed.
Lemma sb_Copy h0 hb b b' : BRep h0 hb b -> b_Copy b = Ok b' -> goes (hb_Copy hb) h0 (fun hb' h => BRep h hb' b').
Proof.
  intros (HM & S1 & S2 & S3 & S4) H. unfold b_Copy in H. unfold hb_Copy. rewrite S1, S2, (MRep_len _ _ _ HM).
  binv H d Hd. apply g_bind. eapply g_imp; [eapply sb_create; eauto; apply Ext_refl|]. nx o h1 HT.
  binv H d1 Hl. injection H as <-.
  apply g_bind. eapply g_imp; [eapply tab_for; [exact HT|exact Hl|]|].
  - intros i h d2 d3 Hi HT2 HP. binv HP ci Hci. binv HP bi Hbi. binv HP r Hr. apply zset_inv in HP. destruct HP as [Hi' ->].
    destruct (TabE_rd _ _ _ _ _ _ HT2 Hci) as (s & HR). eapply g_step; [eapply RowE_rd; eauto|].
    destruct (src_row _ _ _ _ _ HM Hbi) as (t & Ht). destruct (Ht h (TabE_e _ _ _ _ HT2)) as (Rt & HVt).
    eapply g_step; [exact Rt|]. eapply g_imp; [eapply RowE_gocopy; eauto|]. nxu h3 HR3. eapply RowE_T; eauto.
  - nxu h2 HT2. apply g_ret. split; [apply (TabE_MRep _ _ _ _ HT2)|]. repeat split; reflexivity.
Qed.
Lemma sb_Data h0 hb b d : BRep h0 hb b -> b_Data b = Ok d -> goes (hb_Data hb) h0 (fun o => TabE h0 o d).
Proof.
  intros (HM & S1 & S2 & S3 & S4) H. unfold b_Data in H. unfold hb_Data. rewrite S1, S2, S3, S4.
  binv H d0 Hm. apply g_bind. eapply g_imp; [apply (g_makeS _ _ _ _ (Ext_refl _) Hm)|]. nx o h1 HT.
  apply g_bind. eapply g_imp; [eapply tab_for; [exact HT|exact H|]|intros; apply g_ret; auto].
  intros i h2 d1 d2 Hi HT2 HP. cbv zeta in HP. binv HP st Hst. destruct st as [[d3 a3] b3]. injection HP as <-.
  apply g_bind. eapply g_imp; [eapply (g_for (fun _ '(d, x, y) xy h => xy = (x, y) /\ TabE h0 o d h)); [exact Hst|split; auto|]|].
  - intros p [[d4 x4] y4] xy h3 [[d5 x5] y5] Hp [-> HT3] HQ. binv HQ r Hr. binv HQ st2 Hst2. destruct st2 as [[r2 k2] q2].
    binv HQ blk Hblk. binv HQ r3 Hr3. binv HQ d6 Hz. injection HQ as <- <- <-.
    apply zset_inv in Hz. destruct Hz as [Hk ->]. eapply g_newrow; eauto. intros s h4 HR.
    apply g_bind. eapply g_imp.
    { eapply (g_for (fun _ '(r, x, y) xy h => xy = (x, y) /\ RowE h0 o (upd d4 p r) p s r h)); [exact Hst2|split; auto|].
      intros j [[r5 x6] y6] xy h5 [[r6 x7] y7] Hj [-> HR5] HS. binv HS bk Hbk. binv HS r7 Hr7. injection HS as <- <- <-.
      eapply g_step; [eapply RowE_rd; eauto|]. destruct (src_row _ _ _ _ _ HM Hbk) as (t & Ht).
      destruct (Ht h5 (RowE_e _ _ _ _ _ _ _ HR5)) as (Rt & HVt). eapply g_step; [exact Rt|].
      apply g_bind. eapply g_imp; [eapply RowE_copyrange; eauto|]. nxu h6 HR6. apply g_ret. rewrite upd_upd in HR6. auto. }
    intros xy h5 [-> HR5]. cbv beta iota. eapply g_step; [eapply RowE_rd; eauto|]. destruct (src_row _ _ _ _ _ HM Hblk) as (t & Ht).
    destruct (Ht h5 (RowE_e _ _ _ _ _ _ _ HR5)) as (Rt & HVt). eapply g_step; [exact Rt|].
    apply g_bind. eapply g_imp; [eapply RowE_copyrange; eauto|]. nxu h6 HR6. apply g_ret. rewrite upd_upd in HR6.
    split; auto. eapply RowE_T; eauto.
  - intros xy h3 [-> HT3]. apply g_ret. auto.
Qed.
Lemma sb_RowAt h0 hb b i r : BRep h0 hb b -> b_RowAt b i = Ok r -> goes (hb_RowAt hb i) h0 (fun s => OwnE h0 s r).
Proof.
  intros (HM & Sh) H. pose proof Sh as (S1 & S2 & S3 & S4). unfold b_RowAt in H. unfold hb_RowAt.
  binv H u Hu. apply orpanic_ok, unit_tt in Hu. eapply g_step; [eapply sb_ckrow; eauto|]. rewrite S2, S4.
  binv H r0 Hm. apply g_bind. eapply g_imp; [apply (g_makeF _ _ _ _ (Ext_refl _) Hm)|]. nx s h1 HO. cbv zeta in *.
  binv H st Hst. destruct st as [r1 k1]. injection H as <-.
  apply g_bind. eapply g_imp; [eapply (g_for (fun _ '(r, k) k' h => k' = k /\ OwnE h0 s r h)); [exact Hst|split; auto|]|].
  - intros j [r2 k2] k' h2 [r3 k3] Hj [-> HO2] HP. cbv zeta in HP. binv HP src Hs. binv HP r4 Hr4. injection HP as <- <-.
    destruct (src_row _ _ _ _ _ HM Hs) as (t & Ht). destruct (Ht h2 (proj2 HO2)) as (Rt & HVt).
    eapply g_step; [exact Rt|]. rewrite (sh_width _ _ _ Sh). apply g_bind. eapply g_imp; [eapply g_copyrange; eauto|].
    nxu h3 HO3. apply g_ret. auto.
  - intros k' h2 [-> HO2]. apply g_ret. auto.
Qed.
Lemma sb_ColumnAt h0 hb b i r : BRep h0 hb b -> b_ColumnAt b i = Ok r -> goes (hb_ColumnAt hb i) h0 (fun s => OwnE h0 s r).
Proof.
  intros (HM & Sh) H. pose proof Sh as (S1 & S2 & S3 & S4). unfold b_ColumnAt in H. unfold hb_ColumnAt.
  binv H u Hu. apply orpanic_ok, unit_tt in Hu. eapply g_step; [eapply sb_ckcol; eauto|]. rewrite S1, S3, S4.
  binv H r0 Hm. apply g_bind. eapply g_imp; [apply (g_makeF _ _ _ _ (Ext_refl _) Hm)|]. nx s h1 HO. cbv zeta in *.
  binv H st Hst. destruct st as [r1 k1]. injection H as <-. rewrite (sh_width _ _ _ Sh).
  apply g_bind. eapply g_imp; [eapply (g_for (fun _ '(r, k) k' h => k' = k /\ OwnE h0 s r h)); [exact Hst|split; auto|]|].
  - intros j [r2 k2] k' h2 [r3 k3] Hj [-> HO2] HP. rewrite (sh_height _ _ _ Sh).
    eapply g_imp; [eapply (g_for (fun _ '(r, k) k' h => k' = k /\ OwnE h0 s r h)); [exact HP|split; auto|]|].
    + intros p [r4 k4] k' h3 [r5 k5] Hp [-> HO3] HQ. binv HQ x Hx. binv HQ r6 Hr6. injection HQ as <- <-.
      eapply g_step; [eapply src_rd2; eauto; apply HO3|]. apply g_bind. eapply g_imp; [eapply g_wrF; eauto|].
      nxu h4 HO4. apply g_ret. auto.
    + intros k' h3 [-> HO3]. auto.
  - intros k' h2 [-> HO2]. apply g_ret. auto.
Qed.
(** ** SubMatrix *)
Lemma sb_part h0 h o d i s r t q sw sr0 sr1 sc0 sc1 dw dr0 dc0 r' :
  RowE h0 o d i s r h -> (forall h', Ext h0 h' -> VRep h' t q) ->
  copyBlockPart q sw sr0 sr1 sc0 sc1 r dw dr0 dc0 = Ok r' ->
  goes (hb_part t sw sr0 sr1 sc0 sc1 s dw dr0 dc0) h (fun _ => TabE h0 o (upd d i r')).
Proof.
  intros HR HV H. unfold copyBlockPart in H. unfold hb_part. cbv zeta in *. binv H st Hst. destruct st as [[r1 a1] b1]. injection H as <-.
  assert (HR0 : RowE h0 o (upd d i r) i s r h).
  { rewrite upd_id; auto. destruct HR as (hd & HA). apply HA. }
  apply g_bind. eapply g_imp; [eapply (g_for (fun _ '(r, x, y) xy h => xy = (x, y) /\ RowE h0 o (upd d i r) i s r h)); [exact Hst|split; auto|]|].
  - intros j [[r2 x2] y2] xy h2 [[r3 x3] y3] Hj [-> HR2] HP. binv HP r4 Hr4. injection HP as <- <- <-.
    apply g_bind. eapply g_imp; [eapply RowE_copyrange; eauto; apply HV; eapply RowE_e; eauto|]. nxu h3 HR3.
    apply g_ret. rewrite upd_upd in HR3. auto.
  - intros xy h2 [-> HR2]. apply g_ret. eapply RowE_T; eauto.
Qed.
Lemma sb_SubMatrix h0 hb b r0 r1 c0 c1 b' : BRep h0 hb b -> b_SubMatrix b r0 r1 c0 c1 = Ok b' ->
  goes (hb_SubMatrix hb r0 r1 c0 c1) h0 (fun hb' h => BRep h hb' b').
Proof.
  intros (HM & Sh) H. pose proof Sh as (S1 & S2 & S3 & S4). unfold b_SubMatrix in H. unfold hb_SubMatrix.
  binv H u Hu. apply orpanic_ok in Hu. unfold checkSubMatrixIndex in Hu.
  binv Hu u1 H1. binv Hu u2 H2. destruct (r1 <? r0) eqn:Er; [discriminate|]. binv Hu u3 H3. binv Hu u4 H4.
  destruct (c1 <? c0) eqn:Ec; [discriminate|]. apply unit_tt in H1, H2, H3, H4.
  eapply g_step; [eapply sb_ckrow; eauto|]. eapply g_step; [eapply sb_ckrow; eauto|].
  eapply g_step; [eapply sb_ckcol; eauto|]. eapply g_step; [eapply sb_ckcol; eauto|].
  binv H out Hn. apply orpanic_ok in Hn.
  apply g_bind. apply g_mpan. eapply g_imp; [eapply sb_New; eauto; apply Ext_refl|]. intros hout h1 [HT Sho].
  pose proof Sho as (O1 & O2 & O3 & O4). rewrite O3, O4, S4. cbv zeta in *.
  binv H st Hst. destruct st as [bl k1]. injection H as <-.
  assert (HC : forall hb0, sameshape hb0 out -> forall bl, sameshape hb0 (with_blocks out bl)).
  { intros hb0 (A & B & C & D) bl0. repeat split; auto. }
  assert (HP : forall h d si sw a0 a1 b0 b1 oi w dr dc (s : vec) (r : vec) r' d', TabE h0 (hb_blocks hout) d h ->
     zget (b_blocks b) si = Ok s -> zget d oi = Ok r -> copyBlockPart s sw a0 a1 b0 b1 r w dr dc = Ok r' -> zset d oi r' = Ok d' ->
     goes (let! s := rdS (hb_blocks hb) si in let! o := rdS (hb_blocks hout) oi in hb_part s sw a0 a1 b0 b1 o w dr dc) h
       (fun _ => TabE h0 (hb_blocks hout) d')).
  { intros h d si sw a0 a1 b0 b1 oi w dr dc s r r' d' HT2 Hs Hr Hc Hz. apply zset_inv in Hz. destruct Hz as [Hk ->].
    destruct (src_row _ _ _ _ _ HM Hs) as (t & Ht). destruct (Ht h (TabE_e _ _ _ _ HT2)) as (Rt & _).
    eapply g_step; [exact Rt|]. destruct (TabE_rd _ _ _ _ _ _ HT2 Hr) as (o & HR). eapply g_step; [eapply RowE_rd; eauto|].
    eapply sb_part; eauto. intros h' He. apply (Ht h' He). }
  apply g_bind. eapply g_imp; [eapply (g_for (fun _ '(d, k) k' h => k' = k /\ TabE h0 (hb_blocks hout) d h)); [exact Hst|split; auto|]|].
  - intros i [d2 k2] k' h2 [d3 k3] Hi [-> HT2] HQ. binv HQ st2 Hst2. destruct st2 as [d4 k4]. injection HQ as <- <-.
    apply g_bind. eapply g_imp; [eapply (g_for (fun _ '(d, k) k' h => k' = k /\ TabE h0 (hb_blocks hout) d h)); [exact Hst2|split; auto|]|].
    + intros j [d5 k5] k' h3 [d6 k6] Hj [-> HT3] HS. binv HS d7 Hd7. injection HS as <- <-.
      rewrite !(sh_height _ _ _ Sho), !(sh_width _ _ _ Sho), !(sh_width _ _ _ Sh).
      apply g_bind. eapply g_imp with (P := fun _ => TabE h0 (hb_blocks hout) d7); [|intros [] h4 HT4; apply g_ret; auto].
      destruct (0 <? blockHeight out i + r0 mod BLOCK_SIZE - BLOCK_SIZE), (0 <? blockWidth out j + c0 mod BLOCK_SIZE - BLOCK_SIZE);
        repeat (match goal with
          | Hd : bind (zget _ _) _ = Ok _ |- _ => let x := fresh "v" in let Hx := fresh "V" in binv Hd x Hx
          | Hd : bind (copyBlockPart _ _ _ _ _ _ _ _ _ _) _ = Ok _ |- _ => let x := fresh "v" in let Hx := fresh "V" in binv Hd x Hx
          | Hd : bind (zset _ _ _) _ = Ok _ |- _ => let x := fresh "v" in let Hx := fresh "V" in binv Hd x Hx
          end).
      * apply g_bind. eapply g_imp; [eapply HP; [exact HT3|..]; eassumption|]. nxu h4 HT4.
        apply g_bind. eapply g_imp; [eapply HP; [exact HT4|..]; eassumption|]. nxu h5 HT5.
        apply g_bind. eapply g_imp; [eapply HP; [exact HT5|..]; eassumption|]. nxu h6 HT6.
        eapply HP; [exact HT6|..]; eassumption.
      * apply g_bind. eapply g_imp; [eapply HP; [exact HT3|..]; eassumption|]. nxu h4 HT4.
        eapply HP; [exact HT4|..]; eassumption.
      * apply g_bind. eapply g_imp; [eapply HP; [exact HT3|..]; eassumption|]. nxu h4 HT4.
        eapply HP; [exact HT4|..]; eassumption.
      * eapply HP; [exact HT3|..]; eassumption.
    + intros k' h3 [-> HT3]. apply g_ret. auto.
  - intros k' h2 [-> HT2]. apply g_ret. split; [|apply HC; auto]. apply (TabE_MRep _ _ _ _ HT2).
Qed.
End Sim.

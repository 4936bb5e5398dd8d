(** Each copying function of Heap.v returns the table or slice that the value
    model computes (continued). *)
From Coq Require Import ZArith List Lia Bool.
From Verif Require Import Base BaseLemmas Scalar Vector Matrix Array2D BlockM Diagonal Heap HeapSpec HeapFacts HeapSim HeapSim2.
Import ListNotations.
Open Scope Z_scope.

Section Sim.
Context {O : Ops}.

(** ** Array2DRowRealMatrix *)
Lemma s2_copyIn_some (d : mat) A : a2_copyIn (mkA2D None) (Some d) = Ok A -> exists d', A = mkA2D (Some d').
Proof.
  intros H. unfold a2_copyIn, a2_SetSubMatrix in H. destruct (len d =? 0); [discriminate|]. binv H s0 Hs0.
  destruct (len s0 =? 0); [discriminate|]. cbn [a2_data] in H. change (0 <? 0) with false in H. cbv iota in H.
  binv H d0 Hm. binv H d1 Hl. binv H d2 Hc. injection H as <-. eauto.
Qed.
Lemma TabE_MRep h0 o d h : TabE h0 o d h -> isnil o = false /\ MRep h o d.
Proof. intros (hd & HT). exact (Tab_ARep _ _ _ _ _ HT). Qed.
Lemma s2_Copy h0 a A d : ARep h0 a A -> a2_Copy A = Ok (mkA2D (Some d)) ->
  goes (h2_Copy a) h0 (fun o h => isnil o = false /\ MRep h o d).
Proof.
  intros HA H. unfold a2_Copy in H. binv H out Ho. unfold h2_Copy. apply g_bind.
  eapply g_imp; [eapply s2_copyOut; eauto|]. nx o h1 HT. destruct (TabE_MRep _ _ _ _ HT) as [Hn HM].
  eapply g_imp; [eapply s2_copyIn; eauto|]. nx o' h2 HT2. eapply TabE_MRep; eauto.
Qed.
Lemma s2_FromSlices h0 o d d' : isnil o = false -> MRep h0 o d ->
  NewArray2DRowRealMatrixFromSlices (Some d) true = Ok (mkA2D (Some d')) ->
  goes (h2_FromSlices o true) h0 (fun o' h => isnil o' = false /\ MRep h o' d').
Proof.
  intros Hn HM H. cbn [NewArray2DRowRealMatrixFromSlices] in H. unfold h2_FromSlices.
  eapply g_imp; [eapply s2_copyIn; eauto|]. nx o' h2 HT2. eapply TabE_MRep; eauto.
Qed.
Lemma unit_tt (m : res unit) u : m = Ok u -> m = Ok tt. Proof. destruct u; auto. Qed.
Lemma s2_ColumnAt h0 a A j r : ARep h0 a A -> a2_ColumnAt A j = Ok r ->
  goes (h2_ColumnAt a j) h0 (fun s => OwnE h0 s r).
Proof.
  intros HA H. unfold a2_ColumnAt in H. unfold h2_ColumnAt. binv H u Hu. apply orpanic_ok, unit_tt in Hu.
  eapply g_step; [eapply s2_ckcol; eauto|]. rewrite (s2_rows _ _ _ HA). binv H r0 Hm.
  apply g_bind. eapply g_imp; [apply (g_makeF _ _ _ _ (Ext_refl _) Hm)|]. nx s h1 HO.
  apply g_bind. eapply g_imp; [eapply fill_for; [exact HO|exact H|]|intros; apply g_ret; auto].
  intros i h r1 r2 Hi HO1 HP. binv HP x Hx. eapply g_step; [eapply s2_rd2; eauto; apply HO1|]. eapply g_wrF; eauto.
Qed.
Lemma s2_RowAt h0 a A i r : ARep h0 a A -> a2_RowAt A i = Ok r ->
  goes (h2_RowAt a i) h0 (fun s => OwnE h0 s r).
Proof.
  intros HA H. unfold a2_RowAt in H. unfold h2_RowAt. binv H u Hu. apply orpanic_ok, unit_tt in Hu.
  eapply g_step; [eapply s2_ckrow; eauto|]. binv H c Hc. eapply g_step; [eapply s2_cols; eauto; apply Ext_refl|].
  binv H r0 Hm. apply g_bind. eapply g_imp; [apply (g_makeF _ _ _ _ (Ext_refl _) Hm)|]. nx s h1 HO.
  binv H q Hq. destruct (s2_rdS _ _ _ _ _ HA Hq) as (t & Ht). destruct (Ht h1 (proj2 HO)) as (R & HV).
  eapply g_step; [exact R|]. apply g_bind. eapply g_imp; [eapply g_copyrange; eauto|]. intros; apply g_ret; auto.
Qed.
Lemma OwnE_VRep h0 s r h : OwnE h0 s r h -> VRep h s r.
Proof. intros [HO _]. eapply Own_VRep; eauto. Qed.
Lemma s2_RowVectorAt h0 a A i r : ARep h0 a A -> a2_RowVectorAt A i = Ok (VArr r) ->
  goes (h2_RowVectorAt a i) h0 (fun s => OwnE h0 s r).
Proof.
  intros HA H. unfold a2_RowVectorAt in H. binv H r0 Hr. injection H as <-. unfold h2_RowVectorAt.
  apply g_bind. eapply g_imp; [eapply s2_RowAt; eauto|]. nx s h1 HO.
  eapply g_appendF; [apply HO|eapply OwnE_VRep; eauto].
Qed.
Lemma s2_ColumnVectorAt h0 a A i r : ARep h0 a A -> a2_ColumnVectorAt A i = Ok (VArr r) ->
  goes (h2_ColumnVectorAt a i) h0 (fun s => OwnE h0 s r).
Proof.
  intros HA H. unfold a2_ColumnVectorAt in H. binv H r0 Hr. injection H as <-. unfold h2_ColumnVectorAt.
  apply g_bind. eapply g_imp; [eapply s2_ColumnAt; eauto|]. nx s h1 HO.
  eapply g_appendF; [apply HO|eapply OwnE_VRep; eauto].
Qed.
Lemma s2_SubMatrix h0 a A r0 r1 c0 c1 d : ARep h0 a A -> a2_SubMatrix A r0 r1 c0 c1 = Ok (mkA2D (Some d)) ->
  goes (h2_SubMatrix a r0 r1 c0 c1) h0 (fun o => TabE h0 o d).
Proof.
  intros HA H. unfold a2_SubMatrix in H. binv H u Hu. apply orpanic_ok in Hu. unfold checkSubMatrixIndex in Hu.
  binv Hu u1 H1. binv Hu u2 H2. destruct (r1 <? r0) eqn:Er; [discriminate|]. binv Hu u3 H3. binv Hu u4 H4.
  destruct (c1 <? c0) eqn:Ec; [discriminate|]. apply unit_tt in H1, H2, H3, H4.
  unfold h2_SubMatrix. eapply g_step; [eapply s2_ckrow; eauto|]. eapply g_step; [eapply s2_ckrow; eauto|]. rewrite Er.
  eapply g_step; [eapply s2_ckcol; eauto|]. eapply g_step; [eapply s2_ckcol; eauto|]. rewrite Ec.
  binv H d0 Hm. binv H d1 Hl. injection H as <-.
  apply g_bind. eapply g_imp; [apply (g_makeS _ _ _ _ (Ext_refl _) Hm)|]. nx o h1 HT.
  apply g_bind. eapply g_imp; [eapply tab_for; [exact HT|exact Hl|]|intros; apply g_ret; auto].
  intros i h d2 d3 Hi HT1 HP. binv HP r Hr. binv HP di Hdi. binv HP r' Hr'. apply zset_inv in HP. destruct HP as [Hi' ->].
  destruct (s2_rdS _ _ _ _ _ HA Hdi) as (t & Ht).
  eapply g_newrow; eauto. intros s h2 HR.
  eapply g_step; [eapply RowE_rd; eauto|]. destruct (Ht h2 (RowE_e _ _ _ _ _ _ _ HR)) as (Rt & HVt).
  eapply g_step; [exact Rt|].
  eapply g_imp; [eapply RowE_copyrange; eauto|]. nxu h3 HR3. rewrite upd_upd in HR3. eapply RowE_T; eauto.
Qed.
Lemma s2_make2 h0 h r c d : Ext h0 h -> make2 r c = Ok d -> goes (h_make2 r c) h (fun o => TabE h0 o d).
Proof.
  intros He H. unfold make2 in H. unfold h_make2. binv H d0 Hm.
  apply g_bind. eapply g_imp; [apply (g_makeS _ _ _ _ He Hm)|]. nx o h1 HT.
  apply g_bind. eapply g_imp; [eapply s2_rowloop; eauto|]. intros; apply g_ret; auto.
Qed.
Lemma s2_New h0 h r c d : Ext h0 h -> NewArray2DRowRealMatrix r c = Ok (mkA2D (Some d)) -> goes (h2_New r c) h (fun o => TabE h0 o d).
Proof.
  intros He H. unfold NewArray2DRowRealMatrix in H. unfold h2_New. destruct (r <? 1); [discriminate|]. destruct (c <? 1); [discriminate|].
  binv H d0 Hd. injection H as <-. eapply s2_make2; eauto.
Qed.
Lemma s2_New_some r c (A : A2D) : NewArray2DRowRealMatrix r c = Ok A -> A = mkA2D (Some (a2_d A)).
Proof.
  intros H. unfold NewArray2DRowRealMatrix in H. destruct (r <? 1); [discriminate|]. destruct (c <? 1); [discriminate|].
  binv H d0 Hd. injection H as <-. reflexivity.
Qed.
Lemma s2_RowMatrixAt h0 a A i d : ARep h0 a A -> a2_RowMatrixAt A i = Ok (mkA2D (Some d)) ->
  goes (h2_RowMatrixAt a i) h0 (fun o => TabE h0 o d).
Proof.
  intros HA H. unfold a2_RowMatrixAt in H. unfold h2_RowMatrixAt. binv H u Hu. apply orpanic_ok, unit_tt in Hu.
  eapply g_step; [eapply s2_ckrow; eauto|]. binv H c Hc. eapply g_step; [eapply s2_cols; eauto; apply Ext_refl|].
  binv H B Hn. apply orpanic_ok in Hn. pose proof (s2_New_some _ _ _ Hn) as EB. rewrite EB in Hn. binv H d1 Hl. injection H as <-.
  apply g_bind. apply g_mpan. eapply g_imp; [eapply s2_New; eauto; apply Ext_refl|]. nx o h1 HT.
  apply g_bind. eapply g_imp; [eapply tab_for; [exact HT|exact Hl|]|intros; apply g_ret; auto].
  intros j h d2 d3 Hi HT1 HP. binv HP x Hx. eapply g_step; [eapply s2_rd2; eauto; eapply TabE_e; eauto|]. eapply g_wr2; eauto.
Qed.
Lemma s2_ColumnMatrixAt h0 a A i d : ARep h0 a A -> a2_ColumnMatrixAt A i = Ok (mkA2D (Some d)) ->
  goes (h2_ColumnMatrixAt a i) h0 (fun o => TabE h0 o d).
Proof.
  intros HA H. unfold a2_ColumnMatrixAt in H. unfold h2_ColumnMatrixAt. binv H u Hu. apply orpanic_ok, unit_tt in Hu.
  eapply g_step; [eapply s2_ckcol; eauto|]. rewrite (s2_rows _ _ _ HA).
  binv H B Hn. apply orpanic_ok in Hn. pose proof (s2_New_some _ _ _ Hn) as EB. rewrite EB in Hn. binv H d1 Hl. injection H as <-.
  apply g_bind. apply g_mpan. eapply g_imp; [eapply s2_New; eauto; apply Ext_refl|]. nx o h1 HT.
  apply g_bind. eapply g_imp; [eapply tab_for; [exact HT|exact Hl|]|intros; apply g_ret; auto].
  intros j h d2 d3 Hi HT1 HP. binv HP x Hx. eapply g_step; [eapply s2_rd2; eauto; eapply TabE_e; eauto|]. eapply g_wr2; eauto.
Qed.
Lemma s2_Transpose h0 a A d : ARep h0 a A -> a2_Transpose A = Ok (mkA2D (Some d)) ->
  goes (h2_Transpose a) h0 (fun o => TabE h0 o d).
Proof.
  intros HA H. unfold a2_Transpose in H. unfold h2_Transpose. rewrite (s2_rows _ _ _ HA).
  binv H c Hc. eapply g_step; [eapply s2_cols; eauto; apply Ext_refl|].
  binv H d0 Hm. binv H d1 Hl. binv H d2 Hc2. injection H as <-.
  apply g_bind. eapply g_imp; [apply (g_makeS _ _ _ _ (Ext_refl _) Hm)|]. nx o h1 HT. rewrite (TabE_len _ _ _ _ HT).
  apply g_bind. eapply g_imp; [eapply s2_rowloop; eauto|]. nxu h2 HT2.
  apply g_bind. eapply g_imp; [eapply tab_for; [exact HT2|exact Hc2|]|intros; apply g_ret; auto].
  intros i h d3 d4 Hi HT3 HP. eapply tab_for; [exact HT3|exact HP|].
  intros j h4 d5 d6 Hj HT4 HQ. binv HQ x Hx. eapply g_step; [eapply s2_rd2; eauto; eapply TabE_e; eauto|]. eapply g_wr2; eauto.
Qed.

(** ** DiagonalMatrix *)
Lemma sd_ckrow h s d i : VRep h s d -> checkRowIndex (MDiag (mkDiag d)) i = Ok tt -> runs (hcheck s i) h tt h.
Proof.
  intros (_ & E & _) H. unfold hcheck. rewrite E. unfold checkRowIndex in H. cbn in H.
  destruct (Z.ltb_spec i 0); [discriminate|]. destruct (Z.leb_spec (len d) i); [discriminate|].
  rewrite (proj2 (inb_true _ _)) by lia. apply runs_ret.
Qed.
Lemma sd_ckcol h s d i : VRep h s d -> checkColumnIndex (MDiag (mkDiag d)) i = Ok tt -> runs (hcheck s i) h tt h.
Proof.
  intros (_ & E & _) H. unfold hcheck. rewrite E. unfold checkColumnIndex in H. cbn in H.
  destruct (Z.ltb_spec i 0); [discriminate|]. destruct (Z.leb_spec (len d) i); [discriminate|].
  rewrite (proj2 (inb_true _ _)) by lia. apply runs_ret.
Qed.
Lemma sd_At h s d i j x : VRep h s d -> d_At (mkDiag d) i j = Ok x -> runs (hd_At s i j) h x h.
Proof.
  intros HV H. unfold d_At in H. binv H u Hu. apply orpanic_ok in Hu. unfold checkMatrixIndex in Hu.
  binv Hu u1 Hu1. apply unit_tt in Hu, Hu1. unfold hd_At.
  eapply runs_bind; [eapply sd_ckrow; eauto|]. eapply runs_bind; [eapply sd_ckcol; eauto|].
  destruct (i =? j); [eapply runs_rdF; eauto|]. injection H as <-. apply runs_ret.
Qed.
Lemma sd_ColumnAt h0 s d j r : VRep h0 s d -> d_ColumnAt (mkDiag d) j = Ok r ->
  goes (hd_ColumnAt s j) h0 (fun s' => OwnE h0 s' r).
Proof.
  intros HV H. unfold d_ColumnAt in H. unfold hd_ColumnAt. binv H u Hu. apply orpanic_ok, unit_tt in Hu.
  eapply g_step; [eapply sd_ckcol; eauto|]. pose proof HV as (_ & E & _). rewrite E. cbn [d_data] in H. binv H r0 Hm.
  apply g_bind. eapply g_imp; [apply (g_makeF _ _ _ _ (Ext_refl _) Hm)|]. nx s' h1 HO.
  apply g_bind. eapply g_imp; [eapply fill_for; [exact HO|exact H|]|intros; apply g_ret; auto].
  intros i h r1 r2 Hi HO1 HP. binv HP x Hx. eapply g_step; [eapply sd_At; eauto; eapply VRep_ext; eauto; apply HO1|]. eapply g_wrF; eauto.
Qed.
Lemma sd_RowAt h0 s d j r : VRep h0 s d -> d_RowAt (mkDiag d) j = Ok r ->
  goes (hd_RowAt s j) h0 (fun s' => OwnE h0 s' r).
Proof.
  intros HV H. unfold d_RowAt in H. unfold hd_RowAt. binv H u Hu. apply orpanic_ok, unit_tt in Hu.
  eapply g_step; [eapply sd_ckrow; eauto|]. pose proof HV as (_ & E & _). rewrite E. cbn [d_data] in H. binv H r0 Hm.
  apply g_bind. eapply g_imp; [apply (g_makeF _ _ _ _ (Ext_refl _) Hm)|]. nx s' h1 HO.
  apply g_bind. eapply g_imp; [eapply fill_for; [exact HO|exact H|]|intros; apply g_ret; auto].
  intros i h r1 r2 Hi HO1 HP. binv HP x Hx. eapply g_step; [eapply sd_At; eauto; eapply VRep_ext; eauto; apply HO1|]. eapply g_wrF; eauto.
Qed.
(** In Data the rows from the current one on are still nil. *)
Definition TabN h0 o d k (h : heap) : Prop := exists hd, Tab h0 h o hd d /\
  forall i, k <= i < len d -> zget hd i = Ok nilsl.
Lemma g_makeS_nil h0 h n d : Ext h0 h -> make [] n = Ok d -> goes (makeS n) h (fun o => TabN h0 o d 0).
Proof.
  intros He Hm. unfold make in Hm. unfold makeS. destruct (runs_makeS h0 h n d He) as (o & hd & h' & R & HT); auto.
  exists o, h'. split; auto. exists hd. split; auto. intros i Hi. unfold makeS in R. destruct (n <? 0); [discriminate|].
  unfold runs, newS in R. injection R as <- <-. pose proof (tb_h _ _ _ _ _ HT) as E. cbn in E. rewrite zget_app_last in E.
  injection E as <-. pose proof (tb_l _ _ _ _ _ HT) as El. destruct (zget_some (repeat nilsl (Z.to_nat n)) i) as (s & Hs); [lia|].
  rewrite Hs. f_equal. apply zget_In, repeat_spec in Hs. auto.
Qed.
Lemma sd_Data h0 s d out : VRep h0 s d -> d_Data (mkDiag d) = Ok out ->
  goes (hd_Data s) h0 (fun o => TabE h0 o out).
Proof.
  intros HV H. unfold d_Data in H. unfold hd_Data. pose proof HV as (_ & E & _). rewrite E. cbn [d_data] in H.
  binv H d0 Hm. apply g_bind. eapply g_imp; [apply (g_makeS_nil _ _ _ _ (Ext_refl _) Hm)|]. nx o h1 HT.
  apply g_bind. eapply g_imp; [eapply (g_for (fun k d (_ : unit) => TabN h0 o d k) 0 (len d)); [exact H|exact HT|]|].
  - intros i d1 [] h d2 Hi HN HP. binv HP r Hr. binv HP x Hx. binv HP r' Hr'.
    apply zset_inv in HP. destruct HP as [Hi' ->]. destruct HN as (hd & HT1 & HN).
    assert (Rn : runs (rdS o i) h nilsl h).
    { destruct (zget_some d1 i Hi') as (q & Hq). destruct (Tab_rdS _ _ _ _ _ _ _ HT1 Hq) as (t & Rt & HAt).
      pose proof (at_s _ _ _ _ _ _ _ _ HAt) as Es. rewrite HN in Es by lia. injection Es as <-. exact Rt. }
    eapply g_step; [exact Rn|]. change (isnil nilsl) with true. cbv iota.
    destruct (Tab_newF _ _ _ _ _ _ _ HT1 Hr) as (t & g1 & R1 & HL).
    destruct (Loose_wrS _ _ _ _ _ _ _ i HL Hi') as (g2 & R2 & HT2 & HO2).
    eapply g_step; [eapply runs_bind; [exact R1|exact R2]|].
    pose proof (tb_e _ _ _ _ _ HT2) as He2.
    eapply g_step; [eapply runs_rdF; [eapply VRep_ext; eauto|eauto]|].
    assert (Hms : mset (upd d1 i r) i i x = Ok (upd d1 i r')).
    { unfold mset. rewrite zget_upd_same by auto. cbn [bind]. rewrite Hr'. cbn [bind].
      rewrite zset_ok by (rewrite len_upd; auto). rewrite upd_upd. reflexivity. }
    destruct (Tab_wr2 _ _ _ _ _ _ _ _ _ HT2 Hms) as (g3 & R3 & HT3).
    eapply g_runs; [exact R3|]. exists (upd hd i t). split; auto.
    intros j Hj. rewrite len_upd in Hj. rewrite zget_upd_other by lia. apply HN. lia.
  - nxu h2 HT2. apply g_ret. destruct HT2 as (hd & HT2 & _). exists hd. auto.
Qed.
End Sim.

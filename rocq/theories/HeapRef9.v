(** The matrix solver of HeapSolve.v for QR and that of QR.v, and the inverses. *)
From Coq Require Import ZArith List Lia Bool.
From Verif Require Import Base BaseLemmas Scalar Vector Matrix VecSpec MatSpec MatFacts Array2D Array2DFacts BlockM BlockFacts BlockFacts2 Diagonal DiagFacts RealMatrixM MatrixOps MatHist.
From Verif Require Import Heap HeapSpec HeapFacts HeapSim HeapSim2 HeapSim3 HeapSim4 HeapMain HeapDec HeapAtom HeapRefSpec HeapRef HeapRef2 HeapRef3 HeapRef4 HeapRef5 HeapSolve HeapRef7 HeapRef8.
From Verif Require Import LU Cholesky QR.
Import ListNotations.
Open Scope Z_scope.

Section Ref9.
Context {O : Ops}.

(** ** Two tables and an array made by the call *)
Lemma Ext_trans h0 h1 h : Ext h0 h1 -> Ext h1 h -> Ext h0 h.
Proof.
  intros [L1 F1 S1 N1] [L2 F2 S2 N2]. split.
  - eapply hle_trans; eauto.
  - intros a Ha. rewrite F2 by (destruct L1; lia). auto.
  - intros b Hb. rewrite S2 by (destruct L1; lia). auto.
  - intros b l s Hb Hz Hs. destruct (Z_lt_le_dec b (len (hs h1))) as [Hc|Hc].
    + rewrite S2 in Hz by auto. eapply isnewF_mono; [exact L2|]. eapply N1; eauto.
    + pose proof (N2 b l s Hc Hz Hs) as G. unfold isnewF in *. destruct L1. lia.
Qed.
Lemma Tab_base h0 h1 h o hd d : Ext h0 h1 -> Tab h1 h o hd d -> Tab h0 h o hd d.
Proof.
  intros He [T1 T2 T3 T4 T5 T6 T7]. destruct (ext_le _ _ He) as [L1 L2]. split; auto.
  - eapply Ext_trans; eauto.
  - lia.
  - intros i s Hs. destruct (T6 i s Hs) as (r & Hr & HR). exists r. split; auto. destruct HR as [HR|(A & B & C)]; [left; auto|right]. split; [lia|auto].
Qed.
Lemma Ext_zget {A} (l l' : list A) a x : (forall a, a < len l -> zget l' a = zget l a) -> zget l a = Ok x -> zget l' a = Ok x.
Proof. intros H E. rewrite H; auto. apply zget_range in E. lia. Qed.
Lemma Own_later h0 h h' s r : Ext h h' -> Own h0 h s r -> Own h0 h' s r.
Proof. intros He (A & B & C). split; [auto|split; auto]. eapply Ext_zget; [apply (ext_f _ _ He)|auto]. Qed.
Lemma Tab_later h0 h h' o hd d : Ext h h' -> Tab h0 h o hd d -> Tab h0 h' o hd d.
Proof.
  intros He [T1 T2 T3 T4 T5 T6 T7]. split; auto.
  - eapply Ext_trans; eauto.
  - eapply Ext_zget; [apply (ext_s _ _ He)|auto].
  - intros i s Hs. destruct (T6 i s Hs) as (r & Hr & HR). exists r. split; auto. destruct HR as [HR|HR]; [left; auto|right]. eapply Own_later; eauto.
Qed.
Lemma Tab_other h0 h h' o hd d a x : Tab h0 h o hd d -> Ext h0 h' -> hs h' = hs h -> hf h' = upd (hf h) a x ->
  (forall i s, zget hd i = Ok s -> sl_arr s <> a \/ s = nilsl) -> Tab h0 h' o hd d.
Proof.
  intros [T1 T2 T3 T4 T5 T6 T7] He Es Ef N. split; auto.
  - rewrite Es. auto.
  - intros i s Hs. destruct (T6 i s Hs) as (r & Hr & HR). destruct HR as [HR|HR]; [exists r; split; auto; left; auto|].
    destruct (N i s Hs) as [Ha|Ha].
    + exists r. split; auto. right. destruct HR as (A & B & C). split; [auto|split; auto]. rewrite Ef, zget_upd_other; auto.
    + exfalso. destruct HR as (A & _). rewrite Ha in A. cbn in A. pose proof (len_nonneg (hf h0)). lia.
Qed.
Definition sames (d d' : mat) : Prop := len d = len d' /\ forall k, 0 <= k < len d' -> len (nthZ d k) = len (nthZ d' k).
Lemma sames_upd (d d' : mat) i q q' : sames d d' -> zget d i = Ok q -> len q' = len q -> sames (upd d i q') d'.
Proof.
  intros [E1 E2] Eq L. pose proof (zget_range _ _ _ Eq) as Hi. split; [rewrite len_upd; auto|]. intros k Hk. rewrite nthZ_upd by lia. destruct (Z.eqb_spec i k).
  - rewrite L. rewrite zget_ok in Eq by lia. injection Eq as <-. rewrite e. apply E2. lia.
  - apply E2. auto.
Qed.
Section S3.
Variables (h0 : heap) (ox oy oa : slice) (hx hy : list slice) (X0 Y0 : mat).
Definition apart (hd hd' : list slice) : Prop := forall i j s s', zget hd i = Ok s -> zget hd' j = Ok s' -> sl_arr s <> sl_arr s' \/ s = nilsl.
Definition away (hd : list slice) (a : Z) : Prop := forall i s, zget hd i = Ok s -> sl_arr s <> a \/ s = nilsl.
Definition S3 (x y : mat) (al : list F) (h : heap) : Prop :=
  (Ext h0 h /\ Tab h0 h ox hx x /\ Tab h0 h oy hy y /\ Own h0 h oa al) /\ sames x X0 /\ sames y Y0 /\
  (apart hx hy /\ apart hy hx /\ away hx (sl_arr oa) /\ away hy (sl_arr oa)).
Lemma S3_e x y al h : S3 x y al h -> Ext h0 h. Proof. intros H. apply H. Qed.
Lemma S3_x x y al h : S3 x y al h -> Tab h0 h ox hx x. Proof. intros H. apply H. Qed.
Lemma S3_y x y al h : S3 x y al h -> Tab h0 h oy hy y. Proof. intros H. apply H. Qed.
Lemma S3_a x y al h : S3 x y al h -> VRep h oa al. Proof. intros H. eapply Own_VRep. apply H. Qed.
Lemma S3_lx x y al h : S3 x y al h -> len x = len X0. Proof. intros H. apply H. Qed.
Lemma S3_ly x y al h : S3 x y al h -> len y = len Y0. Proof. intros H. apply H. Qed.
Lemma wa_end x y al h j v : S3 x y al h -> sim (wrF oa j v) (zset al j v) h (fun h' _ al' => S3 x y al' h').
Proof.
  intros ((He & HX & HY & HO) & SX & SY & A1 & A2 & A3 & A4). destruct (zset al j v) as [q'|e|e] eqn:Ez.
  - destruct (runs_wrF h0 h oa al j v q' He HO Ez) as (h' & R & HO' & He' & Eh & Ef). unfold sim. rewrite R.
    split; [split; [auto|split; [|split; auto]]; eapply Tab_other; eauto|]. split; [auto|split; auto].
  - unfold zset in Ez. destruct (inb j (len al)); discriminate.
  - pose proof (w_own_end h0 h oa al j v (conj HO He)) as G. unfold sim in G |- *. rewrite Ez in G. destruct (wrF oa j v h) as [[]]; auto.
Qed.
Lemma wy_end x y al h i j s v : S3 x y al h -> zget hy i = Ok s -> sim (wrF s j v) (mset y i j v) h (fun h' _ y' => S3 x y' al h').
Proof.
  intros ((He & HX & HY & HO) & SX & SY & A1 & A2 & A3 & A4) Hs. destruct (Tab_hd _ _ _ _ _ _ _ HY Hs) as (q & Eq & HV & HA).
  pose proof (zget_range _ _ _ Eq) as Hi. unfold mset. rewrite Eq. cbn [bind]. destruct (zset q j v) as [q'|e|e] eqn:Ez; cbn [bind].
  - rewrite zset_ok by auto. pose proof (zset_own _ _ _ _ _ _ _ (AtRow_Row _ _ _ _ _ _ _ _ HA) Ez) as HOs.
    destruct (runs_wrF h0 h s q j v q' He HOs Ez) as (h' & R & HO' & He' & Eh & Ef). unfold sim. rewrite R.
    assert (Ns : s <> nilsl). { intros ->. destruct HOs as (A & _). cbn in A. pose proof (len_nonneg (hf h0)). lia. }
    split; [split; [auto|split; [|split]]|].
    + eapply Tab_other; [exact HX|exact He'|exact Eh|exact Ef|]. intros k t Ht. eapply A1; eauto.
    + eapply AtRow_put; eauto.
    + destruct HO as (B1 & B2 & B3). split; [auto|split; auto]. rewrite Ef, zget_upd_other; auto. destruct (A4 i s Hs); [auto|contradiction].
    + split; [auto|]. split; [|auto]. eapply sames_upd; eauto. apply zset_inv in Ez. destruct Ez as [_ ->]. apply len_upd.
  - unfold zset in Ez. destruct (inb j (len q)); discriminate.
  - unfold sim. unfold zset in Ez. unfold wrF. rewrite (VRep_len _ _ _ HV). destruct (inb j (len q)); [discriminate|]. injection Ez as <-. reflexivity.
Qed.
Lemma wx_end x y al h i j s v : S3 x y al h -> zget hx i = Ok s -> sim (wrF s j v) (mset x i j v) h (fun h' _ x' => S3 x' y al h').
Proof.
  intros ((He & HX & HY & HO) & SX & SY & A1 & A2 & A3 & A4) Hs. destruct (Tab_hd _ _ _ _ _ _ _ HX Hs) as (q & Eq & HV & HA).
  pose proof (zget_range _ _ _ Eq) as Hi. unfold mset. rewrite Eq. cbn [bind]. destruct (zset q j v) as [q'|e|e] eqn:Ez; cbn [bind].
  - rewrite zset_ok by auto. pose proof (zset_own _ _ _ _ _ _ _ (AtRow_Row _ _ _ _ _ _ _ _ HA) Ez) as HOs.
    destruct (runs_wrF h0 h s q j v q' He HOs Ez) as (h' & R & HO' & He' & Eh & Ef). unfold sim. rewrite R.
    assert (Ns : s <> nilsl). { intros ->. destruct HOs as (A & _). cbn in A. pose proof (len_nonneg (hf h0)). lia. }
    split; [split; [auto|split; [|split]]|].
    + eapply AtRow_put; eauto.
    + eapply Tab_other; [exact HY|exact He'|exact Eh|exact Ef|]. intros k t Ht. eapply A2; eauto.
    + destruct HO as (B1 & B2 & B3). split; [auto|split; auto]. rewrite Ef, zget_upd_other; auto. destruct (A3 i s Hs); [auto|contradiction].
    + split; [|auto]. eapply sames_upd; eauto. apply zset_inv in Ez. destruct Ez as [_ ->]. apply len_upd.
  - unfold zset in Ez. destruct (inb j (len q)); discriminate.
  - unfold sim. unfold zset in Ez. unfold wrF. rewrite (VRep_len _ _ _ HV). destruct (inb j (len q)); [discriminate|]. injection Ez as <-. reflexivity.
Qed.
Lemma wy {A B} x y al h i j s v (f : unit -> M A) (g : mat -> res B) Q : S3 x y al h -> zget hy i = Ok s ->
  (forall h' y', S3 x y' al h' -> sim (f tt) (g y') h' Q) -> sim (mbind (wrF s j v) f) (bind (mset y i j v) g) h Q.
Proof. intros HS Hs H. eapply sim_bind; [eapply wy_end; eauto|]. intros h' [] y' HS'. auto. Qed.
Lemma wx {A B} x y al h i j s v (f : unit -> M A) (g : mat -> res B) Q : S3 x y al h -> zget hx i = Ok s ->
  (forall h' x', S3 x' y al h' -> sim (f tt) (g x') h' Q) -> sim (mbind (wrF s j v) f) (bind (mset x i j v) g) h Q.
Proof. intros HS Hs H. eapply sim_bind; [eapply wx_end; eauto|]. intros h' [] y' HS'. auto. Qed.

(** ** CopySubMatrix into the first table *)
Lemma ref_copysub h b m r c f x y al sr er sc ec : HMatIs h0 b r c f -> library m -> MatIs m r c f -> S3 x y al h ->
  0 <= sr <= er -> er < r -> 0 <= sc <= ec -> ec < c -> er + 1 - sr <= len Y0 ->
  sim (h_CopySubMatrix b sr er sc ec oy) (CopySubMatrix m sr er sc ec y) h (fun h' _ y' => S3 x y' al h').
Proof.
  intros HX L Hm HS H1 H2 H3 H4 HY. pose proof (HMat_Ext _ _ _ _ _ _ (S3_e _ _ _ _ HS) HX) as HXh. destruct (HMat_dims _ _ _ _ _ HXh) as [D1 D2].
  unfold h_CopySubMatrix, CopySubMatrix.
  assert (FC : forall A B (k : Z -> M A) (u : res B) Q, sim (k c) u h Q -> sim (mbind (hm_cols b) k) u h Q).
  { intros A B k u Q H. unfold sim, mbind. rewrite D2. exact H. }
  apply FC. clear FC. rewrite D1.
  assert (C : checkSubMatrixIndex m sr er sc ec = Ok tt).
  { destruct Hm as (_ & E1 & E2 & _). unfold checkSubMatrixIndex, checkRowIndex, checkColumnIndex. rewrite E1, E2. cbn [bind].
    destruct (Z.ltb_spec sr 0), (Z.leb_spec r sr), (Z.ltb_spec er 0), (Z.leb_spec r er), (Z.ltb_spec er sr), (Z.ltb_spec sc 0), (Z.leb_spec c sc), (Z.ltb_spec ec 0), (Z.leb_spec c ec), (Z.ltb_spec ec sc); try lia. reflexivity. }
  rewrite C. cbn [orpanic bind]. unfold inb.
  replace ((0 <=? sr) && (sr <? r)) with true by lia. replace ((0 <=? er) && (er <? r)) with true by lia. replace ((0 <=? sc) && (sc <? c)) with true by lia. replace ((0 <=? ec) && (ec <? c)) with true by lia.
  replace (er <? sr) with false by lia. replace (ec <? sc) with false by lia. cbn [negb].
  pose proof (S3_y _ _ _ _ HS) as HT. pose proof (MRep_len _ _ _ (Tab_MRep _ _ _ _ _ HT)) as EL. rewrite EL, (S3_ly _ _ _ _ HS).
  replace (len Y0 <? er + 1 - sr) with false by lia. rewrite <- (S3_ly _ _ _ _ HS) in HY.
  assert (RS : forall {A B} i (k : slice -> M A) (g : list F -> res B) Q, 0 <= i < len y ->
    (forall s q, sl_len s = len q -> sim (k s) (g q) h Q) -> sim (mbind (rdS oy i) k) (bind (zget y i) g) h Q).
  { intros A B i k g Q Hi H. destruct (zget_some y i Hi) as (q & Eq). rewrite Eq. cbn [bind]. destruct (Tab_rdS _ _ _ _ _ _ _ HT Eq) as (s & R & HA). unfold sim, mbind. rewrite R.
    apply H. eapply VRep_len, Row_VRep, AtRow_Row; eauto. }
  eapply sim_bind with (P := fun h' a b => h' = h /\ a = b).
  { apply RS; [lia|]. intros s q E. rewrite E. apply sim_ret. auto. }
  intros h1 a bad [-> ->]. destruct bad.
  { apply RS; [lia|]. intros s q E. reflexivity. }
  eapply sim_bind with (P := fun h' _ _ => h' = h).
  { apply (sim_loop (fun h' (_ _ : unit) => h' = h)); [auto|]. intros i h1 [] [] Hi ->. apply RS; [lia|]. intros s q E. rewrite E. destruct (len q <? ec + 1 - sc); [reflexivity|]. apply sim_ret. auto. }
  intros h1 [] [] ->. apply (sim_loop (fun h' _ y' => S3 x y' al h')); [exact HS|]. intros i h1 [] y1 Hi HS1.
  apply (sim_loop (fun h' _ y' => S3 x y' al h')); [exact HS1|]. intros j h2 [] y2 Hj HS2.
  eapply u_mAt; [eapply HMat_Ext; [eapply S3_e; exact HS2|exact HX]|exact L|exact Hm|]. intros v.
  eapply t_rdS; [eapply S3_y; exact HS2|rewrite (S3_ly _ _ _ _ HS2), <- (S3_ly _ _ _ _ HS); lia|]. intros s Hs. eapply wy_end; eauto.
Qed.

(** ** The two sweeps *)
Lemma ref_forward h s v x y al m n w : MRep h0 (hqr_qrt s) (qr_qrt v) -> VRep h0 (hqr_rDiag s) (qr_rDiag v) -> S3 x y al h -> m <= len Y0 ->
  sim (hqrs_forward s m n w oy oa) (qrs_forward v m n w (y, al)) h (fun h' _ p => S3 x (fst p) (snd p) h').
Proof.
  intros HM HD HS Hm. apply (sim_loop (fun h' _ p => S3 x (fst p) (snd p) h')); [exact HS|]. intros k h1 [] [y1 a1] Hk HS1. cbn [fst snd] in HS1.
  eapply u_srcrow; [exact HM|eapply S3_e; exact HS1|]. intros rk qk HK _.
  eapply u_rd; [eapply VRep_ext; [eapply S3_e; exact HS1|exact HD]|]. intros a _. eapply u_rd; [apply HK; eapply S3_e; exact HS1|]. intros v0 _.
  eapply sim_bind with (P := fun h' _ a' => S3 x y1 a' h').
  { apply (sim_loop (fun h' _ a' => S3 x y1 a' h')); [exact HS1|]. intros i h2 [] a2 _ HS2. apply wa_end. exact HS2. }
  intros h2 [] a2 HS2. eapply sim_bind with (P := fun h' _ a' => S3 x y1 a' h').
  { apply (sim_loop (fun h' _ a' => S3 x y1 a' h')); [exact HS2|]. intros row h3 [] a3 Hrow HS3.
    eapply u_rd; [apply HK; eapply S3_e; exact HS3|]. intros d _.
    eapply t_rdS; [eapply S3_y; exact HS3|rewrite (S3_ly _ _ _ _ HS3); lia|]. intros yr Hyr.
    apply (sim_loop (fun h' _ a' => S3 x y1 a' h')); [exact HS3|]. intros i h4 [] a4 _ HS4.
    eapply u_rd; [eapply S3_a; exact HS4|]. intros u _. eapply t_rd; [eapply S3_y; exact HS4|exact Hyr|]. intros z _. apply wa_end. exact HS4. }
  intros h3 [] a3 HS3. eapply sim_bind with (P := fun h' _ a' => S3 x y1 a' h').
  { apply (sim_loop (fun h' _ a' => S3 x y1 a' h')); [exact HS3|]. intros i h4 [] a4 _ HS4.
    eapply u_rd; [eapply S3_a; exact HS4|]. intros u _. apply wa_end. exact HS4. }
  intros h4 [] a4 HS4. apply (sim_end_bind _ _ _ (fun h' _ y' => S3 x y' a4 h') (fun y' => (y', a4))); [|auto].
  apply (sim_loop (fun h' _ y' => S3 x y' a4 h')); [exact HS4|]. intros row h5 [] y5 Hrow HS5.
  eapply u_rd; [apply HK; eapply S3_e; exact HS5|]. intros d _.
  eapply t_rdS; [eapply S3_y; exact HS5|rewrite (S3_ly _ _ _ _ HS5); lia|]. intros yr Hyr.
  apply (sim_loop (fun h' _ y' => S3 x y' a4 h')); [exact HS5|]. intros i h6 [] y6 _ HS6.
  eapply t_rd; [eapply S3_y; exact HS6|exact Hyr|]. intros z _. eapply u_rd; [eapply S3_a; exact HS6|]. intros u _. eapply wy_end; eauto.
Qed.
Lemma ref_backward h s v x y al cB kB w : MRep h0 (hqr_qrt s) (qr_qrt v) -> VRep h0 (hqr_rDiag s) (qr_rDiag v) -> S3 x y al h ->
  len (qr_rDiag v) <= len Y0 -> (forall j, 0 <= j < len (qr_rDiag v) -> 0 <= j / BLOCK_SIZE * cB + kB < len X0) ->
  sim (hqrs_backward s cB kB w oy ox) (qrs_backward v cB kB w (y, x)) h (fun h' _ p => S3 (snd p) (fst p) al h').
Proof.
  intros HM HD HS HY HXr. unfold hqrs_backward, qrs_backward. rewrite (VRep_len _ _ _ HD).
  apply (sim_down (fun h' _ p => S3 (snd p) (fst p) al h')); [exact HS|]. intros j h1 [] [y1 x1] Hj HS1. cbn [fst snd] in HS1. cbv zeta.
  eapply u_rd; [eapply VRep_ext; [eapply S3_e; exact HS1|exact HD]|]. intros a _.
  eapply t_rdS; [eapply S3_y; exact HS1|rewrite (S3_ly _ _ _ _ HS1); lia|]. intros yj Hyj.
  eapply t_rdS; [eapply S3_x; exact HS1|rewrite (S3_lx _ _ _ _ HS1); apply HXr; lia|]. intros xj Hxj.
  eapply sim_bind with (P := fun h' i p => S3 (snd (fst p)) (fst (fst p)) al h' /\ i = snd p).
  { apply (sim_loop (fun h' i p => S3 (snd (fst p)) (fst (fst p)) al h' /\ i = snd p)); [split; [exact HS1|reflexivity]|].
    intros k h2 i [[y2 x2] i2] _ [HS2 ->]. cbn [fst snd] in HS2 |- *.
    eapply t_rd; [eapply S3_y; exact HS2|exact Hyj|]. intros u _. eapply wy; [exact HS2|exact Hyj|]. intros h3 y3 HS3.
    eapply t_rd; [eapply S3_y; exact HS3|exact Hyj|]. intros u' _. eapply wx; [exact HS3|exact Hxj|]. intros h4 x4 HS4. apply sim_ret. split; [exact HS4|reflexivity]. }
  intros h2 i [[y2 x2] i2] [HS2 _]. cbn [fst snd] in HS2.
  eapply u_srcrow; [exact HM|eapply S3_e; exact HS2|]. intros rk qk HK _.
  apply (sim_end_bind _ _ _ (fun h' _ y' => S3 x2 y' al h') (fun y' => (y', x2))); [|auto].
  apply (sim_loop (fun h' _ y' => S3 x2 y' al h')); [exact HS2|]. intros k h3 [] y3 Hk HS3.
  eapply u_rd; [apply HK; eapply S3_e; exact HS3|]. intros rkj _.
  eapply t_rdS; [eapply S3_y; exact HS3|rewrite (S3_ly _ _ _ _ HS3); lia|]. intros yi Hyi.
  apply (sim_loop (fun h' _ y' => S3 x2 y' al h')); [exact HS3|]. intros l h4 [] y4 _ HS4.
  eapply t_rd; [eapply S3_y; exact HS4|exact Hyi|]. intros u _. eapply t_rd; [eapply S3_y; exact HS4|exact Hyj|]. intros z _. eapply wy_end; eauto.
Qed.
End S3.
Lemma BShape_tab (bl : mat) r c : 1 <= r -> 1 <= c -> BShape bl r c -> exists t, BTab bl r c t.
Proof.
  intros Hr Hc HS. exists (fun p q => nthZ (nthZ bl (p / 52 * nblk c + q / 52)) (p mod 52 * bw c (q / 52) + q mod 52)). split; [exact HS|].
  intros I J x y HI HJ Hx Hy. pose proof (bw_bounds r I Hr HI) as [B1 _]. pose proof (bw_bounds c J Hc HJ) as [B2 _].
  rewrite !Z.div_add_l, !Z.div_small, !Z.add_0_r by lia. replace (I * 52 + x) with (x + I * 52) by lia. replace (J * 52 + y) with (y + J * 52) by lia.
  rewrite !Z.mod_add, !Z.mod_small by lia. reflexivity.
Qed.
Lemma sames_shape (x X0 : mat) r c : sames x X0 -> 1 <= r -> 1 <= c -> BShape X0 r c -> BShape x r c.
Proof.
  intros [E1 E2] Hr Hc [B1 B2]. split; [lia|]. intros I J HI HJ. rewrite E2, B2; auto. rewrite B1. apply lin_range; auto.
Qed.
Lemma goes_sim {A B} (m : M A) h P (k : A -> M B) {D} (u : res D) Q : goes m h P ->
  (forall a h', m h = (Ok a, h') -> P a h' -> sim (k a) u h' Q) -> sim (mbind m k) u h Q.
Proof. intros (a & h' & R & HP) H. unfold sim, mbind. rewrite R. apply H; auto. Qed.
Lemma ref_qrs_matrix h s v b m r c f : MRep h (hqr_qrt s) (qr_qrt v) -> VRep h (hqr_rDiag s) (qr_rDiag v) ->
  (forall q, zget (qr_qrt v) 0 = Ok q -> len (qr_rDiag v) <= Z.min (len q) (len (qr_qrt v))) ->
  HMatIs h b r c f -> library m -> MatIs m r c f ->
  sim (hqrs_SolveMatrix s (qr_threshold v) b) (qrs_SolveMatrix v m) h (fun h' y z => exists g, HMatIs h' y (len (qr_qrt v)) c g /\ MatIs z (len (qr_qrt v)) c g).
Proof.
  intros HM HD HL HX L Hm. destruct (HMat_pos _ _ _ _ _ HX) as [Hr Hc]. destruct (HMat_dims _ _ _ _ _ HX) as [Er _].
  unfold hqrs_SolveMatrix, qrs_SolveMatrix. rewrite (MRep_len _ _ _ HM), Er. pose proof Hm as (_ & Er' & _). rewrite Er'. cbv zeta.
  set (n := len (qr_qrt v)). eapply u_srcrow; [exact HM|apply Ext_refl|]. intros s0 q0 H0 Eq0. rewrite (VRep_len _ _ _ (H0 h (Ext_refl h))).
  specialize (HL _ Eq0). fold n in HL. pose proof (zget_range _ _ _ Eq0) as Hn. fold n in Hn.
  destruct (Z.eqb_spec r (len q0)) as [Erm|]; cbn [negb]; [|reflexivity]. rewrite <- Erm in *.
  eapply sim_bind; [apply ref_check; exact HD|]. intros h1 u1 u2 [-> _].
  eapply front_cols; [exact HX|exact Hm|].
  destruct (createBlocksLayout_spec n c ltac:(lia) Hc) as (X0 & EX & HBT). rewrite EX. cbn [bind].
  eapply goes_sim; [eapply sb_create; [apply Ext_refl|exact EX]|]. intros ox h1 _ (hx & HTX).
  destruct (make2_spec r BLOCK_SIZE ltac:(lia) ltac:(unfold BLOCK_SIZE; lia)) as (Y0 & EY & HRY). rewrite EY. cbn [bind].
  eapply goes_sim; [eapply s2_make2; [apply Ext_refl|exact EY]|]. intros oy h2 _ (hy & HTY).
  assert (EA : make fzero BLOCK_SIZE = Ok (repeat fzero (Z.to_nat BLOCK_SIZE))) by reflexivity. rewrite EA. cbn [bind].
  destruct (runs_makeF h2 h2 BLOCK_SIZE _ (Ext_refl h2) EA) as (oa & h3 & RA & HOA & HEA & EaA & _).
  set (al0 := repeat fzero (Z.to_nat BLOCK_SIZE)) in *. clearbody al0.
  assert (FA : forall A B (k : slice -> M A) (u : res B) Q, sim (k oa) u h3 Q -> sim (mbind (makeF BLOCK_SIZE) k) u h2 Q).
  { intros A B k u Q H. unfold sim, mbind. rewrite RA. exact H. }
  apply FA. clear FA. pose proof (tb_e _ _ _ _ _ HTX) as E01. pose proof (tb_e _ _ _ _ _ HTY) as E12. pose proof (Ext_trans _ _ _ E01 E12) as E02.
  assert (HS : S3 h ox oy oa hx hy X0 Y0 X0 Y0 al0 h3).
  { assert (P1 : forall i s, zget hx i = Ok s -> sl_arr s < len (hf h1)).
    { intros i t Ht. destruct (tb_r _ _ _ _ _ HTX i t Ht) as (q & _ & HR). eapply Row_arr; eauto. }
    assert (P2 : forall i s, zget hy i = Ok s -> s = nilsl \/ len (hf h1) <= sl_arr s < len (hf h2)).
    { intros i t Ht. destruct (tb_r _ _ _ _ _ HTY i t Ht) as (q & _ & HR). pose proof (Row_arr _ _ _ _ HR). destruct HR as [[-> _]|(A & _)]; [left; auto|right; lia]. }
    assert (P3 : forall i s, zget hx i = Ok s -> s = nilsl \/ 0 <= sl_arr s).
    { intros i t Ht. destruct (tb_r _ _ _ _ _ HTX i t Ht) as (q & _ & HR). destruct HR as [[-> _]|(A & _)]; [left; auto|right]. pose proof (len_nonneg (hf h)). lia. }
    destruct HOA as (OA1 & OA2 & OA3). destruct (ext_le _ _ E12) as [LE _].
    split; [split; [eapply Ext_trans; eauto|split; [|split]]|].
    - eapply Tab_later; [eapply Ext_trans; [exact E12|exact HEA]|exact HTX].
    - eapply Tab_later; [exact HEA|]. eapply Tab_base; [exact E01|exact HTY].
    - split; [|split; auto]. destruct (ext_le _ _ E02). lia.
    - split; [split; auto|]. split; [split; auto|]. split; [|split; [|split]].
      + intros i j t t' Ht Ht'. specialize (P1 _ _ Ht). specialize (P2 _ _ Ht'). specialize (P3 _ _ Ht). destruct P3 as [->|P3]; [right; auto|]. destruct P2 as [->|P2]; [left; cbn; lia|left; lia].
      + intros i j t t' Ht Ht'. specialize (P1 _ _ Ht'). specialize (P2 _ _ Ht). destruct P2 as [->|P2]; [right; auto|left; lia].
      + intros i t Ht. specialize (P1 _ _ Ht). left. lia.
      + intros i t Ht. specialize (P2 _ _ Ht). destruct P2 as [->|P2]; [right; auto|left; lia]. }
  assert (LY : len Y0 = r) by apply HRY. assert (LX : len X0 = nblk n * nblk c) by apply HBT.
  rewrite nblk_BLOCK. pose proof (nblk_pos c Hc). pose proof (nblk_spec c Hc).
  eapply sim_bind with (P := fun h' _ p => S3 h ox oy oa hx hy X0 Y0 (snd p) (fst (fst p)) (snd (fst p)) h').
  { apply (sim_loop (fun h' _ p => S3 h ox oy oa hx hy X0 Y0 (snd p) (fst (fst p)) (snd (fst p)) h')); [exact HS|].
    intros k h4 [] [[y4 a4] x4] Hk HS4. cbn [fst snd] in HS4. unfold BLOCK_SIZE.
    eapply sim_bind; [eapply ref_copysub; [exact HX|exact L|exact Hm|exact HS4|lia|lia|lia|lia|lia]|]. intros h5 [] y5 HS5.
    eapply sim_bind; [eapply ref_forward; [exact HM|exact HD|exact HS5|lia]|]. intros h6 [] [y6 a6] HS6. cbn [fst snd] in HS6.
    eapply sim_end_bindr; [eapply ref_backward; [exact HM|exact HD|exact HS6|lia|]|].
    - intros j Hj. rewrite LX. apply lin_range; [|lia]. unfold BLOCK_SIZE. apply blk_of; lia.
    - intros h7 [] [y7 x7] HS7. exact HS7. }
  intros h4 [] [[y4 a4] x4] HS4. cbn [fst snd] in HS4. destruct HS4 as ((He4 & HT4 & _) & SX & _).
  assert (Hn1 : 1 <= n) by lia. destruct (BShape_tab x4 n c Hn1 Hc (sames_shape _ _ _ _ SX Hn1 Hc (proj1 HBT))) as (t & HBt).
  pose proof (FromBlockData_ok x4 n c t ltac:(lia) Hc HBt) as EF. rewrite EF. cbn [orpanic bind].
  destruct (sb_FromBlockData h4 n c ox x4 _ (Tab_MRep _ _ _ _ _ HT4) EF) as (hb & h5 & RF & -> & _ & HBR).
  unfold sim, mbind, mpan. rewrite RF. cbn. exists t. assert (HBI : BIs (mkBlock x4 n c (nblk n) (nblk c)) n c t) by (exists x4; split; [auto|split; [lia|split; auto]]).
  split; [eapply HBlkIs_intro; eauto|apply MatIs_blk; exact HBI].
Qed.

(** ** The inverses *)
Lemma ref_identity h n : sim (mpan (h_NewRealIdentityMatrix n)) (orpanic (NewRealIdentityMatrix n)) h
  (fun h' x m => exists f, HMatIs h' x n n f /\ MatIs m n n f /\ library m /\ Ext h h').
Proof.
  assert (G : sim (h_NewRealIdentityMatrix n) (NewRealIdentityMatrix n) h (fun h' x m => RootI h x n n h' m)).
  { unfold h_NewRealIdentityMatrix, NewRealIdentityMatrix. eapply sim_bind; [apply root_new|]. intros h1 x m HR. cbv beta.
    assert (K : sim (mfor 0 n (fun i (_ : unit) => hm_SetEntry x i i fone) tt) (for_ 0 n (fun i m => m_SetEntry m i i fone) m) h1 (fun h' _ m' => RootI h x n n h' m')).
    { apply (sim_loop (fun h' _ m' => RootI h x n n h' m')); [exact HR|]. intros i h2 [] m2 Hi HR2. apply root_set; auto. }
    unfold sim, mbind, ret in *. destruct (mfor _ _ _ _ h1) as [[[]|e|e] h2], (for_ _ _ _ _) as [m2|e'|e']; auto. }
  unfold sim, mpan, orpanic in *. destruct (h_NewRealIdentityMatrix n h) as [[x|e|e] h1], (NewRealIdentityMatrix n) as [m|e'|e']; auto; try contradiction.
  destruct (RootI_is _ _ _ _ _ _ G) as (f & G1 & G2). exists f. split; [auto|split; [auto|split; [|eapply RootI_ext; eauto]]].
  destruct G as [_ G]. destruct x, m; try contradiction; exact I.
Qed.
Lemma ref_lus_inverse h s v : MRep h (hlu_lu s) (lu_lu v) -> hlu_pivot s = lu_pivot v -> hlu_singular s = lu_singular v ->
  sim (hlus_Inverse s) (lus_Inverse v) h (fun h' y z => exists r c g, HMatIs h' y r c g /\ MatIs z r c g).
Proof.
  intros HM Ep Es. unfold hlus_Inverse, lus_Inverse. rewrite Ep. eapply sim_bind; [apply ref_identity|]. intros h1 x m (f & HX & Hm & L & He).
  eapply sim_imp; [eapply ref_lus_matrix; eauto; eapply MRep_ext; eauto|]. intros h2 y z (g & G). eauto 6.
Qed.
Lemma ref_chs_inverse h t v : MRep h t (ch_lT v) -> ch_m v = len (ch_lT v) ->
  sim (hchs_Inverse t) (chs_Inverse v) h (fun h' y z => exists r c g, HMatIs h' y r c g /\ MatIs z r c g).
Proof.
  intros HM Em. unfold hchs_Inverse, chs_Inverse. rewrite Em, (MRep_len _ _ _ HM). eapply sim_bind; [apply ref_identity|]. intros h1 x m (f & HX & Hm & L & He).
  eapply sim_imp; [eapply ref_chs_matrix; eauto; eapply MRep_ext; eauto|]. intros h2 y z (g & G). eauto 6.
Qed.
Lemma ref_qrs_inverse h s v : MRep h (hqr_qrt s) (qr_qrt v) -> VRep h (hqr_rDiag s) (qr_rDiag v) ->
  (forall q, zget (qr_qrt v) 0 = Ok q -> len (qr_rDiag v) <= Z.min (len q) (len (qr_qrt v))) ->
  sim (hqrs_Inverse s (qr_threshold v)) (qrs_Inverse v) h (fun h' y z => exists r c g, HMatIs h' y r c g /\ MatIs z r c g).
Proof.
  intros HM HD HL. unfold hqrs_Inverse, qrs_Inverse. eapply u_srcrow; [exact HM|apply Ext_refl|]. intros s0 q0 H0 Eq0. rewrite (VRep_len _ _ _ (H0 h (Ext_refl h))).
  eapply sim_bind; [apply ref_identity|]. intros h1 x m (f & HX & Hm & L & He).
  eapply sim_imp; [eapply ref_qrs_matrix; eauto; [eapply MRep_ext|eapply VRep_ext]; eauto|]. intros h2 y z (g & G). eauto 6.
Qed.
End Ref9.

(** Building a decomposition and solving with it, in memory and on values. *)
From Coq Require Import ZArith List Lia Bool.
From Verif Require Import Base BaseLemmas Scalar Vector Matrix VecSpec MatSpec MatFacts Array2D Array2DFacts DiagSpec RealMatrixM MatHist.
From Verif Require Import Heap HeapSpec HeapFacts HeapSim HeapSim2 HeapMain HeapIndep HeapDec HeapAtom HeapDecFacts HeapRefSpec HeapRef HeapRef2 HeapRef3 HeapRef4 HeapRef5 HeapRef6.
From Verif Require Import HeapSolve HeapSolveFacts HeapSolveSpec HeapRef7 HeapRef8 HeapRef9.
From Verif Require Import LU Cholesky QR.
Import ListNotations.
Open Scope Z_scope.

Section Ref10.
Context {O : Ops}.

Lemma sim_keep {A B} (m : M A) (v : res B) h Q P : keeps h h m P -> sim m v h Q -> sim m v h (fun h' a b => Ext h h' /\ Q h' a b).
Proof.
  intros K. unfold sim. destruct (m h) as [r h'] eqn:E. destruct (K h (Ext_refl h) (hle_refl h) _ _ E) as (He & _). destruct r, v; auto.
Qed.
Lemma sim_chain {A B C D} (m : M A) (v : res B) h P K (k : A -> M C) (g : B -> res D) Q : keeps h h m K -> sim m v h P ->
  (forall h' a b, Ext h h' -> P h' a b -> sim (k a) (g b) h' Q) -> sim (mbind m k) (bind v g) h Q.
Proof. intros HK HS H. eapply sim_bind; [eapply sim_keep; eauto|]. intros h' a b [He HP]. apply H; auto. Qed.
Lemma many {A A' B B'} (f : A -> M B) (f' : A' -> res B') (I : A -> A' -> Prop) (Q : heap -> B -> B' -> Prop) h :
  (forall a a' h1, Ext h h1 -> I a a' -> sim (f a) (f' a') h1 Q) -> (forall a h1, exists K, keeps h1 h1 (f a) K) ->
  (forall h1 h2 b b', Ext h1 h2 -> Q h1 b b' -> Q h2 b b') ->
  forall l l' h1, Ext h h1 -> Forall2 I l l' -> sim (mall f l) (rall f' l') h1 (fun h' => Forall2 (Q h')).
Proof.
  intros H1 H2 H3. assert (G : forall l l' h1, Ext h h1 -> Forall2 I l l' -> sim (mall f l) (rall f' l') h1 (fun h' r r' => Ext h1 h' /\ Forall2 (Q h') r r')).
  { induction l as [|a t IH]; intros l' h1 He HF; inversion HF as [|? a' ? t' Ha Ht]; subst; cbn [mall rall].
    - apply sim_ret. split; [apply Ext_refl|constructor].
    - destruct (H2 a h1) as [K HK]. eapply sim_chain; [exact HK|eapply H1; eauto|]. intros h2 b b' He2 HQ.
      eapply sim_bind; [eapply IH; [eapply Ext_trans; eauto|exact Ht]|]. intros h3 r r' [He3 HQ3]. apply sim_ret. split; [eapply Ext_trans; eauto|]. constructor; eauto. }
  intros l l' h1 He HF. eapply sim_imp; [eapply G; eauto|]. cbn. intros h' r r' [_ H]. exact H.
Qed.
Lemma HV_Ext h0 h b n g : Ext h0 h -> HVIs h0 b n g -> HVIs h b n g.
Proof. intros He. destruct b; cbn; auto. intros (l & HV & H). exists l. split; auto. eapply VRep_ext; eauto. Qed.
Lemma MOut_ext h1 h2 x m : Ext h1 h2 -> MOut h1 x m -> MOut h2 x m.
Proof. intros He (r & c & f & A & B). exists r, c, f. split; auto. eapply HMat_Ext; eauto. Qed.

(** ** LU *)
Definition LUR h (a : HLU) (b : LUD) : Prop := MRep h (hlu_lu a) (lu_lu b) /\ hlu_pivot a = lu_pivot b /\ hlu_singular a = lu_singular b.
Lemma build_LU h x r c f m thr A B (k : HLU -> M A) (g : LUD -> res B) Q : HMatIs h x r c f -> library m -> MatIs m r c f ->
  (forall h' a b, Ext h h' -> LUR h' a b -> sim (k a) (g b) h' Q) -> sim (mbind (h_NewLU x thr) k) (bind (NewLUDecompositionWithThreshold m thr) g) h Q.
Proof.
  intros HX L Hm H. eapply sim_chain; [apply kNewLU|eapply ref_LU; eauto|]. cbv beta. intros h' a b He (H1 & H2 & _ & H3). apply H; auto. split; auto.
Qed.
Lemma LUR_ext h h' a b : Ext h h' -> LUR h a b -> LUR h' a b.
Proof. intros He (A & B & C). split; auto. eapply MRep_ext; eauto. Qed.
Lemma all_lu h x m thr bs ws xs ms : MIn h x m -> Forall2 (VIn h) bs ws -> Forall2 (MIn h) xs ms ->
  sim (let! d := h_NewLU x thr in mall (hlus_SolveVector d) bs) (let* d := NewLUDecompositionWithThreshold m thr in rall (lus_SolveVector d) ws) h
    (fun h' => Forall2 (fun s v => VRep h' s (v_data v))) /\
  sim (let! d := h_NewLU x thr in mall (hlus_SolveMatrix d) xs) (let* d := NewLUDecompositionWithThreshold m thr in rall (lus_SolveMatrix d) ms) h
    (fun h' => Forall2 (MOut h')) /\
  sim (let! d := h_NewLU x thr in hlus_Inverse d) (let* d := NewLUDecompositionWithThreshold m thr in lus_Inverse d) h MOut.
Proof.
  intros (r & c & f & HX & L & Hm) HV HM. split; [|split]; (eapply build_LU; [exact HX|exact L|exact Hm|]); intros h' a b He HR.
  - apply many with (I := VIn h) (h := h'); auto using Ext_refl.
    + intros s w h1 He1 (n & g & G1 & G2). destruct HR as (A1 & A2 & A3). eapply ref_lus_vector; eauto; [eapply MRep_ext; eauto|]. eapply HV_Ext; [|exact G1]. eapply Ext_trans; eauto.
    + intros s h1. eexists. apply klus_SolveVector.
    + intros h1 h2 s v He1 G. eapply VRep_ext; eauto.
  - apply many with (I := MIn h) (h := h'); auto using Ext_refl.
    + intros s w h1 He1 (r1 & c1 & g & G1 & G2 & G3). destruct HR as (A1 & A2 & A3). eapply sim_imp; [eapply ref_lus_matrix; eauto; [eapply MRep_ext; eauto|eapply HMat_Ext; [|exact G1]; eapply Ext_trans; eauto]|].
      intros h2 y z (g' & B). exists r1, c1, g'. exact B.
    + intros s h1. eexists. apply klus_SolveMatrix.
    + intros. eapply MOut_ext; eauto.
  - destruct HR as (A1 & A2 & A3). eapply sim_imp; [apply ref_lus_inverse; eauto|]. auto.
Qed.

(** ** Cholesky *)
Lemma ref_Cholesky_m h x r c f m rel pos : HMatIs h x r c f -> library m -> MatIs m r c f ->
  sim (h_NewCholesky x rel pos) (NewCholeskyDecomposition m rel pos) h (fun h' a b => MRep h' a (ch_lT b) /\ ch_m b = len (ch_lT b)).
Proof.
  intros HX Lm Hm. unfold h_NewCholesky, NewCholeskyDecomposition. eapply front_square; eauto. destruct (Z.eqb_spec c r) as [->|N]; cbn [negb].
  - rewrite (proj1 (HMat_dims _ _ _ _ _ HX)). pose proof Hm as (_ & -> & _). eapply front_data; eauto. intros o h1 hd d HS.
    eapply sim_bind; [eapply HeapRef2.ref_check; eauto|]. intros h2 [] d2 H2. eapply sim_bind.
    + apply (sim_loop (fun h' (_ : unit) d' => Str h' o hd d' [] r r)); [exact H2|]. intros i h3 [] d3 Hi H3. apply ref_chstep; auto.
    + intros h3 [] d3 H3. apply sim_ret. cbn. split; [eapply Str_MRep; eauto|]. rewrite (proj1 (sr_r _ _ _ _ _ _ _ HS)), (proj1 (sr_r _ _ _ _ _ _ _ H3)). reflexivity.
  - destruct Hm as (_ & _ & E & _). rewrite E. reflexivity.
Qed.
Lemma all_cholesky h x m rel pos bs ws xs ms : MIn h x m -> Forall2 (VIn h) bs ws -> Forall2 (MIn h) xs ms ->
  sim (let! d := h_NewCholesky x rel pos in mall (hchs_SolveVector d) bs) (let* d := NewCholeskyDecomposition m rel pos in rall (chs_SolveVector d) ws) h
    (fun h' => Forall2 (fun s v => VRep h' s (v_data v))) /\
  sim (let! d := h_NewCholesky x rel pos in mall (hchs_SolveMatrix d) xs) (let* d := NewCholeskyDecomposition m rel pos in rall (chs_SolveMatrix d) ms) h
    (fun h' => Forall2 (MOut h')) /\
  sim (let! d := h_NewCholesky x rel pos in hchs_Inverse d) (let* d := NewCholeskyDecomposition m rel pos in chs_Inverse d) h MOut.
Proof.
  intros (r & c & f & HX & L & Hm) HV HM. split; [|split]; (eapply sim_chain; [apply kNewCholesky|eapply ref_Cholesky_m; eauto|]); cbv beta; intros h' a b He [HR Em].
  - apply many with (I := VIn h) (h := h'); auto using Ext_refl.
    + intros s w h1 He1 (n & g & G1 & G2). eapply ref_chs_vector; eauto; [eapply MRep_ext; eauto|]. eapply HV_Ext; [|exact G1]. eapply Ext_trans; eauto.
    + intros s h1. eexists. apply kchs_SolveVector.
    + intros h1 h2 s v He1 G. eapply VRep_ext; eauto.
  - apply many with (I := MIn h) (h := h'); auto using Ext_refl.
    + intros s w h1 He1 (r1 & c1 & g & G1 & G2 & G3). eapply sim_imp; [eapply ref_chs_matrix; eauto; [eapply MRep_ext; eauto|eapply HMat_Ext; [|exact G1]; eapply Ext_trans; eauto]|].
      intros h2 y z (g' & B). exists r1, c1, g'. exact B.
    + intros s h1. eexists. apply kchs_SolveMatrix.
    + intros. eapply MOut_ext; eauto.
  - eapply sim_imp; [apply ref_chs_inverse; eauto|]. auto.
Qed.

(** ** QR *)
Lemma ref_QR_m h x r c f m thr : zero_like fzero -> HMatIs h x r c f -> library m -> MatIs m r c f ->
  sim (h_NewQR x) (NewQRDecompositionWithThreshold m thr) h (fun h' a b => MRep h' (hqr_qrt a) (qr_qrt b) /\ VRep h' (hqr_rDiag a) (qr_rDiag b) /\
    qr_threshold b = thr /\ forall q, zget (qr_qrt b) 0 = Ok q -> len (qr_rDiag b) <= Z.min (len q) (len (qr_qrt b))).
Proof.
  intros Hz HX Lm Hm. unfold h_NewQR, NewQRDecompositionWithThreshold. cbv zeta. pose proof (HMat_pos _ _ _ _ _ HX) as [Hr Hc]. rewrite (proj1 (HMat_dims _ _ _ _ _ HX)). pose proof Hm as (_ & -> & _).
  eapply front_cols; eauto. eapply front_transpose; eauto. intros o h1 hd d HS. eapply s_make; [exact HS|lia|]. intros z h2 q H2 L2 _. cbn [app] in H2. st.
  destruct (Str_collen _ _ _ _ _ _ _ _ _ H2 Hs) as (E1 & q0 & E2 & E3). rewrite E2. cbn [bind]. rewrite E1, E3, (Str_len _ _ _ _ _ _ _ H2), (proj1 (sr_r _ _ _ _ _ _ _ H2)).
  eapply sim_bind.
  - apply (sim_loop (QRI o hd z c r (Z.min r c))); [split; auto|]. intros k h3 [] b3 Hk H3. apply ref_qrreflect; auto; lia.
  - intros h3 [] [d3 q3] [H3 L3]. apply sim_ret. cbn in *. split; [eapply Str_MRep; eauto|]. split; [apply Who_VRep; eapply (sr_x _ _ _ _ _ _ _ H3 0%nat); reflexivity|].
    split; [reflexivity|]. intros p Ep. pose proof (sr_r _ _ _ _ _ _ _ H3) as [R1 R2]. rewrite L3, R1. rewrite zget_ok in Ep by lia. injection Ep as <-. rewrite R2 by lia. lia.
Qed.
Lemma all_qr h x m thr bs ws xs ms : zero_like fzero -> MIn h x m -> Forall2 (VIn h) bs ws -> Forall2 (MIn h) xs ms ->
  sim (let! d := h_NewQR x in mall (hqrs_SolveVector d thr) bs) (let* d := NewQRDecompositionWithThreshold m thr in rall (qrs_SolveVector d) ws) h
    (fun h' => Forall2 (fun s v => VRep h' s (v_data v))) /\
  sim (let! d := h_NewQR x in mall (hqrs_SolveMatrix d thr) xs) (let* d := NewQRDecompositionWithThreshold m thr in rall (qrs_SolveMatrix d) ms) h
    (fun h' => Forall2 (MOut h')) /\
  sim (let! d := h_NewQR x in hqrs_Inverse d thr) (let* d := NewQRDecompositionWithThreshold m thr in qrs_Inverse d) h MOut.
Proof.
  intros Hz (r & c & f & HX & L & Hm) HV HM. split; [|split]; (eapply sim_chain; [apply kNewQR|eapply ref_QR_m; eauto|]); cbv beta; intros h' a b He (HR & HD & <- & HL).
  - apply many with (I := VIn h) (h := h'); auto using Ext_refl.
    + intros s w h1 He1 (n & g & G1 & G2). eapply ref_qrs_vector; eauto; [eapply MRep_ext; eauto|eapply VRep_ext; eauto|]. eapply HV_Ext; [|exact G1]. eapply Ext_trans; eauto.
    + intros s h1. eexists. apply kqrs_SolveVector.
    + intros h1 h2 s v He1 G. eapply VRep_ext; eauto.
  - apply many with (I := MIn h) (h := h'); auto using Ext_refl.
    + intros s w h1 He1 (r1 & c1 & g & G1 & G2 & G3). eapply sim_imp; [eapply ref_qrs_matrix; eauto; [eapply MRep_ext; eauto|eapply VRep_ext; eauto|eapply HMat_Ext; [|exact G1]; eapply Ext_trans; eauto]|].
      intros h2 y z (g' & B). eexists _, _, g'. exact B.
    + intros s h1. eexists. apply kqrs_SolveMatrix.
    + intros. eapply MOut_ext; eauto.
  - eapply sim_imp; [apply ref_qrs_inverse; eauto|]. auto.
Qed.

(** ** Two memories *)
Lemma HV_value h b n g : HVIs h b n g -> exists w, VecIs w n g.
Proof.
  intros H. assert (G : exists l, len l = n /\ forall j, 0 <= j < n -> zget l j = Ok (g j)).
  { destruct b as [s|d]; cbn in H; [destruct H as (l & _ & H)|]; eauto. }
  destruct G as (l & El & G). exists (VArr l). apply VTab_VecIs. split; [exact El|]. intros i Hi. specialize (G i Hi). rewrite zget_ok in G by lia. congruence.
Qed.
Lemma VBoth_values h h' bs bs' : Forall2 (VBoth h h') bs bs' -> exists ws, Forall2 (VIn h) bs ws /\ Forall2 (VIn h') bs' ws.
Proof.
  induction 1 as [|b b' l l' (n & g & G1 & G2) _ (ws & IH1 & IH2)]; [exists []; split; constructor|].
  destruct (HV_value _ _ _ _ G1) as (w & Hw). exists (w :: ws). split; constructor; auto; exists n, g; auto.
Qed.
Lemma MBoth_value h h' x x' : MBoth h h' x x' -> exists m, MIn h x m /\ MIn h' x' m.
Proof. intros (r & c & f & G1 & G2). destruct (HMat_value _ _ _ _ _ G1) as (m & Lm & Hm). exists m. split; exists r, c, f; auto. Qed.
Lemma MBoth_values h h' xs xs' : Forall2 (MBoth h h') xs xs' -> exists ms, Forall2 (MIn h) xs ms /\ Forall2 (MIn h') xs' ms.
Proof.
  induction 1 as [|b b' l l' G _ (ws & IH1 & IH2)]; [exists []; split; constructor|].
  destruct (MBoth_value _ _ _ _ G) as (w & A & B). exists (w :: ws). split; constructor; auto.
Qed.
Lemma V_same k k' ss ss' (vs : list RealVector) : Forall2 (fun s v => VRep k s (v_data v)) ss vs -> Forall2 (fun s v => VRep k' s (v_data v)) ss' vs ->
  Forall2 (fun s s' => view k (OF s) = view k' (OF s')) ss ss'.
Proof.
  intros H. revert ss'. induction H as [|s v l l' A _ IH]; intros ss' H'; inversion H' as [|s' ? t' ? B C]; subst; constructor; auto.
  rewrite (VRep_view _ _ _ A), (VRep_view _ _ _ B). reflexivity.
Qed.
Lemma M_same k k' y y' z : MOut k y z -> MOut k' y' z -> MBoth k k' y y'.
Proof.
  intros (r & c & f & A1 & A2) (r' & c' & f' & B1 & B2). destruct A2 as (_ & E1 & E2 & E3 & _), B2 as (_ & F1 & F2 & F3 & _).
  assert (Er : r' = r) by congruence. assert (Ec : c' = c) by congruence. rewrite Er, Ec in *. exists r, c, f. split; auto. eapply HMat_ext; [|exact B1].
  intros i j Hi Hj. specialize (E3 i j Hi Hj). specialize (F3 i j Hi Hj). congruence.
Qed.
Lemma Ms_same k k' ys ys' zs : Forall2 (MOut k) ys zs -> Forall2 (MOut k') ys' zs -> Forall2 (MBoth k k') ys ys'.
Proof.
  intros H. revert ys'. induction H as [|s v l l' A _ IH]; intros ys' H'; inversion H' as [|s' ? t' ? B C]; subst; constructor; auto.
  eapply M_same; eauto.
Qed.
Lemma same_solutions h h' x x' bs bs' xs xs' : MBoth h h' x x' -> Forall2 (VBoth h h') bs bs' -> Forall2 (MBoth h h') xs xs' ->
  let V k ss k' ss' := Forall2 (fun s s' => view k (OF s) = view k' (OF s')) ss ss' in
  let Ms k ys k' ys' := Forall2 (MBoth k k') ys ys' in
  let Mo k y k' y' := MBoth k k' y y' in
  (forall thr,
    alike (let! d := h_NewLU x thr in mall (hlus_SolveVector d) bs) h (let! d := h_NewLU x' thr in mall (hlus_SolveVector d) bs') h' V /\
    alike (let! d := h_NewLU x thr in mall (hlus_SolveMatrix d) xs) h (let! d := h_NewLU x' thr in mall (hlus_SolveMatrix d) xs') h' Ms /\
    alike (let! d := h_NewLU x thr in hlus_Inverse d) h (let! d := h_NewLU x' thr in hlus_Inverse d) h' Mo) /\
  (forall rel pos,
    alike (let! d := h_NewCholesky x rel pos in mall (hchs_SolveVector d) bs) h (let! d := h_NewCholesky x' rel pos in mall (hchs_SolveVector d) bs') h' V /\
    alike (let! d := h_NewCholesky x rel pos in mall (hchs_SolveMatrix d) xs) h (let! d := h_NewCholesky x' rel pos in mall (hchs_SolveMatrix d) xs') h' Ms /\
    alike (let! d := h_NewCholesky x rel pos in hchs_Inverse d) h (let! d := h_NewCholesky x' rel pos in hchs_Inverse d) h' Mo) /\
  (zero_like fzero -> forall thr,
    alike (let! d := h_NewQR x in mall (hqrs_SolveVector d thr) bs) h (let! d := h_NewQR x' in mall (hqrs_SolveVector d thr) bs') h' V /\
    alike (let! d := h_NewQR x in mall (hqrs_SolveMatrix d thr) xs) h (let! d := h_NewQR x' in mall (hqrs_SolveMatrix d thr) xs') h' Ms /\
    alike (let! d := h_NewQR x in hqrs_Inverse d thr) h (let! d := h_NewQR x' in hqrs_Inverse d thr) h' Mo).
Proof.
  intros HX HV HM. destruct (MBoth_value _ _ _ _ HX) as (m & A1 & A2). destruct (VBoth_values _ _ _ _ HV) as (ws & B1 & B2). destruct (MBoth_values _ _ _ _ HM) as (ms & C1 & C2).
  cbv zeta. split; [|split].
  - intros thr. destruct (all_lu h x m thr bs ws xs ms A1 B1 C1) as (P1 & P2 & P3). destruct (all_lu h' x' m thr bs' ws xs' ms A2 B2 C2) as (Q1 & Q2 & Q3).
    split; [|split]; (eapply sim_alike; [eassumption|eassumption|]); cbv beta; intros; [eapply V_same|eapply Ms_same|eapply M_same]; eauto.
  - intros rel pos. destruct (all_cholesky h x m rel pos bs ws xs ms A1 B1 C1) as (P1 & P2 & P3). destruct (all_cholesky h' x' m rel pos bs' ws xs' ms A2 B2 C2) as (Q1 & Q2 & Q3).
    split; [|split]; (eapply sim_alike; [eassumption|eassumption|]); cbv beta; intros; [eapply V_same|eapply Ms_same|eapply M_same]; eauto.
  - intros Hz thr. destruct (all_qr h x m thr bs ws xs ms Hz A1 B1 C1) as (P1 & P2 & P3). destruct (all_qr h' x' m thr bs' ws xs' ms Hz A2 B2 C2) as (Q1 & Q2 & Q3).
    split; [|split]; (eapply sim_alike; [eassumption|eassumption|]); cbv beta; intros; [eapply V_same|eapply Ms_same|eapply M_same]; eauto.
Qed.
End Ref10.

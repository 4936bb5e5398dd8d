(** The solvers of HeapSolve.v and those of LU.v, Cholesky.v and QR.v, on
    matrices. *)
From Coq Require Import ZArith List Lia Bool.
From Verif Require Import Base BaseLemmas Scalar Vector Matrix VecSpec MatSpec MatFacts Array2D Array2DFacts BlockM BlockFacts BlockFacts2 Diagonal DiagFacts RealMatrixM MatrixOps MatHist.
From Verif Require Import Heap HeapSpec HeapFacts HeapSim HeapSim2 HeapSim3 HeapSim4 HeapMain HeapDec HeapAtom HeapRefSpec HeapRef HeapRef2 HeapRef3 HeapRef4 HeapRef5 HeapSolve HeapRef7.
From Verif Require Import LU Cholesky QR.
Import ListNotations.
Open Scope Z_scope.

Section Ref8.
Context {O : Ops}.

(** ** The right-hand side *)
Lemma HMat_Ext h0 h x r c f : Ext h0 h -> HMatIs h0 x r c f -> HMatIs h x r c f.
Proof.
  intros He. destruct x as [a|s|b]; cbn [HMatIs].
  - intros (A & B & C & d & HM & H). split; [auto|split; [auto|split; auto]]. exists d. split; auto. eapply MRep_ext; eauto.
  - intros (A & B & g & (l & HV & H) & H'). split; [auto|split; auto]. exists g. split; auto. exists l. split; auto. eapply VRep_ext; eauto.
  - intros (bl & HM & H). exists bl. split; auto. eapply MRep_ext; eauto.
Qed.
Lemma library_At m r c f i j : library m -> MatIs m r c f -> ~ (0 <= i < r /\ 0 <= j < c) -> m_At m i j = Panic EOutOfRange.
Proof.
  intros L (V & E1 & E2 & _) N. assert (G : checkMatrixIndex m i j = Err EOutOfRange).
  { unfold checkMatrixIndex, checkRowIndex, checkColumnIndex. rewrite E1, E2. cbn [bind].
    destruct (Z.ltb_spec i 0); cbn; [reflexivity|]. destruct (Z.leb_spec r i); cbn; [reflexivity|]. destruct (Z.ltb_spec j 0); cbn; [reflexivity|]. destruct (Z.leb_spec c j); cbn; [reflexivity|lia]. }
  destruct m as [a|b|d|]; try contradiction; cbn [m_At].
  - unfold a2_At. rewrite G. reflexivity.
  - unfold b_At. rewrite G. reflexivity.
  - unfold d_At. rewrite G. reflexivity.
Qed.
Lemma HMat_At h x r c f i j : HMatIs h x r c f -> hm_At x i j h = if inb i r && inb j c then (Ok (f i j), h) else (Panic EOutOfRange, h).
Proof.
  intros HX. destruct (HMat_dims _ _ _ _ _ HX) as [E1 E2]. destruct (inb_dec i r) as [[Hi Ei]|[Ni Ei]], (inb_dec j c) as [[Hj Ej]|[Nj Ej]]; rewrite Ei, Ej; cbn [andb].
  - destruct x as [a|s|b]; cbn [HMatIs hm_At] in *.
    + eapply m2_At; eauto.
    + destruct HX as (-> & _ & g & HV & Hg). rewrite (md_At _ _ _ _ _ _ HV Hi Hj), Hg; auto.
    + eapply mb_At; eauto.
  - destruct x as [a|s|b]; cbn [hm_At hm_rows hm_cols] in *.
    + unfold h2_At, h2_ck, h2_ckrow, h2_ckcol, mbind. rewrite E1, Ei. unfold ret, mpanic. destruct (j <? 0) eqn:Q; [reflexivity|]. unfold mbind. rewrite E2. replace (c <=? j) with true by lia. reflexivity.
    + unfold hd_At, hcheck, mbind. unfold ret in E2. injection E2 as E2. rewrite E1, Ei. unfold ret. destruct HX as (-> & _). rewrite Ej. reflexivity.
    + unfold hb_At, hb_ckrow, hb_ckcol, mbind. unfold ret in E2. injection E2 as E2. rewrite E1, Ei, E2, Ej. reflexivity.
  - destruct x as [a|s|b]; cbn [hm_At hm_rows hm_cols] in *.
    + unfold h2_At, h2_ck, h2_ckrow, mbind. rewrite E1, Ei. reflexivity.
    + unfold hd_At, hcheck, mbind. rewrite E1, Ei. reflexivity.
    + unfold hb_At, hb_ckrow, mbind. rewrite E1, Ei. reflexivity.
  - destruct x as [a|s|b]; cbn [hm_At hm_rows hm_cols] in *.
    + unfold h2_At, h2_ck, h2_ckrow, mbind. rewrite E1, Ei. reflexivity.
    + unfold hd_At, hcheck, mbind. rewrite E1, Ei. reflexivity.
    + unfold hb_At, hb_ckrow, mbind. rewrite E1, Ei. reflexivity.
Qed.
Lemma u_mAt {A B} h x m r c e i j (f : F -> M A) (g : F -> res B) Q : HMatIs h x r c e -> library m -> MatIs m r c e ->
  (forall v, sim (f v) (g v) h Q) -> sim (mbind (hm_At x i j) f) (bind (m_At m i j) g) h Q.
Proof.
  intros HX L Hm H. unfold sim, mbind. rewrite (HMat_At _ _ _ _ _ i j HX).
  destruct (inb_dec i r) as [[Hi Ei]|[Ni Ei]], (inb_dec j c) as [[Hj Ej]|[Nj Ej]]; rewrite Ei, Ej; cbn [andb].
  1: { destruct Hm as (_ & _ & _ & E & _). rewrite (E i j Hi Hj). cbn [bind]. apply H. }
  all: rewrite (library_At m r c e i j L Hm) by lia; reflexivity.
Qed.

(** ** A table made by the call *)
Lemma sim_end_bindr {A B D} (m : M A) (v : res B) h (P : heap -> A -> B -> Prop) (g : B -> res D) (Q : heap -> A -> D -> Prop) :
  sim m v h P -> (forall h' a b, P h' a b -> match g b with Ok d => Q h' a d | _ => False end) -> sim m (bind v g) h Q.
Proof. unfold sim. destruct (m h) as [[a|e|e] h'], v as [b|e'|e']; cbn [bind]; auto; try contradiction. intros H G. specialize (G _ _ _ H). destruct (g b); auto; contradiction. Qed.
Lemma Tab_hd h0 h o hd d i s : Tab h0 h o hd d -> zget hd i = Ok s -> exists q, zget d i = Ok q /\ VRep h s q /\ AtRow h0 h o hd d i s q.
Proof. intros HT Hs. destruct (tb_r _ _ _ _ _ HT i s Hs) as (q & Eq & HR). exists q. split; auto. split; [eapply Row_VRep; eauto|]. split; auto. Qed.
Lemma t_rdS {A B} h0 h o hd d i (f : slice -> M A) (v : res B) Q : Tab h0 h o hd d -> 0 <= i < len d ->
  (forall s, zget hd i = Ok s -> sim (f s) v h Q) -> sim (mbind (rdS o i) f) v h Q.
Proof.
  intros HT Hi H. destruct (zget_some d i Hi) as (q & Eq). destruct (Tab_rdS _ _ _ _ _ _ _ HT Eq) as (s & R & HA). unfold sim, mbind. rewrite R. apply H. apply HA.
Qed.
Lemma t_rd {A B} h0 h o hd d i j s (f : F -> M A) (g : F -> res B) Q : Tab h0 h o hd d -> zget hd i = Ok s ->
  (forall x, mget d i j = Ok x -> sim (f x) (g x) h Q) -> sim (mbind (rdF s j) f) (bind (mget d i j) g) h Q.
Proof.
  intros HT Hs H. destruct (Tab_hd _ _ _ _ _ _ _ HT Hs) as (q & Eq & HV & _). rewrite (mget_row _ _ _ _ Eq) in *. eapply u_rd; eauto.
Qed.
Lemma AtRow_end h0 h o hd d i s q j x : AtRow h0 h o hd d i s q ->
  sim (wrF s j x) (zset q j x) h (fun h' _ q' => AtRow h0 h' o hd (upd d i q') i s q' /\ len q' = len q).
Proof.
  intros HA. destruct (zset q j x) as [q'|e|e] eqn:Ez.
  - destruct (AtRow_wrF _ _ _ _ _ _ _ _ _ _ _ HA Ez) as (h' & R & HA'). unfold sim. rewrite R. split; auto. apply zset_inv in Ez. destruct Ez as [_ ->]. apply len_upd.
  - unfold zset in Ez. destruct (inb j (len q)); discriminate.
  - unfold zset in Ez. destruct (inb j (len q)) eqn:Ej; [discriminate|]. injection Ez as <-. unfold sim, wrF.
    pose proof (VRep_len _ _ _ (Row_VRep _ _ _ _ (AtRow_Row _ _ _ _ _ _ _ _ HA))) as E. rewrite E, Ej. reflexivity.
Qed.
Definition TabR h0 o hd (r c : Z) (h : heap) (d : mat) : Prop := Tab h0 h o hd d /\ rect d r c.
Lemma rect_upd (d : mat) r c i q q' : rect d r c -> zget d i = Ok q -> len q' = len q -> rect (upd d i q') r c.
Proof.
  intros [E1 E2] Eq L. pose proof (zget_range _ _ _ Eq) as Hi. split; [rewrite len_upd; auto|]. intros k Hk. rewrite nthZ_upd by lia. destruct (Z.eqb_spec i k).
  - rewrite L. rewrite zget_ok in Eq by lia. injection Eq as <-. apply E2. lia.
  - apply E2. auto.
Qed.
Lemma t_wr h0 o hd r c h d i j s x : TabR h0 o hd r c h d -> zget hd i = Ok s ->
  sim (wrF s j x) (mset d i j x) h (fun h' _ d' => TabR h0 o hd r c h' d').
Proof.
  intros [HT HR] Hs. destruct (Tab_hd _ _ _ _ _ _ _ HT Hs) as (q & Eq & _ & HA). unfold mset. rewrite Eq. cbn [bind].
  pose proof (zget_range _ _ _ Eq) as Hi.
  pose proof (AtRow_end _ _ _ _ _ _ _ _ j x HA) as G. unfold sim in *. destruct (wrF s j x h) as [[[]|e|e] h'], (zset q j x) as [q'|e'|e']; cbn [bind]; try contradiction; auto.
  rewrite zset_ok by auto. destruct G as [G L]. split; [apply G|]. eapply rect_upd; eauto.
Qed.
Lemma ref_row_sub h0 o hd r c h d n i k si sk l : TabR h0 o hd r c h d -> zget hd i = Ok si -> zget hd k = Ok sk ->
  sim (hrow_sub n si sk l) (for_ 0 n (fun j d => let* x := mget d i j in let* y := mget d k j in mset d i j (x - y * l)%f) d) h
    (fun h' _ d' => TabR h0 o hd r c h' d').
Proof.
  intros HT Hi Hk. apply (sim_loop (fun h' _ d' => TabR h0 o hd r c h' d')); [exact HT|]. intros j h1 [] d1 _ HT1.
  eapply t_rd; [apply HT1|exact Hi|]. intros x _. eapply t_rd; [apply HT1|exact Hk|]. intros y _. eapply t_wr; eauto.
Qed.
Lemma ref_row_div h0 o hd r c h d n k sk u : TabR h0 o hd r c h d -> zget hd k = Ok sk ->
  sim (hrow_div n sk u) (for_ 0 n (fun j d => let* x := mget d k j in mset d k j (x / u)%f) d) h
    (fun h' _ d' => TabR h0 o hd r c h' d').
Proof.
  intros HT Hk. apply (sim_loop (fun h' _ d' => TabR h0 o hd r c h' d')); [exact HT|]. intros j h1 [] d1 _ HT1.
  eapply t_rd; [apply HT1|exact Hk|]. intros x _. eapply t_wr; eauto.
Qed.
Lemma ref_copyIn h0 o hd r c h d : TabR h0 o hd r c h d -> 1 <= r -> 1 <= c ->
  sim (mbind (h2_copyIn o) (fun a => ret (HA a))) (let* a := a2_copyIn (mkA2D None) (Some d) in Ok (MArr a)) h
    (fun h' x m => exists g, HMatIs h' x r c g /\ MatIs m r c g).
Proof.
  intros [HT HR] Hr Hc. assert (HRT : RTab d r c (fun i j => nthZ (nthZ d i) j)) by (split; auto).
  pose proof (a2_copyIn_spec d r c _ Hr Hc HRT) as (a & Ea & Hm). rewrite Ea. cbn [bind].
  pose proof Hm as Hm'. apply MatIs_arr_inv in Hm'. destruct Hm' as (d' & -> & _ & _ & HR').
  assert (Hn : isnil o = false).
  { unfold isnil. apply Z.eqb_neq. pose proof (tb_a _ _ _ _ _ HT). pose proof (len_nonneg (hs h0)). lia. }
  destruct (s2_copyIn h o d d' Hn (Tab_MRep _ _ _ _ _ HT) Ea) as (o' & h' & R & HT').
  unfold sim, mbind. rewrite R. cbn. exists (fun i j => nthZ (nthZ d i) j). split; auto.
  destruct HT' as (hd' & HT'). split; [|split; [auto|split; auto]].
  - pose proof (tb_a _ _ _ _ _ HT'). pose proof (len_nonneg (hs h)). lia.
  - exists d'. split; [eapply Tab_MRep; eauto|]. destruct HR' as [HR1 HR2]. split; auto. intros i j Hi Hj. rewrite (mget_ok _ _ _ _ _ HR1 Hi Hj), HR2; auto.
Qed.
(** ** LU *)
Lemma ref_lus_matrix h s v x m r c f : MRep h (hlu_lu s) (lu_lu v) -> hlu_pivot s = lu_pivot v -> hlu_singular s = lu_singular v ->
  HMatIs h x r c f -> library m -> MatIs m r c f ->
  sim (hlus_SolveMatrix s x) (lus_SolveMatrix v m) h (fun h' y z => exists g, HMatIs h' y r c g /\ MatIs z r c g).
Proof.
  intros HM Ep Es HX L Hm. destruct (HMat_pos _ _ _ _ _ HX) as [Hr Hc]. destruct (HMat_dims _ _ _ _ _ HX) as [Er _].
  unfold hlus_SolveMatrix, lus_SolveMatrix. rewrite Ep, Es, Er. pose proof Hm as (_ & Er' & _). rewrite Er'.
  destruct (Z.eqb_spec r (len (lu_pivot v))) as [Erm|]; cbn [negb]; [|reflexivity]. rewrite <- Erm. destruct (lu_singular v); [reflexivity|].
  eapply front_cols; [exact HX|exact Hm|].
  assert (Em : make (@nil F) r = Ok (repeat [] (Z.to_nat r))) by (unfold make; destruct (Z.ltb_spec r 0); [lia|reflexivity]).
  rewrite Em. cbn [bind]. destruct (runs_makeS h h r _ (Ext_refl h) Em) as (bp & hd0 & h1 & R & HT0).
  assert (R' : forall A (k : slice -> M A) B (u : res B) Q, sim (k bp) u h1 Q -> sim (mbind (makeS r) k) u h Q).
  { intros A k B u Q H. unfold sim, mbind. rewrite R. exact H. }
  apply R'. clear R'.
  eapply sim_bind with (P := fun h' _ d => exists hd, TabR h bp hd r c h' d).
  { eapply sim_imp.
    - apply (sim_for (fun i h' _ d => exists hd, Tab h h' bp hd d /\ len d = r /\ forall k, 0 <= k < i -> len (nthZ d k) = c)).
      + lia.
      + exists hd0. split; [exact HT0|]. split; [unfold len; rewrite repeat_length; lia|]. intros; lia.
      + intros i h2 [] d Hi (hd & HT & El & Hk).
        assert (Ef : make fzero c = Ok (repeat fzero (Z.to_nat c))) by (unfold make; destruct (Z.ltb_spec c 0); [lia|reflexivity]).
        rewrite Ef. cbn [bind]. destruct (Tab_row _ _ _ _ _ _ _ i HT Ef ltac:(lia)) as (sr & ha & hb & hd' & R1 & R2 & R3 & HA).
        assert (R' : forall A (k : slice -> M A) B (u : res B) Q, sim (k sr) u hb Q ->
          sim (mbind (makeF c) (fun r0 => mbind (wrS bp i r0) (fun _ => mbind (rdS bp i) k))) u h2 Q).
        { intros A k B u Q H. unfold sim, mbind. rewrite R1, R2, R3. exact H. }
        apply R'. clear R'. apply sim_pure. intros p _.
        eapply (sim_end_bindr).
        * apply (sim_loop (fun h' _ q => AtRow h h' bp hd' (upd d i q) i sr q /\ len q = c)).
          -- split; [exact HA|]. unfold len. rewrite repeat_length. lia.
          -- intros j h3 [] q _ [HA3 L3]. eapply u_mAt; [eapply HMat_Ext; [apply HA3|exact HX]|exact L|exact Hm|]. intros y.
             eapply sim_imp; [apply AtRow_end; exact HA3|]. intros h4 [] q' [HA4 L4]. rewrite HeapSim.upd_upd in HA4. split; [exact HA4|lia].
        * intros h3 [] q [HA3 L3]. rewrite zset_ok by lia. exists hd'. split; [apply HA3|]. split; [rewrite len_upd; auto|].
          intros k Hk'. rewrite nthZ_upd by lia. destruct (Z.eqb_spec i k); [auto|apply Hk; lia].
    - intros h' [] d (hd & HT & El & Hk). exists hd. split; [exact HT|]. split; auto. }
  intros h2 [] d2 (hd & HT2). eapply sim_bind with (P := fun h' _ d => TabR h bp hd r c h' d).
  { apply (sim_loop (fun h' _ d => TabR h bp hd r c h' d)); [exact HT2|]. intros col h3 [] d3 Hcol HT3.
    eapply t_rdS; [apply HT3|destruct HT3 as [_ [-> _]]; lia|]. intros sc Hsc.
    apply (sim_loop (fun h' _ d => TabR h bp hd r c h' d)); [exact HT3|]. intros i h4 [] d4 Hi HT4.
    eapply t_rdS; [apply HT4|destruct HT4 as [_ [-> _]]; lia|]. intros si Hsi.
    eapply u_rd2; [eapply MRep_ext; [apply HT4|exact HM]|]. intros l _. apply ref_row_sub; auto. }
  intros h3 [] d3 HT3. eapply sim_bind with (P := fun h' _ d => TabR h bp hd r c h' d).
  { apply (sim_down (fun h' _ d => TabR h bp hd r c h' d)); [exact HT3|]. intros col h4 [] d4 Hcol HT4.
    eapply t_rdS; [apply HT4|destruct HT4 as [_ [-> _]]; lia|]. intros sc Hsc.
    eapply u_rd2; [eapply MRep_ext; [apply HT4|exact HM]|]. intros u _.
    eapply sim_bind; [apply ref_row_div; [exact HT4|exact Hsc]|]. intros h5 [] d5 HT5.
    apply (sim_loop (fun h' _ d => TabR h bp hd r c h' d)); [exact HT5|]. intros i h6 [] d6 Hi HT6.
    eapply t_rdS; [apply HT6|destruct HT6 as [_ [-> _]]; lia|]. intros si Hsi.
    eapply u_rd2; [eapply MRep_ext; [apply HT6|exact HM]|]. intros l _. apply ref_row_sub; auto. }
  intros h4 [] d4 HT4. eapply ref_copyIn; eauto.
Qed.
(** ** Cholesky *)
Lemma HMat_dataE h x r c f : HMatIs h x r c f -> exists o h' hd d, hm_Data x h = (Ok o, h') /\ Tab h h' o hd d /\ RTab d r c f.
Proof.
  intros H. destruct (HMat_pos _ _ _ _ _ H) as [Hr Hc].
  assert (G : exists o h' d, hm_Data x h = (Ok o, h') /\ TabE h o d h' /\ RTab d r c f).
  { destruct x as [a|s|b]; cbn [HMatIs hm_Data] in *.
    - destruct (HTab_elim _ _ _ _ _ H) as (d & HA & HM & _). destruct (a2_copyOut_spec _ _ _ _ HM) as (d' & E & HT).
      destruct (s2_copyOut _ _ _ _ HA E) as (o & h' & R & HTo). exists o, h', d'. auto.
    - destruct H as (-> & _ & g & HV & Hf). destruct (HVecIs_elim _ _ _ _ HV) as (l & HVR & HT). destruct (d_Data_spec (mkDiag l) c g HT) as (d & E & HR).
      destruct (sd_Data _ _ _ _ HVR E) as (o & h' & R & HTo). exists o, h', d. split; [exact R|]. split; [exact HTo|]. eapply RTab_ext; [exact HR|]. intros i j Hi Hj. rewrite Hf by auto. reflexivity.
    - destruct (HBlkIs_elim _ _ _ _ _ H) as (v & HB & HI). destruct (b_Data_spec _ _ _ _ HI) as (d & E & HR).
      destruct (sb_Data _ _ _ _ HB E) as (o & h' & R & HTo). exists o, h', d. auto. }
  destruct G as (o & h' & d & R & (hd & HT) & HR). eauto 8.
Qed.
Lemma ref_chs_matrix h t v x m r c f : MRep h t (ch_lT v) -> ch_m v = len (ch_lT v) ->
  HMatIs h x r c f -> library m -> MatIs m r c f ->
  sim (hchs_SolveMatrix t x) (chs_SolveMatrix v m) h (fun h' y z => exists g, HMatIs h' y r c g /\ MatIs z r c g).
Proof.
  intros HM Em HX L Hm. destruct (HMat_pos _ _ _ _ _ HX) as [Hr Hc]. destruct (HMat_dims _ _ _ _ _ HX) as [Er _].
  unfold hchs_SolveMatrix, chs_SolveMatrix. rewrite Em, (MRep_len _ _ _ HM), Er. pose proof Hm as (_ & Er' & _). rewrite Er'.
  destruct (Z.eqb_spec r (len (ch_lT v))) as [Erm|]; cbn [negb]; [|reflexivity].
  eapply front_cols; [exact HX|exact Hm|].
  destruct (HMat_dataE _ _ _ _ _ HX) as (o & h1 & hd & d1 & R & HT0 & HR). destruct (m_Data_ok m r c f L Hm) as (d' & -> & HR').
  rewrite (RTab_unique _ _ _ _ _ HR' HR). cbn [bind].
  assert (R' : forall A (k : slice -> M A) B (u : res B) Q, sim (k o) u h1 Q -> sim (mbind (hm_Data x) k) u h Q).
  { intros A k B u Q H. unfold sim, mbind. rewrite R. exact H. }
  apply R'. clear R'. assert (HT1 : TabR h o hd r c h1 d1) by (split; [exact HT0|apply HR]).
  eapply sim_bind with (P := fun h' _ d => TabR h o hd r c h' d).
  { apply (sim_loop (fun h' _ d => TabR h o hd r c h' d)); [exact HT1|]. intros j h4 [] d4 Hj HT4.
    eapply u_src; [exact HM|apply HT4|exact Hj|]. intros lJ q HE Eq. rewrite (mget_row _ _ _ _ Eq). eapply u_rd; [apply HE, HT4|]. intros u _.
    eapply t_rdS; [apply HT4|destruct HT4 as [_ [-> _]]; lia|]. intros sc Hsc.
    eapply sim_bind; [apply ref_row_div; [exact HT4|exact Hsc]|]. intros h5 [] d5 HT5.
    apply (sim_loop (fun h' _ d => TabR h o hd r c h' d)); [exact HT5|]. intros i h6 [] d6 Hi HT6.
    eapply t_rdS; [apply HT6|destruct HT6 as [_ [-> _]]; lia|]. intros si Hsi. rewrite (mget_row _ _ _ _ Eq).
    eapply u_rd; [apply HE, HT6|]. intros l _. apply ref_row_sub; auto. }
  intros h3 [] d3 HT3. eapply sim_bind with (P := fun h' _ d => TabR h o hd r c h' d).
  { apply (sim_down (fun h' _ d => TabR h o hd r c h' d)); [exact HT3|]. intros col h4 [] d4 Hcol HT4.
    eapply u_rd2; [eapply MRep_ext; [apply HT4|exact HM]|]. intros u _.
    eapply t_rdS; [apply HT4|destruct HT4 as [_ [-> _]]; lia|]. intros sc Hsc.
    eapply sim_bind; [apply ref_row_div; [exact HT4|exact Hsc]|]. intros h5 [] d5 HT5.
    apply (sim_loop (fun h' _ d => TabR h o hd r c h' d)); [exact HT5|]. intros i h6 [] d6 Hi HT6.
    eapply t_rdS; [apply HT6|destruct HT6 as [_ [-> _]]; lia|]. intros si Hsi.
    eapply u_rd2; [eapply MRep_ext; [apply HT6|exact HM]|]. intros l _. apply ref_row_sub; auto. }
  intros h4 [] d4 HT4. eapply ref_copyIn; eauto.
Qed.
End Ref8.

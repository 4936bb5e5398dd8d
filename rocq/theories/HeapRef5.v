(** The rectangular Cholesky decomposition on the heap and on values. *)
From Coq Require Import ZArith List Lia Bool.
From Verif Require Import Base BaseLemmas Scalar Vector Matrix MatSpec MatFacts Array2D Array2DFacts BlockM BlockFacts BlockFacts2 Diagonal RealMatrixM MatrixOps MatHist.
From Verif Require Import Heap HeapSpec HeapFacts HeapSim HeapSim2 HeapSim3 HeapSim4 HeapMain HeapDec HeapAtom HeapRefSpec HeapRef HeapRef2 HeapRef3 HeapRef4 HeapUpd.
From Verif Require Import RectChol.
Import ListNotations.
Open Scope Z_scope.

Section Ref5.
Context {O : Ops}.
Opaque BLOCK_SIZE.

(** ** Two tables side by side *)
Lemma Str_frameF h h' o hd d r c s j x : Str h o hd d [] r c -> wrF s j x h = (Ok tt, h') -> (forall i t, zget hd i = Ok t -> sl_arr t <> sl_arr s) -> Str h' o hd d [] r c.
Proof.
  intros [S1 S2 S3 S4 S5 S6 S7 S8 S9] W N. unfold wrF in W. destruct (inb j (sl_len s)); [|discriminate].
  destruct (zget (hf h) (sl_arr s)) as [a| |]; try discriminate. cbn [bind] in W. destruct (zset a (sl_off s + j) x) as [a'| |]; try discriminate. cbn [bind] in W.
  destruct (zset (hf h) (sl_arr s) a') as [m| |] eqn:E; try discriminate. injection W as <-. apply zset_inv in E. destruct E as [_ ->].
  split; auto; try (intros [|k]; discriminate); try (intros i [|k]; discriminate).
  intros i t q Ht Hq. destruct (S5 i t q Ht Hq) as [W1 W2]. split; [exact W1|]. cbn [hf]. rewrite zget_upd_other; [exact W2|]. intros Q. apply (N i t Ht). auto.
Qed.
Lemma Str_frameS h h' o hd d X r c s j x : Str h o hd d X r c -> wrS s j x h = (Ok tt, h') -> sl_arr o <> sl_arr s -> Str h' o hd d X r c.
Proof.
  intros [S1 S2 S3 S4 S5 S6 S7 S8 S9] W N. unfold wrS in W. destruct (inb j (sl_len s)); [|discriminate].
  destruct (zget (hs h) (sl_arr s)) as [a| |]; try discriminate. cbn [bind] in W. destruct (zset a (sl_off s + j) x) as [a'| |]; try discriminate. cbn [bind] in W.
  destruct (zset (hs h) (sl_arr s) a') as [m| |] eqn:E; try discriminate. injection W as <-. apply zset_inv in E. destruct E as [_ ->].
  split; auto. cbn [hs]. rewrite zget_upd_other; auto.
Qed.
Lemma Str_ext h0 h o hd d r c : Ext h0 h -> Str h0 o hd d [] r c -> Str h o hd d [] r c.
Proof.
  intros He [S1 S2 S3 S4 S5 S6 S7 S8 S9]. split; auto; try (intros [|k]; discriminate); try (intros i [|k]; discriminate).
  - rewrite (ext_s _ _ He); [exact S2|]. apply zget_range in S2. lia.
  - intros i t q Ht Hq. destruct (S5 i t q Ht Hq) as [W1 W2]. split; [exact W1|]. rewrite (ext_f _ _ He); [exact W2|]. apply zget_range in W2. lia.
Qed.
Definition Two (h : heap) (ob : slice) (hb : list slice) (b : mat) (oc : slice) (hc : list slice) (c : mat) (n w : Z) : Prop :=
  Str h ob hb b [] n n /\ Str h oc hc c [] n w /\ sl_arr ob <> sl_arr oc /\ forall i j s t, zget hb i = Ok s -> zget hc j = Ok t -> sl_arr s <> sl_arr t.
Lemma t_wb {A B} h ob hb b oc hc c n w i j x (f : unit -> M A) (g : mat -> res B) Q : Two h ob hb b oc hc c n w -> 0 <= i < n -> 0 <= j < n ->
  (forall h' b', Two h' ob hb b' oc hc c n w -> mset b i j x = Ok b' -> sim (f tt) (g b') h' Q) -> sim (mbind (wr2 ob i j x) f) (bind (mset b i j x) g) h Q.
Proof.
  intros (HB & HC & N1 & N2) Hi Hj H. destruct (Str_row _ _ _ _ _ _ _ _ HB Hi) as (s & E & Es). destruct (Str_wr _ _ _ _ _ _ _ i j s x HB Es Hj) as (h' & d' & W & E' & HS').
  unfold sim, mbind, wr2, mbind. rewrite E, W, E'. cbn [bind]. apply H; auto. split; [auto|]. split; [|auto]. eapply Str_frameF; eauto. intros k t Ht Q'. apply (N2 i k s t Es Ht). auto.
Qed.
Lemma t_wc {A B} h ob hb b oc hc c n w i j x (f : unit -> M A) (g : mat -> res B) Q : Two h ob hb b oc hc c n w -> 0 <= i < n -> 0 <= j < w ->
  (forall h' c', Two h' ob hb b oc hc c' n w -> mset c i j x = Ok c' -> sim (f tt) (g c') h' Q) -> sim (mbind (wr2 oc i j x) f) (bind (mset c i j x) g) h Q.
Proof.
  intros (HB & HC & N1 & N2) Hi Hj H. destruct (Str_row _ _ _ _ _ _ _ _ HC Hi) as (s & E & Es). destruct (Str_wr _ _ _ _ _ _ _ i j s x HC Es Hj) as (h' & d' & W & E' & HS').
  unfold sim, mbind, wr2, mbind. rewrite E, W, E'. cbn [bind]. apply H; auto. split; [|auto]. eapply Str_frameF; eauto.
Qed.
Lemma mbind_ret {A} (m : M A) h : mbind m ret h = m h.
Proof. unfold mbind. destruct (m h) as [[a|e|e] h']; reflexivity. Qed.
Lemma sim_ret_end {A B} (m : M A) (v : res B) h Q : sim (mbind m ret) v h Q -> sim m v h Q.
Proof. unfold sim. rewrite mbind_ret. auto. Qed.
(** A read that may be out of range in the row. *)
Lemma s_rd2_any {A B} h o hd d X r c i j (f : F -> M A) (g : F -> res B) Q : Str h o hd d X r c -> 0 <= i < r ->
  (forall x, 0 <= j < c -> mget d i j = Ok x -> sim (f x) (g x) h Q) -> sim (mbind (rd2 o i j) f) (bind (mget d i j) g) h Q.
Proof.
  intros HS Hi H. destruct (Str_row _ _ _ _ _ _ _ _ HS Hi) as (s & E & Es). destruct (Str_collen _ _ _ _ _ _ _ _ _ HS Es) as (E1 & q & E2 & E3).
  destruct (inb j c) eqn:I.
  - apply inb_true in I. eapply s_rd2; [exact HS|auto|auto|]. intros x Ex. rewrite Ex. cbn [bind]. auto.
  - unfold sim, mbind, rd2, mbind. rewrite E. unfold rdF. rewrite E1, I. unfold mget. rewrite E2. cbn [bind]. unfold zget. rewrite E3, I. reflexivity.
Qed.

(** ** The loop *)
Definition IX (n : Z) (l : list Z) : Prop := len l = n /\ forall i x, zget l i = Ok x -> 0 <= x < n.
Lemma IX_init n p : (let* p := make 0 n in for_ 0 n (fun i p => zset p i i) p) = Ok p -> 1 <= n -> IX n p.
Proof.
  unfold make. destruct (Z.ltb_spec n 0); [lia|]. cbn [bind]. intros E Hn. eapply (for_inv (fun (_ : Z) (p : list Z) => IX n p)) in E; [|lia| |]; [exact E| |].
  - split; [unfold len; rewrite repeat_length; lia|]. intros i x Hx. unfold zget in Hx. destruct (inb i _); [|discriminate]. destruct (nth_error _ _) eqn:En; [|discriminate]. injection Hx as <-. apply nth_error_In, repeat_spec in En. lia.
  - intros i q q' Hi [L1 L2] Eq. apply zset_inv in Eq. destruct Eq as [Hr ->]. split; [rewrite len_upd; auto|]. intros k x. rewrite zget_upd. destruct ((i =? k) && inb i (len q)); [intros [= <-]; lia|eauto].
Qed.
Lemma IX_upd n l i x : IX n l -> 0 <= x < n -> IX n (upd l i x).
Proof. intros [A B] Hx. split; [rewrite len_upd; auto|]. intros k y. rewrite zget_upd. destruct ((i =? k) && inb i (len l)); [intros [= <-]; lia|eauto]. Qed.
Lemma s_ix {A B} n l i h (f : Z -> M A) (g : Z -> res B) Q : IX n l -> 0 <= i < n -> (forall x, zget l i = Ok x -> 0 <= x < n -> sim (f x) (g x) h Q) ->
  sim (mbind (HeapDec.pure (zget l i)) f) (bind (zget l i) g) h Q.
Proof. intros [A1 A2] Hi H. apply sim_pure. eauto. Qed.
Definition RCI (ob oc : slice) (hc : list slice) (n w : Z) (h : heap) (a : list Z * Z) (s : list Z * mat * mat * Z) : Prop :=
  let '(ix, b, c, r) := s in a = (ix, r) /\ IX n ix /\ 0 <= r <= n /\ exists hb, Two h ob hb b oc hc c n w.
Lemma ref_rcturn h ob oc hc n w small r a s : RCI ob oc hc n w h a s -> 0 <= r < n ->
  sim (hrc_turn n small ob oc r a) (rc_turn n small r s) h (fun h' a' s' => fst a' = fst s' /\ RCI ob oc hc n w h' (snd a') (snd s')).
Proof.
  destruct s as [[[ix b] c] r0]. intros (-> & HI & _ & hb & HT) Hr. unfold hrc_turn, rc_turn, rc_pick.
  eapply (sim_bind _ _ _ (fun h' u v => h' = h /\ u = v /\ r <= u < n)).
  { apply (sim_loop (fun h' u v => h' = h /\ u = v /\ r <= u < n)); [auto with zarith|]. intros i h1 u v Hi (-> & <- & Hu).
    eapply s_ix; [exact HI|lia|]. intros ii Eii Hii. eapply s_ix; [exact HI|lia|]. intros isr Eisr Hisr. destruct HT as (HB & HC & _).
    eapply s_rd2_any; [exact HC|lia|]. intros x Hx1 Ex. eapply s_rd2_any; [exact HC|lia|]. intros y Hy1 Ey. apply sim_ret. split; [auto|]. split; [auto|]. destruct (fgt x y); lia. }
  intros h1 sw v (-> & <- & Hsw). unfold rc_swap.
  eapply (sim_bind _ _ _ (fun h' u v => u = fst v /\ IX n u /\ exists hb, Two h' ob hb (snd v) oc hc c n w)).
  { destruct (Z.eqb_spec sw r) as [->|N]; cbn [negb]; [apply sim_ret; cbn; eauto|].
    destruct HI as [I1 I2]. destruct (zget_some ix r ltac:(lia)) as (t & Et), (zget_some ix sw ltac:(lia)) as (t' & Et'). rewrite Et, Et'. cbn [bind]. rewrite zset_ok by lia. cbn [bind]. rewrite zset_ok by (rewrite len_upd; lia). cbn [bind].
    pose proof HT as (HB & HC & N1 & N2).
    destruct (Str_row _ _ _ _ _ _ _ r HB Hr) as (sr & R1 & R2), (Str_row _ _ _ _ _ _ _ sw HB ltac:(lia)) as (sq & R3 & R4).
    destruct (Str_perm _ _ _ _ _ _ _ sw r sq sr HB ltac:(lia) ltac:(lia) N R4 R2) as (h1 & h2 & W1 & W2 & q1 & q2 & Q1 & Q2 & HS2).
    rewrite Q1, Q2. cbn [bind]. pose proof (proj1 (sr_r _ _ _ _ _ _ _ HB)) as Lb. rewrite zset_ok by lia. cbn [bind]. rewrite zset_ok by (rewrite len_upd; lia). cbn [bind].
    eapply s_run; [reflexivity|]. eapply s_run; [exact R1|]. eapply s_run; [exact R3|]. unfold sim, mbind. rewrite W1, W2. cbn. split; [auto|]. split; [apply IX_upd; [apply IX_upd; [split; auto|]|]; eauto|].
    eexists. split; [exact HS2|]. split; [eapply Str_frameS; [eapply Str_frameS; [exact HC|exact W1|auto]|exact W2|auto]|]. split; [auto|].
    intros i j s u Hs Hu. rewrite !zget_upd in Hs. destruct ((sw =? i) && _); [injection Hs as <-; eauto|]. destruct ((r =? i) && _); [injection Hs as <-; eauto|eauto]. }
  intros h1 u [ix1 b1] (-> & HI1 & hb1 & HT1). cbn [fst snd] in *. clear HI HT.
  eapply s_ix; [exact HI1|lia|]. intros ir Eir Hir. pose proof HT1 as (_ & HC1 & _). eapply s_rd2_any; [exact HC1|lia|]. intros p Hp Ep.
  destruct (fle p small).
  - destruct (Z.eqb_spec r 0); [reflexivity|].
    eapply (sim_bind _ _ _ (fun h' (u v : unit) => h' = h1)).
    + apply (sim_loop (fun h' (u v : unit) => h' = h1)); [auto|]. intros i h2 [] [] Hi ->. eapply s_ix; [exact HI1|lia|]. intros ii Eii Hii. eapply s_rd2_any; [exact HC1|lia|]. intros x Hx1 Ex.
      destruct (flt x _); [reflexivity|apply sim_ret; auto].
    + intros h2 [] [] ->. apply sim_ret. cbn. split; [auto|]. split; [auto|]. split; [auto|]. split; [lia|eauto].
  - unfold rc_transform. cbv zeta. rewrite bind_assoc, Ep. cbn [bind]. rewrite bind_assoc. eapply t_wb; [exact HT1|lia|lia|]. intros h2 b2 HT2 _. pose proof HT2 as (_ & HC2 & _).
    eapply s_rd2; [exact HC2|lia|lia|]. intros p' Ep'. rewrite Ep in Ep'. injection Ep' as <-.
    eapply (sim_bind _ _ _ (fun h' (_ : unit) v => Two h' ob hb1 (fst v) oc hc (snd v) n w)).
    2: { intros h3 [] [b3 c3] HT3. cbn [fst snd] in HT3. apply sim_ret. cbn. split; [auto|]. split; [auto|]. split; [auto|]. split; [lia|eauto]. }
    apply (sim_loop (fun h' (_ : unit) v => Two h' ob hb1 (fst v) oc hc (snd v) n w)); [exact HT2|]. clear HC1 HC2 HT1 HT2 h1 h2 b2 b1 b c Ep.
    intros i h1 [] [b c] Hi HT. cbn [fst snd] in HT. eapply s_ix; [exact HI1|lia|]. intros ii Eii Hii. eapply s_rd2_any; [apply HT|lia|]. intros x Hx Ex.
    eapply t_wb; [exact HT|lia|lia|]. intros h2 b2 HT2 _. eapply s_rd2_any; [apply HT2|lia|]. intros y Hy Ey.
    eapply s_rd2_any; [apply HT2|lia|]. intros x1 Hx1 Ex1. eapply s_rd2_any; [apply HT2|lia|]. intros x2 Hx2 Ex2. eapply t_wc; [exact HT2|lia|lia|]. intros h3 c3 HT3 _.
    apply (sim_loop (fun h' (_ : unit) v => Two h' ob hb1 (fst v) oc hc (snd v) n w)); [exact HT3|]. clear HT HT2 HT3 h2 h3 b c b2 c3 Ex Ey Ex1 Ex2.
    intros j h2 [] [b c] Hj HT. cbn [fst snd] in HT. eapply s_ix; [exact HI1|lia|]. intros ij Eij Hij. eapply s_rd2_any; [apply HT|lia|]. intros z Hz Ez.
    eapply s_rd2_any; [apply HT|lia|]. intros bj _ Ebj. eapply t_wc; [exact HT|lia|lia|]. intros h3 c3 HT3 _. apply sim_ret_end. eapply t_wc; [exact HT3|lia|lia|]. intros h4 c4 HT4 _. apply sim_ret. exact HT4.
Qed.

(** ** The root *)
Definition RootI (h0 : heap) (x : HMat) (n r : Z) (h : heap) (m : RealMatrix) : Prop :=
  (exists f, MatIs m n r f) /\
  match x, m with
  | HA o, MArr a => exists d, a = mkA2D (Some d) /\ TabE h0 o d h
  | HB hb, MBlk b => TabE h0 (hb_blocks hb) (b_blocks b) h /\ sameshape hb b
  | _, _ => False
  end.
Lemma RootI_is h0 x n r h m : RootI h0 x n r h m -> exists f, MatIs m n r f /\ HMatIs h x n r f.
Proof.
  intros [(f & Hf) H]. exists f. split; [auto|]. destruct x as [o|s|hb], m as [a|b|d|? ? ?]; try contradiction; cbn [HMatIs].
  - destruct H as (d & -> & HT). apply MatIs_arr_inv in Hf. destruct Hf as (d' & [= <-] & Hr & Hc & HR). eapply TabE_HTab; eauto.
  - destruct H as [HT HS]. apply MatIs_blk_inv in Hf. eapply HBlkIs_intro; [|exact Hf]. split; [apply (TabE_MRep _ _ _ _ HT)|exact HS].
Qed.
Lemma RootI_ext h0 x n r h m : RootI h0 x n r h m -> Ext h0 h.
Proof. intros [_ H]. destruct x, m; try contradiction; [destruct H as (d & _ & HT)|destruct H as [HT _]]; eapply TabE_e; eauto. Qed.
Lemma root_new h n r : sim (h_NewRealMatrixWithDimension n r) (NewRealMatrixWithDimension n r) h (fun h' x m => RootI h x n r h' m).
Proof.
  unfold h_NewRealMatrixWithDimension, NewRealMatrixWithDimension. assert (D : (1 <= n /\ 1 <= r) \/ ~ (1 <= n /\ 1 <= r)) by lia. destruct (n * r <=? 4096).
  - destruct D as [[D1 D2]|D].
    + destruct (NewArray2DRowRealMatrix_spec n r D1 D2) as (a & E & Hm). pose proof Hm as Hm'. apply MatIs_arr_inv in Hm'. destruct Hm' as (d & -> & _). destruct (s2_New h h n r d (Ext_refl _) E) as (o & h' & R & HT).
      unfold sim, mbind. rewrite R. unfold liftA. rewrite E. cbn. split; eauto.
    + rewrite NewArray2DRowRealMatrix_err by auto. unfold sim, mbind, h2_New. destruct (Z.ltb_spec n 1); [reflexivity|]. destruct (Z.ltb_spec r 1); [reflexivity|]. exfalso. apply D. lia.
  - destruct D as [[D1 D2]|D].
    + destruct (NewBlockRealMatrix_spec n r D1 D2) as (b & E & Hm). destruct (sb_New h h n r b (Ext_refl _) E) as (hb & h' & R & HT & HS).
      unfold sim, mbind. rewrite R. unfold liftB. rewrite E. cbn. split; [eexists; apply MatIs_blk; eauto|auto].
    + rewrite NewBlockRealMatrix_err by auto. unfold sim, mbind, hb_New. destruct (Z.ltb_spec n 1); [reflexivity|]. destruct (Z.ltb_spec r 1); [reflexivity|]. exfalso. apply D. lia.
Qed.
Lemma root_set h0 x n r h m i j v : RootI h0 x n r h m -> 0 <= i < n -> 0 <= j < r ->
  sim (hm_SetEntry x i j v) (m_SetEntry m i j v) h (fun h' _ m' => RootI h0 x n r h' m').
Proof.
  intros HR Hi Hj. destruct (RootI_is _ _ _ _ _ _ HR) as (f & Hf & HX). pose proof HR as [_ H].
  destruct x as [o|s|hb], m as [a|b|d|? ? ?]; try contradiction; cbn [HMatIs hm_SetEntry] in *.
  - destruct (m_SetEntry_ok (MArr a) n r f i j v I Hf Hi Hj) as (m' & E & Gm & Hm'). rewrite E. cbn [m_SetEntry] in E. unfold liftA in E. binv E a' Ea. injection E as <-.
    destruct H as (d & -> & HT). unfold a2_SetEntry in Ea. binv Ea u Eu. cbn [a2_data] in Ea. binv Ea d' Ed. injection Ea as <-. destruct (g_wr2 _ _ _ _ _ _ _ _ HT Ed) as ([] & h' & R & HT').
    pose proof (ck2 _ _ _ _ _ _ _ HX Hi Hj) as Ck. unfold sim, h2_SetEntry, mbind. unfold runs in *. rewrite Ck, R. split; eauto.
  - destruct (m_SetEntry_ok (MBlk b) n r f i j v I Hf Hi Hj) as (m' & E & Gm & Hm'). rewrite E. cbn [m_SetEntry] in E. unfold liftB in E. binv E b' Eb. injection E as <-.
    destruct H as [HT HS]. unfold b_SetEntry in Eb. binv Eb u Eu. cbv zeta in Eb. binv Eb d' Ed. injection Eb as <-.
    assert (G : goes (hb_SetEntry hb i j v) h (fun _ => TabE h0 (hb_blocks hb) d')).
    { unfold hb_SetEntry. eapply ckb; eauto. unfold hb_pos. cbn [fst snd]. rewrite (sh_width _ _ _ HS). pose proof HS as (_ & _ & _ & S4). rewrite S4. eapply g_wr2; eauto. }
    destruct G as ([] & h' & R & HT'). unfold sim. unfold runs in R. rewrite R. split; [eauto|]. split; [exact HT'|exact HS].
Qed.
Lemma ref_RectChol h x r c f m small : HMatIs h x r c f -> library m -> MatIs m r c f ->
  sim (h_NewRectChol x small) (NewRectangularCholeskyDecompositionWithThreshold m small) h (fun h' a b =>
    exists g, HMatIs h' a r (rc_rank b) g /\ MatIs (rc_root b) r (rc_rank b) g).
Proof.
  intros HX Lm Hm. unfold h_NewRectChol, NewRectangularCholeskyDecompositionWithThreshold. cbv zeta. pose proof (HMat_pos _ _ _ _ _ HX) as [Hr Hc]. rewrite (proj1 (HMat_dims _ _ _ _ _ HX)). pose proof Hm as (_ & -> & _).
  eapply front_data; eauto. intros oc h1 hc dc HC. destruct (make2_spec r r ltac:(lia) ltac:(lia)) as (db & Edb & HRb). rewrite Edb. cbn [bind].
  destruct (s2_make2 h1 h1 r r db (Ext_refl _) Edb) as (ob & h2 & R & HTb). unfold runs in R.
  assert (HT : exists hb, Two h2 ob hb db oc hc dc r c).
  { destruct (TabE_Str _ _ _ _ _ _ _ HTb HRb Hr) as (hb & HB). exists hb. split; [exact HB|]. split; [eapply Str_ext; [eapply TabE_e; eauto|exact HC]|]. destruct HTb as (hb' & T). pose proof T as [T1 T2 T3 T4 T5 T6 T7].
    pose proof (sr_h _ _ _ _ _ _ _ HB) as Eh. rewrite T4 in Eh. injection Eh as ->. split; [pose proof (zget_range _ _ _ (sr_h _ _ _ _ _ _ _ HC)); lia|].
    intros i j s t Hs Ht. pose proof (zget_range _ _ _ Ht) as Hj. rewrite (sr_l _ _ _ _ _ _ _ HC) in Hj. destruct (zget_some dc j) as (q & Eq); [rewrite (proj1 (sr_r _ _ _ _ _ _ _ HC)); auto|].
    destruct (sr_d _ _ _ _ _ _ _ HC _ _ _ Ht Eq) as [_ W]. apply zget_range in W. destruct (T6 i s Hs) as (q' & Eq' & [[-> _]|(A & _)]); [cbn; lia|lia]. }
  destruct HT as (hb & HT). unfold sim. unfold mbind at 1. rewrite R.
  enough (G : sim
    (mbind (HeapDec.pure (let* index := make 0 r in for_ 0 r (fun i index => zset index i i) index)) (fun index =>
     mbind (mfor_brk 0 (Z.max 1 r) (hrc_turn r small ob oc) (index, 0)) (fun bs => let '(index, r0) := snd bs in
     mbind (h_NewRealMatrixWithDimension r r0) (fun root => mbind (mfor 0 r (fun i (_ : unit) => mfor 0 r0 (fun j (_ : unit) =>
        mbind (HeapDec.pure (zget index i)) (fun ii => mbind (rd2 ob i j) (fun v => hm_SetEntry root ii j v))) tt) tt) (fun _ => ret root)))))
    (bind (let* index := make 0 r in for_ 0 r (fun i index => zset index i i) index) (fun index =>
     bind (for_brk 0 (Z.max 1 r) (rc_turn r small) (index, db, dc, 0)) (fun bs => let '(index, b, c0, r0) := snd bs in
     bind (NewRealMatrixWithDimension r r0) (fun root => bind (for_ 0 r (fun i root => for_ 0 r0 (fun j root =>
        bind (zget index i) (fun ii => bind (mget b i j) (fun x0 => m_SetEntry root ii j x0))) root) root) (fun root => Ok (mkRCD root r0)))))) h2
    (fun h' a b => exists g, HMatIs h' a r (rc_rank b) g /\ MatIs (rc_root b) r (rc_rank b) g)).
  { rewrite bind_assoc in G. exact G. }
  apply sim_pure. intros ix Eix. apply IX_init in Eix; [|lia]. replace (Z.max 1 r) with r by lia.
  eapply sim_bind; [apply (sim_brk (RCI ob oc hc r c))|].
  - cbn. split; [auto|]. split; [auto|]. split; [lia|eauto].
  - intros i h3 a s Hi HI. apply ref_rcturn; auto.
  - intros h3 [e3 [ix3 r3']] [e3' [[[ix3' b3] c3] r3]] (_ & E & HI & Hr3 & hb3 & HB & _). cbn [fst snd] in *. injection E as -> ->.
    eapply sim_bind; [apply root_new|]. intros h4 root m4 HR. eapply (sim_bind _ _ _ (fun h' (_ : unit) m' => RootI h3 root r r3 h' m')).
    + apply (sim_loop (fun h' (_ : unit) m' => RootI h3 root r r3 h' m')); [exact HR|]. intros i h5 [] m5 Hi HR5. apply (sim_loop (fun h' (_ : unit) m' => RootI h3 root r r3 h' m')); [exact HR5|]. intros j h6 [] m6 Hj HR6.
      eapply s_ix; [exact HI|lia|]. intros ii Eii Hii. pose proof (Str_ext _ _ _ _ _ _ _ (RootI_ext _ _ _ _ _ _ HR6) HB) as HB6. st. st. apply root_set; auto.
    + intros h5 [] m5 HR5. apply sim_ret. cbn. destruct (RootI_is _ _ _ _ _ _ HR5) as (g & G1 & G2). eauto.
Qed.
End Ref5.

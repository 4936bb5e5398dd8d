(** The LU and Cholesky constructors on the
    heap and on values. *)
From Coq Require Import ZArith List Lia Bool.
From Verif Require Import Base BaseLemmas Scalar Vector Matrix MatSpec MatFacts Array2D Array2DFacts BlockM BlockFacts BlockFacts2 BlockSub Diagonal DiagFacts RealMatrixM MatrixOps MatHist.
From Verif Require Import Heap HeapSpec HeapFacts HeapSim HeapSim2 HeapSim3 HeapSim4 HeapMain HeapDec HeapAtom HeapRefSpec HeapRef.
From Verif Require Import LU Cholesky Hess Tridiag Bidiag.
Import ListNotations.
Open Scope Z_scope.

Section Ref2.
Context {O : Ops}.

(** ** What the constructors read *)
Lemma TabE_Str h0 h o d r c f : TabE h0 o d h -> RTab d r c f -> 1 <= c -> exists hd, Str h o hd d [] r c.
Proof.
  intros (hd & [T1 T2 T3 T4 T5 T6 T7]) [HR Hv] Hc. exists hd. pose proof HR as [HR1 HR2].
  assert (Row : forall i s, zget hd i = Ok s -> exists q, zget d i = Ok q /\ Own h0 h s q).
  { intros i s Hs. destruct (T6 i s Hs) as (q & Hq & [[-> ->]|HO]); [|eauto]. exfalso.
    pose proof (zget_range _ _ _ Hq). rewrite zget_ok in Hq by lia. injection Hq as E. pose proof (HR2 i ltac:(lia)) as L. rewrite E in L. unfold len in L. cbn in L. lia. }
  assert (Pos : forall i s, zget hd i = Ok s -> 0 <= sl_arr s).
  { intros i s Hs. destruct (Row i s Hs) as (q & _ & (A & _)). pose proof (len_nonneg (hf h0)). lia. }
  split; auto.
  - rewrite <- HR1. exact T3.
  - lia.
  - intros i s q Hs Hq. destruct (Row i s Hs) as (q' & Hq' & (A & B & C)). rewrite Hq in Hq'. injection Hq' as <-. split; auto.
  - intros [|k]; discriminate.
  - intros i j s t Hs Ht N E. destruct (T7 i j s t Hs Ht E) as [Q|Q]; [contradiction|]. pose proof (Pos i s Hs). lia.
  - intros i [|k]; discriminate.
  - intros [|k]; discriminate.
Qed.
Lemma HMat_pos h x r c f : HMatIs h x r c f -> 1 <= r /\ 1 <= c.
Proof. destruct x as [a|s|b]; cbn; [intros (_ & A & B & _); auto|intros (-> & A & _); auto|apply HBlkIs_pos]. Qed.
Lemma HMat_dims h x r c f : HMatIs h x r c f -> hm_rows x = r /\ hm_cols x h = (Ok c, h).
Proof.
  destruct x as [a|s|b]; cbn [HMatIs hm_rows hm_cols].
  - intros H. exact (HTab_dims _ _ _ _ _ H).
  - intros (-> & A & g & (l & (E1 & E2 & _) & E3 & _) & _). split; [lia|]. unfold ret. do 2 f_equal. lia.
  - intros (bl & _ & A & B & _). unfold ret. split; auto. rewrite B. reflexivity.
Qed.
Lemma HMat_data h x r c f : HMatIs h x r c f -> exists o h' hd d, hm_Data x h = (Ok o, h') /\ Str h' o hd d [] r c /\ RTab d r c f.
Proof.
  intros H. destruct (HMat_pos _ _ _ _ _ H) as [Hr Hc].
  assert (G : exists o h' d, hm_Data x h = (Ok o, h') /\ TabE h o d h' /\ RTab d r c f).
  { destruct x as [a|s|b]; cbn [HMatIs hm_Data] in *.
    - destruct (HTab_elim _ _ _ _ _ H) as (d & HA & HM & _). destruct (a2_copyOut_spec _ _ _ _ HM) as (d' & E & HT).
      destruct (s2_copyOut _ _ _ _ HA E) as (o & h' & R & HTo). exists o, h', d'. auto.
    - destruct H as (-> & _ & g & HV & Hf). destruct (HVecIs_elim _ _ _ _ HV) as (l & HVR & HT). destruct (d_Data_spec (mkDiag l) c g HT) as (d & E & HR).
      destruct (sd_Data _ _ _ _ HVR E) as (o & h' & R & HTo). exists o, h', d. split; [exact R|]. split; [exact HTo|]. eapply RTab_ext; [exact HR|]. intros i j Hi Hj. rewrite Hf by auto. reflexivity.
    - destruct (HBlkIs_elim _ _ _ _ _ H) as (v & HB & HI). destruct (b_Data_spec _ _ _ _ HI) as (d & E & HR).
      destruct (sb_Data _ _ _ _ HB E) as (o & h' & R & HTo). exists o, h', d. auto. }
  destruct G as (o & h' & d & R & HT & HR). destruct (TabE_Str _ _ _ _ _ _ _ HT HR Hc) as (hd & HS). eauto 8.
Qed.
Lemma front_data {A B} h x r c f m (k : slice -> M A) (g : mat -> res B) Q : HMatIs h x r c f -> library m -> MatIs m r c f ->
  (forall o h' hd d, Str h' o hd d [] r c -> sim (k o) (g d) h' Q) -> sim (mbind (hm_Data x) k) (bind (m_Data m) g) h Q.
Proof.
  intros HX Lm Hm H. destruct (HMat_data _ _ _ _ _ HX) as (o & h' & hd & d & R & HS & HT). destruct (m_Data_ok m r c f Lm Hm) as (d' & -> & HT').
  rewrite (RTab_unique _ _ _ _ _ HT' HT). cbn [bind]. unfold sim, mbind. rewrite R. apply (H _ _ _ _ HS).
Qed.
Lemma front_square {A B} h x r c f m (k : bool -> M A) (g : bool -> res B) Q : HMatIs h x r c f -> MatIs m r c f ->
  sim (k (c =? r)) (g (c =? r)) h Q -> sim (mbind (hm_IsSquare x) k) (bind (IsSquare m) g) h Q.
Proof.
  intros HX (_ & E1 & E2 & _) H. destruct (HMat_dims _ _ _ _ _ HX) as [R1 R2]. unfold sim, mbind, hm_IsSquare, mbind. rewrite R2, R1. unfold IsSquare. rewrite E2, E1. exact H.
Qed.
Lemma front_cols {A B} h x r c f m (k : Z -> M A) (g : Z -> res B) Q : HMatIs h x r c f -> MatIs m r c f ->
  sim (k c) (g c) h Q -> sim (mbind (hm_cols x) k) (bind (m_cols m) g) h Q.
Proof. intros HX (_ & E1 & E2 & _) H. destruct (HMat_dims _ _ _ _ _ HX) as [R1 R2]. unfold sim, mbind. rewrite R2, E2. exact H. Qed.

(** ** LU *)
Lemma bind_Ok {A} (v : res A) : bind v (fun x => Ok x) = v.
Proof. destruct v; reflexivity. Qed.
Lemma mget_mset_same (d d' : mat) i j x : mset d i j x = Ok d' -> mget d' i j = Ok x.
Proof.
  unfold mset, mget. destruct (zget d i) as [q| |] eqn:Eq; cbn [bind]; try discriminate. destruct (zset q j x) as [q'| |] eqn:E1; cbn [bind]; try discriminate. intros E2.
  apply zset_inv in E1, E2. destruct E1 as [R1 ->], E2 as [R2 ->]. rewrite zget_upd_same by auto. cbn [bind]. apply zget_upd_same. auto.
Qed.
Lemma init_len n p : (let* p := make 0 n in for_ 0 n (fun i p => zset p i i) p) = Ok p -> 0 <= n -> len p = n.
Proof.
  unfold make. destruct (Z.ltb_spec n 0); [lia|]. cbn [bind]. intros E Hn. eapply (for_inv (fun (_ : Z) (p : list Z) => len p = n)) in E; auto.
  - unfold len. rewrite repeat_length. lia.
  - intros i q q' _ L Eq. apply zset_inv in Eq. destruct Eq as [_ ->]. rewrite len_upd. exact L.
Qed.
Lemma ref_reduce h o hd d n row col k : Str h o hd d [] n n -> 0 <= row < n -> 0 <= col < n -> k <= n ->
  sim (hlu_reduce o row col k) (lu_reduce d row col k) h (fun h' x d' => Str h' o hd d' [] n n /\ mget d' row col = Ok x).
Proof.
  intros HS Hr Hc Hk. unfold hlu_reduce, lu_reduce. st. st. st. eapply sim_acc.
  - intros i a Hi. do 4 st. apply sim_ret. auto.
  - intros a. rewrite <- (bind_Ok (mset _ _ _ _)). eapply s_wrF; [eassumption..|lia|]. intros h' d' HS' E. apply sim_ret. split; [exact HS'|].
    eapply mget_mset_same; exact E.
Qed.
Lemma ref_upper h o hd d n col : Str h o hd d [] n n -> 0 <= col < n -> sim (hlu_upper col o) (lu_upper col d) h (fun h' _ d' => Str h' o hd d' [] n n).
Proof.
  intros HS Hc. unfold hlu_upper, lu_upper. apply (sim_loop (fun h' (_ : unit) d' => Str h' o hd d' [] n n)); [exact HS|].
  intros i h1 [] d1 Hi H1. rewrite <- (bind_Ok (lu_reduce _ _ _ _)). eapply sim_bind; [eapply ref_reduce; [exact H1|lia..]|]. intros h' x d' [H' _]. apply sim_ret. exact H'.
Qed.
Lemma ref_lower h o hd d n col : Str h o hd d [] n n -> 0 <= col < n ->
  sim (hlu_lower n col o) (lu_lower n col d) h (fun h' a b => Str h' o hd (fst (fst b)) [] n n /\ a = (snd (fst b), snd b) /\ 0 <= fst a < n).
Proof.
  intros HS Hc. unfold hlu_lower, lu_lower. apply (sim_loop (fun h' (a : Z * option F) (b : mat * Z * option F) => Str h' o hd (fst (fst b)) [] n n /\ a = (snd (fst b), snd b) /\ 0 <= fst a < n)); [cbn; auto|].
  intros i h1 [mx lg] [[d1 mx'] lg'] Hi (H1 & E & Hm). cbn [fst snd] in *. injection E as <- <-. eapply sim_bind; [eapply ref_reduce; [exact H1|lia..]|].
  intros h' x d' [H' Ex]. st. destruct (match lg with Some _ => _ | None => _ end); apply sim_ret; cbn; auto; split; auto; split; auto; lia.
Qed.
Lemma ref_swap h o hd d n mx col pv : Str h o hd d [] n n -> 0 <= col < n -> 0 <= mx < n -> len pv = n ->
  sim (hlu_swap n mx col o pv) (lu_swap n mx col d pv) h (fun h' a b => Str h' o hd (fst b) [] n n /\ a = snd b /\ len a = n).
Proof.
  intros HS Hc Hm Hp. unfold hlu_swap, lu_swap. st. st. eapply sim_bind.
  - apply (sim_loop (fun h' (_ : unit) d' => Str h' o hd d' [] n n)); [exact HS|]. intros i h1 [] d1 Hi H1. do 4 st.
    eapply s_wrF; [exact H1|eassumption|lia|]. intros h2 d2 H2 E2. eapply s_wrF_end; [exact H2|eassumption|lia|]. auto.
  - intros h1 [] d1 H1. destruct (zget_some pv mx ltac:(lia)) as (t & Et), (zget_some pv col ltac:(lia)) as (y & Ey). rewrite Et, Ey. cbn [bind].
    rewrite !zset_ok by (rewrite ?len_upd; lia). cbn [bind]. rewrite zset_ok by (rewrite ?len_upd; lia). cbn [bind]. split; [exact H1|]. split; [reflexivity|]. rewrite !len_upd. exact Hp.
Qed.
Lemma ref_divide h o hd d n col : Str h o hd d [] n n -> 0 <= col < n -> sim (hlu_divide n col o) (lu_divide n col d) h (fun h' _ d' => Str h' o hd d' [] n n).
Proof.
  intros HS Hc. unfold hlu_divide, lu_divide. st. st. apply (sim_loop (fun h' (_ : unit) d' => Str h' o hd d' [] n n)); [exact HS|].
  intros i h1 [] d1 Hi H1. st. st. eapply s_wr2_end; [exact H1|lia|lia|]. auto.
Qed.
Definition LUI (o : slice) (hd : list slice) (n : Z) (h : heap) (a : list Z * bool) (b : mat * list Z * bool) : Prop :=
  Str h o hd (fst (fst b)) [] n n /\ a = (snd (fst b), snd b) /\ len (fst a) = n.
Lemma ref_column h o hd n thr col a b : LUI o hd n h a b -> 0 <= col < n ->
  sim (hlu_column n thr o col a) (lu_column n thr col b) h (fun h' a' b' => fst a' = fst b' /\ LUI o hd n h' (snd a') (snd b')).
Proof.
  intros (HS & E & Hl) Hc. destruct a as [pv ev], b as [[d pv'] ev']. cbn [fst snd] in *. injection E as <- <-. unfold hlu_column, lu_column.
  eapply sim_bind; [eapply ref_upper; eauto|]. intros h1 [] d1 H1. eapply sim_bind; [eapply ref_lower; eauto|]. intros h2 [mx lg] [[d2 mx'] lg'] (H2 & E & Hm). cbn [fst snd] in *. injection E as <- <-.
  st. st. destruct (flt (fabs x) thr); [apply sim_ret; cbn; split; [auto|split; auto]|].
  eapply (sim_bind _ _ _ (LUI o hd n)).
  - destruct (mx =? col); cbn [negb].
    + apply sim_ret. split; auto.
    + eapply sim_bind; [eapply ref_swap; eauto|]. intros h3 p3 [d3 p3'] (H3 & -> & L3). apply sim_ret. split; auto.
  - intros h3 [p3 e3] [[d3 p3'] e3'] (H3 & E & L3). cbn [fst snd] in *. injection E as <- <-. eapply sim_bind; [eapply ref_divide; eauto|]. intros h4 [] d4 H4. apply sim_ret. split; [reflexivity|]. split; auto.
Qed.
Lemma ref_LU h x r c f m thr : HMatIs h x r c f -> library m -> MatIs m r c f ->
  sim (h_NewLU x thr) (NewLUDecompositionWithThreshold m thr) h (fun h' a b =>
    MRep h' (hlu_lu a) (lu_lu b) /\ hlu_pivot a = lu_pivot b /\ hlu_even a = lu_even b /\ hlu_singular a = lu_singular b).
Proof.
  intros HX Lm Hm. unfold h_NewLU, NewLUDecompositionWithThreshold. eapply front_square; eauto. destruct (Z.eqb_spec c r) as [->|N]; cbn [negb].
  - eapply front_cols; eauto. eapply front_data; eauto. intros o h1 hd d HS. pose proof (HMat_pos _ _ _ _ _ HX) as [Hr _].
    rewrite <- bind_assoc. apply sim_pure. intros pv Ep. apply init_len in Ep; [|lia].
    eapply sim_bind; [eapply (sim_brk (LUI o hd r))|].
    + split; [exact HS|]. split; [reflexivity|exact Ep].
    + intros i h2 a b Hi HI. apply ref_column; auto.
    + intros h2 [sg [p2 e2]] [sg' [[d2 p2'] e2']] (E & H2 & E2 & _). cbn [fst snd] in *. injection E2 as <- <-. apply sim_ret. cbn. split; [eapply Str_MRep; eauto|auto].
  - destruct Hm as (_ & _ & E & _). rewrite E. reflexivity.
Qed.

(** ** Cholesky *)
Lemma ref_check h o hd d n rel : Str h o hd d [] n n -> sim (hch_check n rel o) (ch_check n rel d) h (fun h' _ d' => Str h' o hd d' [] n n).
Proof.
  intros HS. unfold hch_check, ch_check. apply (sim_loop (fun h' (_ : unit) d' => Str h' o hd d' [] n n)); [exact HS|].
  intros i h1 [] d1 Hi H1. st. apply (sim_loop (fun h' (_ : unit) d' => Str h' o hd d' [] n n)); [exact H1|].
  intros j h2 [] d2 Hj H2. st. do 4 st. destruct (fgt _ _); [reflexivity|]. eapply s_wrF_end; [exact H2|eassumption|lia|auto].
Qed.
Lemma ref_chstep h o hd d n pos i : Str h o hd d [] n n -> 0 <= i < n -> sim (hch_step n pos o i tt) (ch_step n pos i d) h (fun h' _ d' => Str h' o hd d' [] n n).
Proof.
  intros HS Hi. unfold hch_step, ch_step. do 3 st. destruct (fle x pos); [reflexivity|].
  eapply s_modF; [exact HS|eassumption|lia|eassumption|reflexivity|]. intros h1 d1 H1 _. st. st.
  apply (sim_down (fun h' (_ : unit) d' => Str h' o hd d' [] n n)); [exact H1|].
  intros q h2 [] d2 Hq H2. st. eapply s_modF; [exact H2|eassumption|lia|eassumption|reflexivity|]. intros h3 d3 H3 _. st.
  apply (sim_loop (fun h' (_ : unit) d' => Str h' o hd d' [] n n)); [exact H3|].
  intros p h4 [] d4 Hp H4. do 6 st. eapply s_wrF_end; [exact H4|eassumption|lia|auto].
Qed.
Lemma ref_Cholesky h x r c f m rel pos : HMatIs h x r c f -> library m -> MatIs m r c f ->
  sim (h_NewCholesky x rel pos) (NewCholeskyDecomposition m rel pos) h (fun h' a b => MRep h' a (ch_lT b)).
Proof.
  intros HX Lm Hm. unfold h_NewCholesky, NewCholeskyDecomposition. eapply front_square; eauto. destruct (Z.eqb_spec c r) as [->|N]; cbn [negb].
  - rewrite (proj1 (HMat_dims _ _ _ _ _ HX)). pose proof Hm as (_ & -> & _). eapply front_data; eauto. intros o h1 hd d HS.
    eapply sim_bind; [eapply ref_check; eauto|]. intros h2 [] d2 H2. eapply sim_bind.
    + apply (sim_loop (fun h' (_ : unit) d' => Str h' o hd d' [] r r)); [exact H2|]. intros i h3 [] d3 Hi H3. apply ref_chstep; auto.
    + intros h3 [] d3 H3. apply sim_ret. cbn. eapply Str_MRep; eauto.
  - destruct Hm as (_ & _ & E & _). rewrite E. reflexivity.
Qed.
End Ref2.

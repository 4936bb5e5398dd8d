(** Diagonal matrices, expressions, and the statements about HeapArith.v. *)
From Coq Require Import ZArith List Lia Bool.
From Verif Require Import Base BaseLemmas Scalar Vector Matrix VecSpec MatSpec MatFacts DiagSpec Array2D Array2DFacts.
From Verif Require Import Heap HeapSpec HeapFacts HeapIndep HeapSim HeapSim2 HeapSim3 HeapSim4 HeapMain HeapProps HeapDec HeapAtom HeapRefSpec HeapRef2 HeapRef6 HeapRef8 HeapRef9
  HeapSolve HeapDecFacts HeapSolveFacts HeapArith HeapArithSpec HeapArithFacts HeapArithMain.
Import ListNotations.
Open Scope Z_scope.

Section HeapArithProps.
Context {O : Ops}.

(** ** DiagonalMatrix *)
Lemma HVec_diag h s n g : 1 <= n -> HVecIs h s n g -> HMatIs h (HD s) n n (fun i j => if i =? j then g i else fzero).
Proof. intros Hn H. cbn. split; [auto|split; auto]. exists g. split; auto. Qed.
Lemma g_diag h d e n f g (op : F -> F -> F) : 1 <= n -> HVecIs h d n f -> HVecIs h e n g ->
  goes (let! outData := makeF (sl_len d) in
        let! _ := mfor 0 (sl_len d) (fun i (_ : unit) => let! x := rdF d i in let! y := rdF e i in wrF outData i (op x y)) tt in ret outData) h
    (fun o h' => exists q, OwnE h o q h' /\ VTab q n (fun i => op (f i) (g i))).
Proof.
  intros Hn Hd He. destruct (vec_rd _ _ _ _ Hd) as [Ld Rd]. destruct (vec_rd _ _ _ _ He) as [Le Re]. rewrite Ld.
  apply g_vector; [lia|]. intros o j h' Hj HE. unfold mbind. rewrite Rd by auto. rewrite Re by auto. reflexivity.
Qed.
Lemma own_vec h (m : M slice) n g : goes m h (fun o h' => exists q, OwnE h o q h' /\ VTab q n g) -> returns m h (fun h' o => HVecIs h' o n g).
Proof. intros H. eapply goes_returns; [exact H|]. intros o h' (q & HO & HV). eapply OwnE_HVec; eauto. Qed.
Lemma own_append h (m : M slice) n g : goes m h (fun o h' => exists q, OwnE h o q h' /\ VTab q n g) -> returns (let! o := m in appendF o) h (fun h' o => HVecIs h' o n g).
Proof.
  intros H. apply (goes_returns _ _ (fun o h' => HVecIs h' o n g)); [|auto]. apply g_bind. eapply g_imp; [exact H|]. intros o h1 (q & HO & HV).
  eapply g_imp; [apply (g_appendF h h1 o q (proj2 HO) (OwnE_VRep _ _ _ _ HO))|]. intros o1 h2 HO1. exact (OwnE_HVec _ _ _ _ _ _ HO1 HV).
Qed.
Lemma md_binop h d e n f g : 1 <= n -> HVecIs h d n f -> HVecIs h e n g ->
  returns (hd_Add d (HD e)) h (fun h' o => HVecIs h' o n (fun i => (f i + g i)%f)) /\
  returns (hd_Subtract d (HD e)) h (fun h' o => HVecIs h' o n (fun i => (f i - g i)%f)) /\
  returns (hd_Multiply d (HD e)) h (fun h' o => exists s, o = HD s /\ HVecIs h' s n (fun i => (f i * g i)%f)).
Proof.
  intros Hn Hd He. pose proof (HVec_diag _ _ _ _ Hn Hd) as Md. pose proof (HVec_diag _ _ _ _ Hn He) as Me. split; [|split].
  - unfold hd_Add. eapply ok_step; [eapply ckAdd_ok; eauto|]. apply own_vec. apply (g_diag h d e n f g fadd); auto.
  - unfold hd_Subtract. eapply ok_step; [eapply ckAdd_ok; eauto|]. apply own_vec. apply (g_diag h d e n f g fsub); auto.
  - unfold hd_Multiply. eapply ok_step; [eapply ckMul_ok; eauto|]. destruct (own_vec _ _ _ _ (g_diag h d e n f g fmul Hn Hd He)) as (o & h' & E & H).
    exists (HD o), h'. split; [|eauto]. unfold hd_MultiplyDiag, mbind at 1. rewrite E. reflexivity.
Qed.
Lemma g_dOperate h d v n f g : 1 <= n -> HVecIs h d n f -> HVecIs h v n g ->
  goes (hd_Operate d v) h (fun o h' => exists q, OwnE h o q h' /\ VTab q n (fun i => (f i * g i)%f)).
Proof.
  intros Hn Hd Hv. unfold hd_Operate. eapply g_step; [eapply (ckMul_ok h (HD d) (HD v)); apply HVec_diag; eauto|]. apply (g_diag h d v n f g fmul); auto.
Qed.
Lemma md_table h d m r c f g : HVecIs h d r f -> HMatIs h m r c g -> (forall s, m <> HD s) ->
  returns (hd_Multiply d m) h (fun h' o => exists s, o = HA s /\ HTab h' s r c (fun i j => (f i * g i j)%f)).
Proof.
  intros Hd Hm N. destruct (HMat_pos _ _ _ _ _ Hm) as [Hr Hc]. destruct (HMat_dims _ _ _ _ _ Hm) as [D1 D2]. destruct (vec_rd _ _ _ _ Hd) as [Ld Rd].
  apply (goes_returns _ _ (fun o h' => exists s, o = HA s /\ HTab h' s r c (fun i j => (f i * g i j)%f))); [|auto].
  unfold hd_Multiply. eapply g_step; [eapply (ckMul_ok h (HD d) m r r c); [apply HVec_diag; eauto|eauto]|].
  assert (G : goes (let! nCols := hm_cols m in
      let! product := makeS (hm_rows m) in
      let! _ := mfor 0 (hm_rows m) (fun r (_ : unit) =>
        let! q := makeF nCols in
        let! _ := wrS product r q in
        mfor 0 nCols (fun c (_ : unit) =>
          let! x := rdF d r in
          let! y := hm_At m r c in
          wr2 product r c (x * y)%f) tt) tt in
      let! rm := h2_copyIn product in
      ret (HA rm)) h (fun o h' => exists s, o = HA s /\ HTab h' s r c (fun i j => (f i * g i j)%f))).
  { eapply g_step; [exact D2|]. rewrite D1. apply g_bind. eapply g_imp; [apply (g_makeS h h r _ (Ext_refl _) (make_ok _ r ltac:(lia)))|]. nx o h1 HT.
    apply g_bind. eapply g_imp; [eapply (build h o r c (fun i j => (f i * g i j)%f)); [lia|exact HT|apply len_repeat; lia|]|].
    - intros i h2 d2 Hi HT2 L. eapply g_row with (K := fun _ => _); [exact HT2|lia|lia|]. intros s q h3 HR Lq. eapply fill_row; [lia|exact HR|auto|].
      intros j h' Hj He Rr. unfold mbind. rewrite Rd by auto. rewrite (mat_At _ _ _ _ _ Hm) by auto. apply wr2_row; auto.
    - intros [] h2 (d' & HT' & HR). pose proof (TabE_HTab _ _ _ _ _ _ _ Hr Hc HT' HR) as HO. destruct (TabE_MRep _ _ _ _ HT') as [Hn HM].
      destruct (a2_copyIn_spec d' r c _ Hr Hc HR) as (A & E & HA'). apply MatIs_arr_inv in HA'. destruct HA' as (d2 & -> & _ & _ & HR2).
      apply g_bind. eapply g_imp; [apply (s2_copyIn h2 o d' d2 Hn HM E)|]. nx s h3 HT3. apply g_ret. exists s. split; auto. eapply TabE_HTab; eauto. }
  destruct m as [b|b|b]; [exact G|exfalso; apply (N b); auto|exact G].
Qed.
Lemma md_vector h d n f v g : 1 <= n -> HVecIs h d n f -> HVIs h v n g ->
  returns (hd_PreMultiplyVector d v) h (fun h' o => HVecIs h' o n (fun i => (f i * g i)%f)) /\
  returns (hd_OperateVector d v) h (fun h' o => HVecIs h' o n (match v with HArr _ => fun i => (f i * g i)%f
    | HOther _ => fun i => fsum n (fun k => ((if (i =? k)%Z then f i else fzero) * g k)%f) end)).
Proof.
  intros Hn Hd Hv. split.
  - apply (goes_returns _ _ (fun o h' => HVecIs h' o n (fun i => (f i * g i)%f))); [|auto].
    assert (G : forall h1 s, Ext h h1 -> HVecIs h1 s n g -> HVecIs h1 d n f -> goes (let! out := hd_Operate d s in mpan (h_NewArrayRealVector out true)) h1 (fun o h' => HVecIs h' o n (fun i => (f i * g i)%f))).
    { intros h1 s He Hs Hd1. apply g_bind. eapply g_imp; [apply (g_dOperate h1 d s n f g); auto|]. intros o h2 (q & HO & HV).
      unfold h_NewArrayRealVector, h_NewArrayRealVectorFromSlice. apply g_mpan. replace (isnil o) with false.
      - eapply g_imp; [apply (g_appendF h1 h2 o q (proj2 HO) (OwnE_VRep _ _ _ _ HO))|]. intros o1 h3 HO1. exact (OwnE_HVec _ _ _ _ _ _ HO1 HV).
      - destruct HO as [(A & _) _]. unfold isnil. pose proof (len_nonneg (hf h1)). lia. }
    unfold hd_PreMultiplyVector. destruct v as [s|l].
    + eapply g_step; [reflexivity|]. apply G; auto. apply Ext_refl.
    + cbn [hv_ToArray]. destruct Hv as [L Hg]. destruct (runs_newF h h l (Ext_refl _)) as (s & h1 & R & HO & He & _). eapply g_step; [exact R|].
      apply G; auto.
      * eapply HVecIs_intro; [eapply Own_VRep; eauto|]. split; auto. intros j Hj. specialize (Hg j Hj). rewrite zget_ok in Hg by lia. congruence.
      * destruct (HVecIs_elim _ _ _ _ Hd) as (ld & HVd & HTd). eapply HVecIs_intro; eauto. eapply VRep_ext; eauto.
  - destruct v as [s|l].
    + cbn [hd_OperateVector]. apply own_append. apply g_dOperate; auto.
    + destruct Hv as [L Hg]. destruct (vec_rd _ _ _ _ Hd) as [Ld Rd]. unfold hd_OperateVector. rewrite Ld. cbn [hv_dim]. cbv zeta. rewrite L, Z.eqb_refl. cbn [negb].
      pose proof (own_append h (let! out := makeF n in let! _ := mfor 0 n (fun row (_ : unit) =>
        let! sum := mfor 0 n (fun i sum => let! x := hd_At d row i in let! y := hv_At (HOther l) i in ret (sum + x * y)%f) fzero in wrF out row sum) tt in ret out) n
        (fun i => fsum n (fun k => ((if (i =? k)%Z then f i else fzero) * g k)%f))) as G.
      destruct G as (o & h' & E & H).
      * apply g_vector; [lia|]. intros o i h' Hi He. unfold mbind at 1. rewrite (g_sum n _ (fun k => ((if (i =? k)%Z then f i else fzero) * g k)%f)); [reflexivity|lia|].
        intros k t Hk. unfold mbind. assert (Ed : hd_At d i k h' = (Ok (if i =? k then f i else fzero), h')).
        { apply (mat_At h (HD d) n n (fun i j => if i =? j then f i else fzero)); auto. apply HVec_diag; auto. }
        rewrite Ed. unfold hv_At. cbn [hv_dim]. rewrite L. unfold inb. replace ((0 <=? k) && (k <? n)) with true by (symmetry; apply andb_true_intro; lia). rewrite (Hg k Hk). reflexivity.
      * exists o, h'. split; auto. rewrite <- E. unfold mbind. destruct (makeF n h) as [[]]; auto. destruct (mfor _ _ _ _ _) as [[]]; auto.
Qed.

(** ** Expressions *)
Lemma run_Ext e : forall h0 hm, keeps h0 hm (run e) any.
Proof.
  assert (D : forall h0 hm x F, (forall a, keeps h0 hm (F a) (isnewS h0)) -> keeps h0 hm (on_dense x F) any).
  { intros h0 hm x F HF. destruct x as [a|a|a]; cbn [on_dense]; try apply keeps_panic. eapply keeps_bind; [apply HF|]. intros. apply keeps_ret. exact (fun _ _ => I). }
  induction e; intros h0 hm; cbn [run].
  - apply keeps_ret. exact (fun _ _ => I).
  - eapply keeps_bind; [apply IHe1|]. intros. eapply keeps_bind; [apply IHe2|]. intros. apply D. intros. apply ka_Add.
  - eapply keeps_bind; [apply IHe1|]. intros. eapply keeps_bind; [apply IHe2|]. intros. apply D. intros. apply ka_Subtract.
  - eapply keeps_bind; [apply IHe1|]. intros. eapply keeps_bind; [apply IHe2|]. intros. apply D. intros. apply ka_Multiply.
  - eapply keeps_bind; [apply IHe|]. intros. apply D. intros. apply ka_ScalarAdd.
  - eapply keeps_bind; [apply IHe|]. intros. apply D. intros. apply ka_ScalarMultiply.
  - eapply keeps_bind; [apply IHe|]. intros. apply D. intros. apply k2_Transpose.
Qed.
Definition outcome (e : mexp) (h : heap) r c f : Prop :=
  exists x h', run e h = (Ok x, h') /\ HMatIs h' x r c f /\ (dense e -> exists a, x = HA a).
Lemma ran h h0 e x h' : Ext h0 h -> run e h = (Ok x, h') -> Ext h0 h'.
Proof. intros He E. exact (proj1 (run_Ext e h0 h h He (hle_refl _) _ _ E)). Qed.
Lemma means_Ext h0 h e r c f : Ext h0 h -> means h0 e r c f -> means h e r c f.
Proof. intros He H. induction H; try (econstructor; eauto; fail). constructor. eapply HMat_Ext; eauto. Qed.
Lemma two h a b r c f r' c' g (Op : slice -> HMat -> M slice) R C K :
  (forall h, means h a r c f -> outcome a h r c f) -> (forall h, means h b r' c' g -> outcome b h r' c' g) ->
  means h a r c f -> means h b r' c' g -> dense a ->
  (forall h s m, HTab h s r c f -> HMatIs h m r' c' g -> returns (Op s m) h (fun h' o => HTab h' o R C K)) ->
  exists x h', (let! x := run a in let! y := run b in on_dense x (fun s => Op s y)) h = (Ok x, h') /\ HMatIs h' x R C K /\ (exists s, x = HA s).
Proof.
  intros Ia Ib Ma Mb Da HO. destruct (Ia h Ma) as (x & h1 & E1 & X & D). destruct (D Da) as (s & ->).
  pose proof (ran h h a (HA s) h1 (Ext_refl _) E1) as X1. destruct (Ib h1 (means_Ext _ _ _ _ _ _ X1 Mb)) as (y & h2 & E2 & Y & _).
  pose proof (ran h1 h1 b y h2 (Ext_refl _) E2) as X2. destruct (HO h2 s y) as (o & h3 & E3 & Z3); auto.
  - exact (HMat_Ext h1 h2 (HA s) r c f X2 X).
  - exists (HA o), h3. unfold mbind at 1. rewrite E1. unfold mbind at 1. rewrite E2. cbn [on_dense]. unfold mbind. rewrite E3. split; [reflexivity|]. split; eauto.
Qed.
Lemma one h a r c f (Op : slice -> M slice) R C K :
  outcome a h r c f -> dense a ->
  (forall h s, HTab h s r c f -> returns (Op s) h (fun h' o => HTab h' o R C K)) ->
  exists x h', (let! x := run a in on_dense x Op) h = (Ok x, h') /\ HMatIs h' x R C K /\ (exists s, x = HA s).
Proof.
  intros (x & h1 & E1 & X & D) Da HO. destruct (D Da) as (s & ->). destruct (HO h1 s X) as (o & h3 & E3 & Z3).
  exists (HA o), h3. unfold mbind at 1. rewrite E1. cbn [on_dense]. unfold mbind. rewrite E3. split; [reflexivity|]. split; eauto.
Qed.
Lemma run_ok e : forall h r c f, means h e r c f -> outcome e h r c f.
Proof.
  induction e; intros h R C K H; inversion H; subst.
  - exists x, h. split; [reflexivity|]. split; [auto|]. destruct x; cbn; intros []; eauto.
  - destruct (two h e1 e2 R C f R C g h2_Add R C _ (fun h => IHe1 h R C f) (fun h => IHe2 h R C g) ltac:(eauto) ltac:(eauto) ltac:(auto) (fun h s m => m2_Add h s m R C f g)) as (x & h' & E & A & B). exists x, h'. auto.
  - destruct (two h e1 e2 R C f R C g h2_Subtract R C _ (fun h => IHe1 h R C f) (fun h => IHe2 h R C g) ltac:(eauto) ltac:(eauto) ltac:(auto) (fun h s m => m2_Subtract h s m R C f g)) as (x & h' & E & A & B). exists x, h'. auto.
  - destruct (two h e1 e2 R n f n C g h2_Multiply R C _ (fun h => IHe1 h R n f) (fun h => IHe2 h n C g) ltac:(eauto) ltac:(eauto) ltac:(auto) (fun h s m => m2_Multiply h s m R n C f g)) as (x & h' & E & A & B). exists x, h'. auto.
  - destruct (one h e R C f (fun s => h2_ScalarAdd s x) R C _ (IHe h R C f ltac:(auto)) ltac:(auto) (fun h s => m2_ScalarAdd h s x R C f)) as (y & h' & E & A & B). exists y, h'. auto.
  - destruct (one h e R C f (fun s => h2_ScalarMultiply s x) R C _ (IHe h R C f ltac:(auto)) ltac:(auto) (fun h s => m2_ScalarMultiply h s x R C f)) as (y & h' & E & A & B). exists y, h'. auto.
  - destruct (one h e C R f h2_Transpose R C _ (IHe h C R f ltac:(auto)) ltac:(auto) (fun h s => m2_Transpose h s C R f)) as (y & h' & E & A & B). exists y, h'. auto.
Qed.
Lemma run_expression h e r c f : wfheap h -> means h e r c f ->
  exists x h', run e h = (Ok x, h') /\ HMatIs h' x r c f /\ only_adds h h' /\ wfheap h'.
Proof.
  intros Hw H. destruct (run_ok e h r c f H) as (x & h' & E & A & _). exists x, h'. pose proof (ran h h e x h' (Ext_refl _) E) as He.
  split; auto. split; auto. split; [apply Ext_only_adds; auto|eapply Ext_wfheap; eauto].
Qed.

(** ** The statements *)
Lemma HTab_view h o h' o' r c f : HTab h o r c f -> HTab h' o' r c f -> view h (OM o) = view h' (OM o').
Proof.
  intros (_ & _ & _ & d & M1 & R1 & V1) (_ & _ & _ & d' & M2 & R2 & V2). rewrite (MRep_view _ _ _ M1), (MRep_view _ _ _ M2).
  destruct R1 as [L1 R1], R2 as [L2 R2]. apply BaseLemmas.list_ext; [lia|]. intros i Hi. assert (Hr : 0 <= i < r) by lia.
  apply BaseLemmas.list_ext; [rewrite R1, R2 by lia; auto|]. intros j Hj. rewrite R1 in Hj by auto. specialize (V1 i j Hr Hj). specialize (V2 i j Hr Hj).
  rewrite (mget_ok _ _ _ _ _ (conj L1 R1) Hr Hj) in V1. rewrite (mget_ok _ _ _ _ _ (conj L2 R2) Hr Hj) in V2. congruence.
Qed.
Lemma alike_ok {h h'} {m m' : M slice} r c f : returns m h (fun k o => HTab k o r c f) -> returns m' h' (fun k o => HTab k o r c f) ->
  alike m h m' h' (fun k a k' b => view k (OM a) = view k' (OM b)).
Proof. intros (o & k & E & H) (o' & k' & E' & H'). unfold alike. rewrite E, E'. eapply HTab_view; eauto. Qed.
Lemma alike_bad {h h'} {m m' : M slice} {e} R : m h = (Panic e, h) -> m' h' = (Panic e, h') -> alike m h m' h' R.
Proof. intros E E'. unfold alike. rewrite E, E'. reflexivity. Qed.
Lemma bad_Add h a m r c f r' c' g : HTab h a r c f -> HMatIs h m r' c' g -> r <> r' \/ c <> c' ->
  h2_Add a m h = (Panic EMatDimMismatch, h) /\ h2_Subtract a m h = (Panic EMatDimMismatch, h).
Proof. intros Ha Hm N. pose proof (ckAdd_bad h (HA a) m r c f r' c' g Ha Hm N) as E. split; [unfold h2_Add|unfold h2_Subtract]; unfold mbind at 1; rewrite E; auto. Qed.
Lemma bad_Multiply h a m r c f r' c' g : HTab h a r c f -> HMatIs h m r' c' g -> c <> r' -> h2_Multiply a m h = (Panic EDimMismatch, h).
Proof. intros Ha Hm N. unfold h2_Multiply, mbind at 1. rewrite (ckMul_bad h (HA a) m r c f r' c' g) by auto. auto. Qed.
Lemma arith_alike h a h' a' r c f m m' r2 c2 g : HTab h a r c f -> HTab h' a' r c f -> HMatIs h m r2 c2 g -> HMatIs h' m' r2 c2 g ->
  alike (h2_Add a m) h (h2_Add a' m') h' (fun k x k' y => view k (OM x) = view k' (OM y)) /\
  alike (h2_Subtract a m) h (h2_Subtract a' m') h' (fun k x k' y => view k (OM x) = view k' (OM y)) /\
  alike (h2_Multiply a m) h (h2_Multiply a' m') h' (fun k x k' y => view k (OM x) = view k' (OM y)).
Proof.
  intros Ha Ha' Hm Hm'. assert (D : (r = r2 /\ c = c2) \/ (r <> r2 \/ c <> c2)) by lia. split; [|split].
  - destruct D as [[<- <-]|N]; [apply (alike_ok r c (fun i j => (f i j + g i j)%f)); apply m2_Add; auto|]. eapply alike_bad; eapply bad_Add; eauto.
  - destruct D as [[<- <-]|N]; [apply (alike_ok r c (fun i j => (f i j - g i j)%f)); apply m2_Subtract; auto|]. eapply alike_bad; eapply bad_Add; eauto.
  - destruct (Z.eq_dec c r2) as [<-|N]; [apply (alike_ok r c2 (fun i j => fsum c (fun k => (f i k * g k j)%f))); apply m2_Multiply; auto|]. eapply alike_bad; eapply bad_Multiply; eauto.
Qed.
Lemma arith_entries h a m r c f g x : wfheap h -> HTab h a r c f -> HMatIs h m r c g ->
  fresh (h2_Add a m) OM h (fun h' o => HTab h' o r c (fun i j => (f i j + g i j)%f)) /\
  fresh (h2_Subtract a m) OM h (fun h' o => HTab h' o r c (fun i j => (f i j - g i j)%f)) /\
  fresh (h2_ScalarAdd a x) OM h (fun h' o => HTab h' o r c (fun i j => (f i j + x)%f)) /\
  fresh (h2_ScalarMultiply a x) OM h (fun h' o => HTab h' o r c (fun i j => (f i j * x)%f)).
Proof.
  intros Hw Ha Hm. destruct (arith_separate a m x nilsl (HArr nilsl)) as ((A & B & _) & (C & D) & _).
  split; [|split; [|split]]; apply fresh_of; auto using m2_Add, m2_Subtract, m2_ScalarAdd, m2_ScalarMultiply.
Qed.
Lemma arith_product h a m r n c f g : wfheap h -> HTab h a r n f -> HMatIs h m n c g ->
  fresh (h2_Multiply a m) OM h (fun h' o => HTab h' o r c (fun i j => fsum n (fun k => (f i k * g k j)%f))).
Proof.
  intros Hw Ha Hm. destruct (arith_separate a m fzero nilsl (HArr nilsl)) as ((A & B & C) & _). apply fresh_of; auto using m2_Multiply.
Qed.
Lemma arith_vectors h a r c f v w g k : wfheap h -> HTab h a r c f -> HVecIs h v c g -> HVecIs h w r k ->
  fresh (h2_Operate a v) OF h (fun h' o => HVecIs h' o r (fun i => fsum c (fun j => (f i j * g j)%f))) /\
  fresh (h2_OperateVector a (HArr v)) OF h (fun h' o => HVecIs h' o r (fun i => fsum c (fun j => (f i j * g j)%f))) /\
  fresh (h2_PreMultiply a w) OF h (fun h' o => HVecIs h' o c (fun j => fsum r (fun i => (f i j * k i)%f))) /\
  fresh (h2_PreMultiplyVector a (HArr w)) OF h (fun h' o => HVecIs h' o c (fun j => fsum r (fun i => (f i j * k i)%f))).
Proof.
  intros Hw Ha Hv Hk. destruct (arith_separate a (HA a) fzero v (HArr v)) as (_ & _ & (A & _) & (B & _)). destruct (arith_separate a (HA a) fzero w (HArr w)) as (_ & _ & (_ & C) & (_ & D)).
  split; [|split; [|split]]; apply fresh_of; auto; first [apply m2_Operate|apply m2_PreMultiply|apply m2_PreMultiplyVector]; auto.
Qed.
Lemma arith_mismatch h a m r c f r' c' g : HTab h a r c f -> HMatIs h m r' c' g ->
  (r <> r' \/ c <> c' -> h2_Add a m h = (Panic EMatDimMismatch, h) /\ h2_Subtract a m h = (Panic EMatDimMismatch, h)) /\
  (c <> r' -> h2_Multiply a m h = (Panic EDimMismatch, h)).
Proof. intros Ha Hm. split; intros; [eapply bad_Add; eauto|eapply bad_Multiply; eauto]. Qed.
Lemma arith_diag h d e n f g : wfheap h -> 1 <= n -> HVecIs h d n f -> HVecIs h e n g ->
  fresh (hd_Add d (HD e)) OF h (fun h' o => HVecIs h' o n (fun i => (f i + g i)%f)) /\
  fresh (hd_Subtract d (HD e)) OF h (fun h' o => HVecIs h' o n (fun i => (f i - g i)%f)) /\
  fresh (hd_Multiply d (HD e)) hm_obj h (fun h' o => exists s, o = HD s /\ HVecIs h' s n (fun i => (f i * g i)%f)).
Proof.
  intros Hw Hn Hd He. destruct (arith_separate_diag d (HD e) fzero d (HArr d)) as ((A & B & C) & _). destruct (md_binop h d e n f g Hn Hd He) as (X & Y & Z0).
  split; [|split]; apply fresh_of; auto.
Qed.
Lemma arith_diag_table h d m r c f g : wfheap h -> HVecIs h d r f -> HMatIs h m r c g -> (forall s, m <> HD s) ->
  fresh (hd_Multiply d m) hm_obj h (fun h' o => exists s, o = HA s /\ HTab h' s r c (fun i j => (f i * g i j)%f)).
Proof. intros Hw Hd Hm N. destruct (arith_separate_diag d m fzero d (HArr d)) as ((A & B & C) & _). apply fresh_of; auto. apply md_table; auto. Qed.
Lemma arith_diag_vector h d n f v g : wfheap h -> 1 <= n -> HVecIs h d n f -> HVIs h v n g ->
  fresh (hd_PreMultiplyVector d v) OF h (fun h' o => HVecIs h' o n (fun i => (f i * g i)%f)) /\
  fresh (hd_OperateVector d v) OF h (fun h' o => HVecIs h' o n (match v with HArr _ => fun i => (f i * g i)%f
    | HOther _ => fun i => fsum n (fun k => ((if (i =? k)%Z then f i else fzero) * g k)%f) end)) /\
  (forall s, v = HArr s -> fresh (hd_Operate d s) OF h (fun h' o => HVecIs h' o n (fun i => (f i * g i)%f))).
Proof.
  intros Hw Hn Hd Hv. destruct (arith_separate_diag d (HD d) fzero d v) as (_ & _ & (_ & A & B)). destruct (md_vector h d n f v g Hn Hd Hv) as [X Y].
  split; [|split]; [apply fresh_of; auto|apply fresh_of; auto|]. intros s ->. destruct (arith_separate_diag d (HD d) fzero s (HArr s)) as (_ & _ & (C & _)).
  apply fresh_of; auto. apply own_vec. apply g_dOperate; auto.
Qed.
End HeapArithProps.

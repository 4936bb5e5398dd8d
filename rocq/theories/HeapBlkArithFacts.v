(** The arithmetic of HeapBlkArith.v returns what the value model computes, and
    writes nothing that was there. *)
From Coq Require Import ZArith List Lia Bool.
From Verif Require Import Base BaseLemmas Scalar Vector Matrix VecSpec MatSpec MatFacts Array2D BlockM Diagonal BlockFacts BlockMul.
From Verif Require Import Heap HeapSpec HeapFacts HeapIndep HeapSim HeapSim2 HeapSim3 HeapSim4 HeapMain HeapProps HeapDec HeapDecFacts HeapAtom HeapRefSpec HeapRef2 HeapRef8 HeapRef9
  HeapSolve HeapSolveFacts HeapArith HeapArithFacts HeapArithMain HeapBlkArith.
Import ListNotations.
Open Scope Z_scope.

Section HeapBlkArithFacts.
Context {O : Ops}.
Opaque BLOCK_SIZE.

(** ** Only new storage is written *)
Lemma keeps_while {T} h0 n c (B : T -> M T) : (forall s h1, keeps h0 h1 (B s) any) -> forall hm s, keeps h0 hm (mwhile n c B s) any.
Proof.
  intros HB. induction n as [|n IH]; intros hm s; cbn [mwhile]; [apply keeps_panic|]. destruct (c s); [|apply keeps_ret; intros; exact I].
  eapply keeps_bind; [apply HB|]. intros. apply IH.
Qed.
Ltac kw := repeat first [apply k_ckAdd | apply k_ckMul | apply keeps_mpan, kb_New | apply km_At | apply km_cols | apply kb_ckrow | apply kb_ckcol
  | apply keeps_while; intros | kd1].
Lemma kc_Add h0 hm b m : keeps h0 hm (hb_Add b m) (isnewB h0).
Proof. unfold hb_Add. destruct m; kw. Qed.
Lemma kc_Subtract h0 hm b m : keeps h0 hm (hb_Subtract b m) (isnewB h0).
Proof. unfold hb_Subtract. destruct m; kw. Qed.
Lemma kc_ScalarAdd h0 hm b x : keeps h0 hm (hb_ScalarAdd b x) (isnewB h0).
Proof. unfold hb_ScalarAdd. kw. Qed.
Lemma kc_ScalarMultiply h0 hm b x : keeps h0 hm (hb_ScalarMultiply b x) (isnewB h0).
Proof. unfold hb_ScalarMultiply. kw. Qed.
Lemma kc_dot4 h0 hm t m w l0 l1 n : keeps h0 hm (hb_dot4 t m w l0 l1 n) any.
Proof. unfold hb_dot4. kw. Qed.
Lemma kc_Multiply h0 hm b m : keeps h0 hm (hb_Multiply b m) (isnewB h0).
Proof. unfold hb_Multiply. destruct m; repeat first [apply kc_dot4 | progress kw]. Qed.
Lemma kc_Operate h0 hm b v : keeps h0 hm (hb_Operate b v) (isnewF h0).
Proof. unfold hb_Operate. kw. Qed.
Lemma kc_PreMultiply h0 hm b v : keeps h0 hm (hb_PreMultiply b v) (isnewF h0).
Proof. unfold hb_PreMultiply. kw. Qed.
Lemma kc_OperateVector h0 hm b v : keeps h0 hm (hb_OperateVector b v) (isnewF h0).
Proof. destruct v; cbn; [apply kc_Operate|kw]. Qed.
Lemma kc_PreMultiplyVector h0 hm b v : keeps h0 hm (hb_PreMultiplyVector b v) (isnewF h0).
Proof. destruct v; cbn; [apply kc_PreMultiply|kw]. Qed.

(** ** Reading *)
Lemma r_while {T} n c (pb : T -> res T) (B : T -> M T) h : (forall p p1, pb p = Ok p1 -> runs (B p) h p1 h) ->
  forall p p', while_ n c pb p = Ok p' -> runs (mwhile n c B p) h p' h.
Proof.
  intros HB. induction n as [|n IH]; intros p p' H; cbn [while_ mwhile] in *; [discriminate|]. destruct (c p); [|injection H as <-; apply runs_ret].
  binv H p1 H1. eapply runs_bind; [apply HB; eauto|]. auto.
Qed.
Lemma x_At h0 h m r c g V p q y : HMatIs h0 m r c g -> MatIs V r c g -> Ext h0 h -> m_At V p q = Ok y -> runs (hm_At m p q) h y h.
Proof.
  intros Hm (_ & Er & Ec & HI & HO) He E. assert (R : (0 <= p < r) /\ (0 <= q < c)).
  { destruct (Z_lt_ge_dec p 0) as [?|?], (Z_lt_ge_dec p r) as [?|?], (Z_lt_ge_dec q 0) as [?|?], (Z_lt_ge_dec q c) as [?|?]; try lia;
    exfalso; destruct (HO p q ltac:(lia)) as [e Ee]; congruence. }
  rewrite (HI p q) in E by apply R. injection E as <-. apply (mat_At h0 m r c g Hm h p q He); apply R.
Qed.
(** A value of the value model for an operand. *)
Definition vkind (h : heap) (m : HMat) (V : RealMatrix) : Prop :=
  match m with HB mb => exists mb', V = MBlk mb' /\ BRep h mb mb' | _ => forall b', V <> MBlk b' end.
Lemma x_value h m r c g : HMatIs h m r c g -> 1 <= c /\ exists V, vkind h m V /\ MatIs V r c g.
Proof.
  destruct m as [a|s|b]; intros H.
  - split; [apply H|]. destruct (HTab_elim _ _ _ _ _ H) as (d & _ & HM & _). exists (MArr (mkA2D (Some d))). split; [intros b; discriminate|auto].
  - destruct H as (-> & Hr & k & HV & Hg). split; [auto|]. destruct (HVecIs_elim _ _ _ _ HV) as (l & HVR & HT).
    exists (MDiag (mkDiag l)). split; [intros b; discriminate|]. destruct HT as [L HN]. apply MatIs_diag'; [auto| |].
    + intros i Hi. rewrite HN, Hg, Z.eqb_refl by auto. reflexivity.
    + intros i j Hi Hj N. rewrite Hg by auto. destruct (Z.eqb_spec i j); [contradiction|reflexivity].
  - split; [apply (HBlkIs_pos _ _ _ _ _ H)|]. destruct (HBlkIs_elim _ _ _ _ _ H) as (v & HB & HI). exists (MBlk v). split; [exists v; auto|]. apply MatIs_blk; auto.
Qed.

(** ** Writing *)
Lemma sh_blocks hb b bl : sameshape hb b -> sameshape hb (with_blocks b bl).
Proof. intros (A & B & C & D). repeat split; auto. Qed.
Lemma TabE_BRep h0 hb b bl h : TabE h0 (hb_blocks hb) bl h -> sameshape hb b -> BRep h hb (with_blocks b bl).
Proof. intros HT Sh. split; [apply (TabE_MRep _ _ _ _ HT)|apply sh_blocks; auto]. Qed.
(** A block of an operand. *)
Lemma src_blk h0 o d i r h : MRep h0 o d -> Ext h0 h -> zget d i = Ok r -> exists s, runs (rdS o i) h s h /\
  forall h' k x, Ext h0 h' -> zget r k = Ok x -> runs (rdF s k) h' x h'.
Proof.
  intros HM He E. destruct (src_row _ _ _ _ _ HM E) as (s & Hs). exists s. split; [apply (Hs h He)|].
  intros h' k x He' Ex. eapply runs_rdF; [apply (Hs h' He')|exact Ex].
Qed.
Lemma TabE_blk h0 o d i r h : TabE h0 o d h -> zget d i = Ok r -> exists s, runs (rdS o i) h s h /\ sl_len s = len r.
Proof.
  intros HT E. destruct (TabE_rd _ _ _ _ _ _ HT E) as (s & HR). exists s. split; [eapply RowE_rd; eauto|].
  destruct HR as (hd & HA). destruct (Row_VRep _ _ _ _ (AtRow_Row _ _ _ _ _ _ _ _ HA)) as (_ & L & _). exact L.
Qed.
Lemma TabE_rd2 h0 o d i k x h : TabE h0 o d h -> mget d i k = Ok x -> runs (rd2 o i k) h x h.
Proof. intros HT E. eapply runs_rd2; [apply (TabE_MRep _ _ _ _ HT)|exact E]. Qed.
Lemma g_other h0 hb b m r c g V hout op bl0 bl k0 h1 (br bc rows cols : Z) : BRep h0 hb b -> HMatIs h0 m r c g -> MatIs V r c g -> 
  TabE h0 (hb_blocks hout) bl0 h1 ->
  for_ 0 br (fun iBlock s =>
        for_ 0 bc (fun jBlock '(bl, blockIndex) =>
          let* tBlock := zget (b_blocks b) blockIndex in
          let pStart := iBlock * BLOCK_SIZE in
          let pEnd := Z.min (pStart + BLOCK_SIZE) rows in
          let qStart := jBlock * BLOCK_SIZE in
          let qEnd := Z.min (qStart + BLOCK_SIZE) cols in
          let* (bl, _) := for_ pStart pEnd (fun p s =>
            for_ qStart qEnd (fun q '(bl, k) =>
              let* x := zget tBlock k in
              let* y := m_At V p q in
              let* bl := mset bl blockIndex k (op x y) in
              Ok (bl, k + 1)) s) (bl, 0) in
          Ok (bl, blockIndex + 1)) s) (bl0, 0) = Ok (bl, k0) ->
  goes (mfor 0 br (fun iBlock blockIndex =>
        mfor 0 bc (fun jBlock blockIndex =>
          let! tBlock := rdS (hb_blocks hb) blockIndex in
          let pStart := iBlock * BLOCK_SIZE in
          let pEnd := Z.min (pStart + BLOCK_SIZE) rows in
          let qStart := jBlock * BLOCK_SIZE in
          let qEnd := Z.min (qStart + BLOCK_SIZE) cols in
          let! _ := mfor pStart pEnd (fun p k =>
            mfor qStart qEnd (fun q k =>
              let! x := rdF tBlock k in
              let! y := hm_At m p q in
              let! _ := wr2 (hb_blocks hout) blockIndex k (op x y) in
              ret (k + 1)) k) 0 in
          ret (blockIndex + 1)) blockIndex) 0) h1 (fun _ => TabE h0 (hb_blocks hout) bl).
Proof.
  intros (HM & Sh) Hm HV HT Hl. set (J := fun (_ : Z) '((d, k) : list (list F) * Z) (k' : Z) h => k' = k /\ TabE h0 (hb_blocks hout) d h).
  eapply g_imp; [eapply (g_for J); [exact Hl|split; auto|]|intros k' h2 [_ HT2]; exact HT2].
  intros i [d2 k2] k' h2 [d3 k3] Hi [-> HT2] HP. eapply g_imp; [eapply (g_for J); [exact HP|split; auto|]|intros k' h3 HJ; exact HJ].
  intros j [d4 k4] k' h3 [d5 k5] Hj [-> HT3] HQ. binv HQ t Ht. cbv zeta in *.
  destruct (src_blk _ _ _ _ _ _ HM (TabE_e _ _ _ _ HT3) Ht) as (s & Rs & Hs). eapply g_step; [exact Rs|]. cbv zeta.
  binv HQ st Hst. destruct st as [d6 k6]. injection HQ as <- <-. apply g_bind.
  eapply g_imp; [eapply (g_for J); [exact Hst|split; auto|]|intros k' h4 [_ HT4]; apply g_ret; split; auto].
  intros p [d7 k7] k' h4 [d8 k8] Hp [-> HT4] HR. eapply g_imp; [eapply (g_for J); [exact HR|split; auto|]|intros k' h5 HJ; exact HJ].
  intros q [d9 k9] k' h5 [d10 k10] Hq [-> HT5] HS. binv HS x Hx. binv HS y Hy. binv HS bl' Hb'. injection HS as <- <-.
  eapply g_step; [apply Hs; [apply (TabE_e _ _ _ _ HT5)|exact Hx]|]. eapply g_step; [eapply x_At; eauto; apply (TabE_e _ _ _ _ HT5)|].
  apply g_bind. eapply g_imp; [eapply g_wr2; eauto|]. intros [] h6 HT6. apply g_ret. split; auto.
Qed.
Lemma g_blk h0 hb b hm bm hout op bl0 bl h1 n : BRep h0 hb b -> BRep h0 hm bm -> TabE h0 (hb_blocks hout) bl0 h1 ->
  for_ 0 n (fun blockIndex bl =>
        let* tBlock := zget (b_blocks b) blockIndex in
        let* mBlock := zget (b_blocks bm) blockIndex in
        let* oBlock := zget bl blockIndex in
        for_ 0 (len oBlock) (fun k bl =>
          let* x := zget tBlock k in
          let* y := zget mBlock k in
          mset bl blockIndex k (op x y)) bl) bl0 = Ok bl ->
  goes (mfor 0 n (fun blockIndex (_ : unit) =>
        let! tBlock := rdS (hb_blocks hb) blockIndex in
        let! mBlock := rdS (hb_blocks hm) blockIndex in
        let! oBlock := rdS (hb_blocks hout) blockIndex in
        mfor 0 (sl_len oBlock) (fun k (_ : unit) =>
          let! x := rdF tBlock k in
          let! y := rdF mBlock k in
          wr2 (hb_blocks hout) blockIndex k (op x y)) tt) tt) h1 (fun _ => TabE h0 (hb_blocks hout) bl).
Proof.
  intros (HM & _) (HN & _) HT Hl. eapply g_imp; [eapply tab_for; [exact HT|exact Hl|]|intros [] h2 HT2; exact HT2].
  intros i h2 d2 d3 Hi HT2 HP. binv HP t Ht. binv HP m Hm. binv HP o Ho.
  destruct (src_blk _ _ _ _ _ _ HM (TabE_e _ _ _ _ HT2) Ht) as (s & Rs & Hs). eapply g_step; [exact Rs|].
  destruct (src_blk _ _ _ _ _ _ HN (TabE_e _ _ _ _ HT2) Hm) as (s1 & Rs1 & Hs1). eapply g_step; [exact Rs1|].
  destruct (TabE_blk _ _ _ _ _ _ HT2 Ho) as (s2 & Rs2 & L). eapply g_step; [exact Rs2|]. rewrite L.
  eapply g_imp; [eapply tab_for; [exact HT2|exact HP|]|intros [] h3 HT3; exact HT3].
  intros k h3 d4 d5 Hk HT3 HQ. binv HQ x Hx. binv HQ y Hy. pose proof (TabE_e _ _ _ _ HT3) as He.
  eapply g_step; [apply Hs; eauto|]. eapply g_step; [apply Hs1; eauto|]. eapply g_imp; [eapply g_wr2; eauto|]. intros [] h4 HT4. exact HT4.
Qed.
Lemma g_scal h0 hb b hout op bl0 bl h1 n : BRep h0 hb b -> TabE h0 (hb_blocks hout) bl0 h1 ->
  for_ 0 n (fun blockIndex bl =>
    let* tBlock := zget (b_blocks b) blockIndex in
    let* oBlock := zget bl blockIndex in
    for_ 0 (len oBlock) (fun k bl =>
      let* x := zget tBlock k in
      mset bl blockIndex k (op x)) bl) bl0 = Ok bl ->
  goes (mfor 0 n (fun blockIndex (_ : unit) =>
    let! tBlock := rdS (hb_blocks hb) blockIndex in
    let! oBlock := rdS (hb_blocks hout) blockIndex in
    mfor 0 (sl_len oBlock) (fun k (_ : unit) =>
      let! x := rdF tBlock k in
      wr2 (hb_blocks hout) blockIndex k (op x)) tt) tt) h1 (fun _ => TabE h0 (hb_blocks hout) bl).
Proof.
  intros (HM & _) HT Hl. eapply g_imp; [eapply tab_for; [exact HT|exact Hl|]|intros [] h2 HT2; exact HT2].
  intros i h2 d2 d3 Hi HT2 HP. binv HP t Ht. binv HP o Ho.
  destruct (src_blk _ _ _ _ _ _ HM (TabE_e _ _ _ _ HT2) Ht) as (s & Rs & Hs). eapply g_step; [exact Rs|].
  destruct (TabE_blk _ _ _ _ _ _ HT2 Ho) as (s2 & Rs2 & L). eapply g_step; [exact Rs2|]. rewrite L.
  eapply g_imp; [eapply tab_for; [exact HT2|exact HP|]|intros [] h3 HT3; exact HT3].
  intros k h3 d4 d5 Hk HT3 HQ. binv HQ x Hx. pose proof (TabE_e _ _ _ _ HT3) as He.
  eapply g_step; [apply Hs; eauto|]. eapply g_imp; [eapply g_wr2; eauto|]. intros [] h4 HT4. exact HT4.
Qed.
Lemma sb_Add h0 hb b m V r c f g b' : BRep h0 hb b -> HMatIs h0 (HB hb) r c f -> HMatIs h0 m r c g -> MatIs V r c g -> vkind h0 m V ->
  b_Add b V = Ok b' -> goes (hb_Add hb m) h0 (fun o h => BRep h o b').
Proof.
  unfold b_Add, hb_Add. intros HB Hb Hm HV K H. pose proof HB as (HM & Sh). pose proof Sh as (S1 & S2 & S3 & S4).
  binv H u Hu. rewrite S1, S2. eapply g_step; [exact (ckAdd_ok _ _ _ r c _ _ Hb Hm)|].
  binv H out Hn. apply orpanic_ok in Hn.
  apply g_bind, g_mpan. eapply g_imp; [eapply sb_New; eauto; apply Ext_refl|]. intros hout h1 [HT Sho].
  pose proof Sho as (O1 & O2 & O3 & O4). destruct m as [a|s|mb]; cbn [vkind] in K.
  - destruct V as [A|B|D|? ? ?]; [|exfalso; eapply K; reflexivity|..].
    + binv H st Hst. destruct st as [bl k]. injection H as <-. rewrite O3, O4. apply g_bind.
      eapply g_imp; [eapply (g_other h0 hb b) with (op := fun x y => (x + y)%f); eauto|]. nx kk h2 HT2. apply g_ret. eapply TabE_BRep; eauto.
    + binv H st Hst. destruct st as [bl k]. injection H as <-. rewrite O3, O4. apply g_bind.
      eapply g_imp; [eapply (g_other h0 hb b) with (op := fun x y => (x + y)%f); eauto|]. nx kk h2 HT2. apply g_ret. eapply TabE_BRep; eauto.
    + binv H st Hst. destruct st as [bl k]. injection H as <-. rewrite O3, O4. apply g_bind.
      eapply g_imp; [eapply (g_other h0 hb b) with (op := fun x y => (x + y)%f); eauto|]. nx kk h2 HT2. apply g_ret. eapply TabE_BRep; eauto.
  - destruct V as [A|B|D|? ? ?]; [|exfalso; eapply K; reflexivity|..].
    + binv H st Hst. destruct st as [bl k]. injection H as <-. rewrite O3, O4. apply g_bind.
      eapply g_imp; [eapply (g_other h0 hb b) with (op := fun x y => (x + y)%f); eauto|]. nx kk h2 HT2. apply g_ret. eapply TabE_BRep; eauto.
    + binv H st Hst. destruct st as [bl k]. injection H as <-. rewrite O3, O4. apply g_bind.
      eapply g_imp; [eapply (g_other h0 hb b) with (op := fun x y => (x + y)%f); eauto|]. nx kk h2 HT2. apply g_ret. eapply TabE_BRep; eauto.
    + binv H st Hst. destruct st as [bl k]. injection H as <-. rewrite O3, O4. apply g_bind.
      eapply g_imp; [eapply (g_other h0 hb b) with (op := fun x y => (x + y)%f); eauto|]. nx kk h2 HT2. apply g_ret. eapply TabE_BRep; eauto.
  - destruct K as (mb' & -> & HB2). binv H bl Hbl. injection H as <-. rewrite (TabE_len _ _ _ _ HT). apply g_bind.
  eapply g_imp; [eapply (g_blk h0 hb b mb mb') with (op := fun x y => (x + y)%f); eauto|]. nx kk h2 HT2. apply g_ret. eapply TabE_BRep; eauto.
Qed.
Lemma sb_Subtract h0 hb b m V r c f g b' : BRep h0 hb b -> HMatIs h0 (HB hb) r c f -> HMatIs h0 m r c g -> MatIs V r c g -> vkind h0 m V ->
  b_Subtract b V = Ok b' -> goes (hb_Subtract hb m) h0 (fun o h => BRep h o b').
Proof.
  unfold b_Subtract, hb_Subtract. intros HB Hb Hm HV K H. pose proof HB as (HM & Sh). pose proof Sh as (S1 & S2 & S3 & S4).
  binv H u Hu. rewrite S1, S2. eapply g_step; [exact (ckAdd_ok _ _ _ r c _ _ Hb Hm)|].
  binv H out Hn. apply orpanic_ok in Hn.
  apply g_bind, g_mpan. eapply g_imp; [eapply sb_New; eauto; apply Ext_refl|]. intros hout h1 [HT Sho].
  pose proof Sho as (O1 & O2 & O3 & O4). destruct m as [a|s|mb]; cbn [vkind] in K.
  - destruct V as [A|B|D|? ? ?]; [|exfalso; eapply K; reflexivity|..].
    + binv H st Hst. destruct st as [bl k]. injection H as <-. rewrite O3, O4. apply g_bind.
      eapply g_imp; [eapply (g_other h0 hb b) with (op := fun x y => (x - y)%f); eauto|]. nx kk h2 HT2. apply g_ret. eapply TabE_BRep; eauto.
    + binv H st Hst. destruct st as [bl k]. injection H as <-. rewrite O3, O4. apply g_bind.
      eapply g_imp; [eapply (g_other h0 hb b) with (op := fun x y => (x - y)%f); eauto|]. nx kk h2 HT2. apply g_ret. eapply TabE_BRep; eauto.
    + binv H st Hst. destruct st as [bl k]. injection H as <-. rewrite O3, O4. apply g_bind.
      eapply g_imp; [eapply (g_other h0 hb b) with (op := fun x y => (x - y)%f); eauto|]. nx kk h2 HT2. apply g_ret. eapply TabE_BRep; eauto.
  - destruct V as [A|B|D|? ? ?]; [|exfalso; eapply K; reflexivity|..].
    + binv H st Hst. destruct st as [bl k]. injection H as <-. rewrite O3, O4. apply g_bind.
      eapply g_imp; [eapply (g_other h0 hb b) with (op := fun x y => (x - y)%f); eauto|]. nx kk h2 HT2. apply g_ret. eapply TabE_BRep; eauto.
    + binv H st Hst. destruct st as [bl k]. injection H as <-. rewrite O3, O4. apply g_bind.
      eapply g_imp; [eapply (g_other h0 hb b) with (op := fun x y => (x - y)%f); eauto|]. nx kk h2 HT2. apply g_ret. eapply TabE_BRep; eauto.
    + binv H st Hst. destruct st as [bl k]. injection H as <-. rewrite O3, O4. apply g_bind.
      eapply g_imp; [eapply (g_other h0 hb b) with (op := fun x y => (x - y)%f); eauto|]. nx kk h2 HT2. apply g_ret. eapply TabE_BRep; eauto.
  - destruct K as (mb' & -> & HB2). binv H bl Hbl. injection H as <-. rewrite (TabE_len _ _ _ _ HT). apply g_bind.
  eapply g_imp; [eapply (g_blk h0 hb b mb mb') with (op := fun x y => (x - y)%f); eauto|]. nx kk h2 HT2. apply g_ret. eapply TabE_BRep; eauto.
Qed.
Lemma sb_ScalarAdd h0 hb b x b' : BRep h0 hb b -> b_ScalarAdd b x = Ok b' -> goes (hb_ScalarAdd hb x) h0 (fun o h => BRep h o b').
Proof.
  intros HB H. pose proof HB as (HM & Sh). pose proof Sh as (S1 & S2 & S3 & S4). unfold b_ScalarAdd in H. unfold hb_ScalarAdd. rewrite S1, S2.
  binv H out Hn. apply orpanic_ok in Hn. apply g_bind, g_mpan. eapply g_imp; [eapply sb_New; eauto; apply Ext_refl|]. intros hout h1 [HT Sho].
  binv H bl Hbl. injection H as <-. rewrite (TabE_len _ _ _ _ HT). apply g_bind.
  eapply g_imp; [eapply (g_scal h0 hb b) with (op := fun y => (y + x)%f); eauto|]. nx kk h2 HT2. apply g_ret. eapply TabE_BRep; eauto.
Qed.
Lemma sb_ScalarMultiply h0 hb b x b' : BRep h0 hb b -> b_ScalarMultiply b x = Ok b' -> goes (hb_ScalarMultiply hb x) h0 (fun o h => BRep h o b').
Proof.
  intros HB H. pose proof HB as (HM & Sh). pose proof Sh as (S1 & S2 & S3 & S4). unfold b_ScalarMultiply in H. unfold hb_ScalarMultiply. rewrite S1, S2.
  binv H out Hn. apply orpanic_ok in Hn. apply g_bind, g_mpan. eapply g_imp; [eapply sb_New; eauto; apply Ext_refl|]. intros hout h1 [HT Sho].
  binv H bl Hbl. injection H as <-. rewrite (TabE_len _ _ _ _ HT). apply g_bind.
  eapply g_imp; [eapply (g_scal h0 hb b) with (op := fun y => (y * x)%f); eauto|]. nx kk h2 HT2. apply g_ret. eapply TabE_BRep; eauto.
Qed.
End HeapBlkArithFacts.

(** Products of a BlockRealMatrix in memory: the value model's results. *)
From Coq Require Import ZArith List Lia Bool.
From Verif Require Import Base BaseLemmas Scalar Vector Matrix VecSpec MatSpec MatFacts Array2D BlockM Diagonal BlockFacts BlockMul.
From Verif Require Import Heap HeapSpec HeapFacts HeapIndep HeapSim HeapSim2 HeapSim3 HeapSim4 HeapMain HeapProps HeapDec HeapDecFacts HeapAtom HeapRefSpec HeapRef2 HeapRef8 HeapRef9
  HeapSolve HeapSolveFacts HeapArith HeapArithFacts HeapArithMain HeapBlkArith HeapBlkArithFacts.
Import ListNotations.
Open Scope Z_scope.

Section HeapBlkArithMain.
Context {O : Ops}.
Opaque BLOCK_SIZE.

Definition reads (h : heap) (s : slice) (l : list F) : Prop := forall k x, zget l k = Ok x -> runs (rdF s k) h x h.
Ltac rb1 := first [eapply runs_bind; [solve [eauto]|] | apply runs_ret].
Lemma r_dot4 h ts ms t m w l0 l1 n x : reads h ts t -> reads h ms m -> b_dot4 t m w l0 l1 n = Ok x -> runs (hb_dot4 ts ms w l0 l1 n) h x h.
Proof.
  intros Ht Hm H. unfold b_dot4 in H. unfold hb_dot4. cbv zeta in *. binv H st Hst. destruct st as [[s l] k]. binv H st2 Hst2. destruct st2 as [[s2 l2] k2].
  injection H as <-. eapply runs_bind.
  - eapply r_while; [|exact Hst]. intros [[s3 l3] k3] p1 HP.
    binv HP a0 A0. binv HP b0 B0. binv HP a1 A1. binv HP b1 B1. binv HP a2 A2. binv HP b2 B2. binv HP a3 A3. binv HP b3 B3. injection HP as <-.
    repeat rb1.
  - eapply runs_bind; [eapply r_while; [|exact Hst2]|apply runs_ret]. intros [[s3 l3] k3] p1 HP. binv HP a0 A0. binv HP b0 B0. injection HP as <-. repeat rb1.
Qed.
Lemma sb_MultiplyBlk h0 hb b mb m r n c f g b' : BRep h0 hb b -> BRep h0 mb m -> HMatIs h0 (HB hb) r n f -> HMatIs h0 (HB mb) n c g ->
  b_Multiply b (MBlk m) = Ok b' -> goes (hb_Multiply hb (HB mb)) h0 (fun o h => BRep h o b').
Proof.
  intros HB HB2 Hb Hm H. pose proof HB as (HM & Sh). pose proof Sh as (S1 & S2 & S3 & S4). pose proof HB2 as (HM2 & Sh2). pose proof Sh2 as (T1 & T2 & T3 & T4).
  unfold b_Multiply in H. unfold hb_Multiply. binv H u Hu. eapply g_step; [exact (ckMul_ok _ _ _ _ _ _ _ _ Hb Hm)|]. rewrite S1, S4, T2, T4.
  binv H out Hn. apply orpanic_ok in Hn.
  apply g_bind, g_mpan. eapply g_imp; [eapply sb_New; eauto; apply Ext_refl|]. intros hout h1 [HT Sho].
  pose proof Sho as (O1 & O2 & O3 & O4). rewrite O3, O4. binv H st Hl. destruct st as [bl k0]. injection H as <-.
  set (J := fun (_ : Z) '((d, k) : list (list F) * Z) (k' : Z) h => k' = k /\ TabE h0 (hb_blocks hout) d h).
  apply g_bind. eapply g_imp; [eapply (g_for J); [exact Hl|split; auto|]|intros k' h2 [_ HT2]; apply g_ret; eapply TabE_BRep; eauto].
  intros i [d2 k2] k' h2 [d3 k3] Hi [-> HT2] HP. cbv zeta in *. eapply g_imp; [eapply (g_for J); [exact HP|split; auto|]|intros k' h3 HJ; exact HJ].
  intros j [d4 k4] k' h3 [d5 k5] Hj [-> HT3] HQ. cbv zeta in HQ. rewrite (sh_width _ _ _ Sho). binv HQ bl1 Hbl1. injection HQ as <- <-.
  apply g_bind. eapply g_imp; [eapply tab_for; [exact HT3|exact Hbl1|]|intros [] h4 HT4; apply g_ret; split; auto].
  intros kb h4 d6 d7 Hkb HT4 HR. cbv zeta in HR. rewrite (sh_width _ _ _ Sh). binv HR t Ht. binv HR mm Hmm. binv HR st Hst. destruct st as [d8 k8]. injection HR as <-.
  destruct (src_blk _ _ _ _ _ _ HM (TabE_e _ _ _ _ HT4) Ht) as (s & Rs & Hs). eapply g_step; [exact Rs|].
  destruct (src_blk _ _ _ _ _ _ HM2 (TabE_e _ _ _ _ HT4) Hmm) as (s1 & Rs1 & Hs1). eapply g_step; [exact Rs1|].
  apply g_bind. eapply g_imp; [eapply (g_for J); [exact Hst|split; auto|]|intros k' h5 [_ HT5]; apply g_ret; exact HT5].
  intros p [d9 k9] k' h5 [d10 k10] Hp [-> HT5] HU. cbv zeta in *. eapply g_imp; [eapply (g_for J); [exact HU|split; auto|]|intros k' h6 HJ; exact HJ].
  intros q [d11 k11] k' h6 [d12 k12] Hq [-> HT6] HW. binv HW x Hx. binv HW o Ho. binv HW bl2 Hbl2. injection HW as <- <-. pose proof (TabE_e _ _ _ _ HT6) as He.
  eapply g_step; [eapply r_dot4; [| |exact Hx]; red; intros; eauto|]. eapply g_step; [eapply TabE_rd2; eauto|].
  apply g_bind. eapply g_imp; [eapply g_wr2; eauto|]. intros [] h7 HT7. apply g_ret. split; auto.
Qed.
Lemma sb_MultiplyOther h0 hb b x V r n c f g b' : BRep h0 hb b -> HMatIs h0 (HB hb) r n f -> HMatIs h0 x n c g -> MatIs V n c g ->
  (forall mb, x <> HB mb) -> (forall mb, V <> MBlk mb) ->
  b_Multiply b V = Ok b' -> goes (hb_Multiply hb x) h0 (fun o h => BRep h o b').
Proof.
  intros HB Hb Hm HV Nx NV H. pose proof HB as (HM & Sh). pose proof Sh as (S1 & S2 & S3 & S4).
  unfold b_Multiply in H. unfold hb_Multiply. binv H u Hu. eapply g_step; [exact (ckMul_ok _ _ _ _ _ _ _ _ Hb Hm)|]. rewrite S1, S4.
  destruct (HMat_dims _ _ _ _ _ Hm) as [D1 D2]. pose proof (MatIs_cols _ _ _ _ HV) as EC.
  set (J := fun (hout : HBlk) (_ : Z) '((d, k) : list (list F) * Z) (k' : Z) h => k' = k /\ TabE h0 (hb_blocks hout) d h).
  assert (HH : (let* mcols := m_cols V in
      let* out := orpanic (NewBlockRealMatrix (b_rows b) mcols) in
      let* (bl, _) := for_ 0 (b_blockRows out) (fun iBlock s =>
        let pStart := iBlock * BLOCK_SIZE in
        let pEnd := Z.min (pStart + BLOCK_SIZE) (b_rows b) in
        for_ 0 (b_blockColumns out) (fun jBlock '(bl, blockIndex) =>
          let qStart := jBlock * BLOCK_SIZE in
          let qEnd := Z.min (qStart + BLOCK_SIZE) mcols in
          let* bl := for_ 0 (b_blockColumns b) (fun kBlock bl =>
            let kWidth := blockWidth b kBlock in
            let* tBlock := zget (b_blocks b) (iBlock * b_blockColumns b + kBlock) in
            let rStart := kBlock * BLOCK_SIZE in
            let* (bl, _) := for_ pStart pEnd (fun p s =>
              let lStart := (p - pStart) * kWidth in
              let lEnd := lStart + kWidth in
              for_ qStart qEnd (fun q '(bl, k) =>
                let* (sum, _) := for_ lStart lEnd (fun l '(sum, r) =>
                  let* t := zget tBlock l in
                  let* y := m_At V r q in
                  Ok ((sum + t * y)%f, r + 1)) (fzero, rStart) in
                let* o := mget bl blockIndex k in
                let* bl := mset bl blockIndex k (o + sum)%f in
                Ok (bl, k + 1)) s) (bl, 0) in
            Ok bl) bl in
          Ok (bl, blockIndex + 1)) s) (b_blocks out, 0) in
      Ok (with_blocks out bl)) = Ok b').
  { destruct V; [exact H|exfalso; eapply NV; reflexivity|exact H|exact H]. }
  clear H. rename HH into H.
  assert (GG : goes (let! mcols := hm_cols x in
      let! out := mpan (hb_New (b_rows b) mcols) in
      let! _ := mfor 0 (hb_blockRows out) (fun iBlock blockIndex =>
        let pStart := iBlock * BLOCK_SIZE in
        let pEnd := Z.min (pStart + BLOCK_SIZE) (b_rows b) in
        mfor 0 (hb_blockColumns out) (fun jBlock blockIndex =>
          let qStart := jBlock * BLOCK_SIZE in
          let qEnd := Z.min (qStart + BLOCK_SIZE) mcols in
          let! _ := mfor 0 (b_blockColumns b) (fun kBlock (_ : unit) =>
            let kWidth := hb_width hb kBlock in
            let! tBlock := rdS (hb_blocks hb) (iBlock * b_blockColumns b + kBlock) in
            let rStart := kBlock * BLOCK_SIZE in
            let! _ := mfor pStart pEnd (fun p k =>
              let lStart := (p - pStart) * kWidth in
              let lEnd := lStart + kWidth in
              mfor qStart qEnd (fun q k =>
                let! st := mfor lStart lEnd (fun l '(sum, r) =>
                  let! t := rdF tBlock l in
                  let! y := hm_At x r q in
                  ret ((sum + t * y)%f, r + 1)) (fzero, rStart) in
                let! o := rd2 (hb_blocks out) blockIndex k in
                let! _ := wr2 (hb_blocks out) blockIndex k (o + fst st)%f in
                ret (k + 1)) k) 0 in
            ret tt) tt in
          ret (blockIndex + 1)) blockIndex) 0 in
      ret out) h0 (fun o h => BRep h o b')).
  2:{ destruct x; [exact GG|exact GG|exfalso; eapply Nx; reflexivity]. }
  rewrite EC in H. cbn [bind] in H. eapply g_step; [exact D2|]. binv H out Hn. apply orpanic_ok in Hn.
  apply g_bind, g_mpan. eapply g_imp; [eapply sb_New; eauto; apply Ext_refl|]. intros hout h1 [HT Sho].
  pose proof Sho as (O1 & O2 & O3 & O4). rewrite O3, O4. binv H st Hl. destruct st as [bl k0]. injection H as <-.
  apply g_bind. eapply g_imp; [eapply (g_for (J hout)); [exact Hl|split; auto|]|intros k' h2 [_ HT2]; apply g_ret; eapply TabE_BRep; eauto].
  intros i [d2 k2] k' h2 [d3 k3] Hi [-> HT2] HP. cbv zeta in *. eapply g_imp; [eapply (g_for (J hout)); [exact HP|split; auto|]|intros k' h3 HJ; exact HJ].
  intros j [d4 k4] k' h3 [d5 k5] Hj [-> HT3] HQ. cbv zeta in HQ. binv HQ bl1 Hbl1. injection HQ as <- <-.
  apply g_bind. eapply g_imp; [eapply tab_for; [exact HT3|exact Hbl1|]|intros [] h4 HT4; apply g_ret; split; auto].
  intros kb h4 d6 d7 Hkb HT4 HR. cbv zeta in HR. rewrite (sh_width _ _ _ Sh). binv HR t Ht. binv HR st Hst. destruct st as [d8 k8]. injection HR as <-.
  destruct (src_blk _ _ _ _ _ _ HM (TabE_e _ _ _ _ HT4) Ht) as (s & Rs & Hs). eapply g_step; [exact Rs|].
  apply g_bind. eapply g_imp; [eapply (g_for (J hout)); [exact Hst|split; auto|]|intros k' h5 [_ HT5]; apply g_ret; exact HT5].
  intros p [d9 k9] k' h5 [d10 k10] Hp [-> HT5] HU. cbv zeta in *. eapply g_imp; [eapply (g_for (J hout)); [exact HU|split; auto|]|intros k' h6 HJ; exact HJ].
  intros q [d11 k11] k' h6 [d12 k12] Hq [-> HT6] HW. binv HW sr Hx. destruct sr as [sm rr]. binv HW o Ho. binv HW bl2 Hbl2. injection HW as <- <-. pose proof (TabE_e _ _ _ _ HT6) as He.
  apply g_bind. eapply g_imp; [eapply (g_for (fun _ p t h => t = p /\ h = h6)); [exact Hx|split; auto|]|].
  { intros l [s2 r2] t2 h7 [s3 r3] Hl2 [-> ->] HY. binv HY a Ha. binv HY y Hy. injection HY as <- <-.
    eapply g_step; [apply Hs; eauto|]. eapply g_step; [eapply x_At; eauto|]. apply g_ret. auto. }
  intros t2 h7 [-> ->]. cbn [fst]. eapply g_step; [eapply TabE_rd2; eauto|].
  apply g_bind. eapply g_imp; [eapply g_wr2; eauto|]. intros [] h7 HT7. apply g_ret. split; auto.
Qed.
Lemma OwnE_rd h0 s r k x h : OwnE h0 s r h -> zget r k = Ok x -> runs (rdF s k) h x h.
Proof. intros HO E. eapply runs_rdF; [eapply OwnE_VRep; eauto|exact E]. Qed.
Lemma v_rd h0 v l h k x : VRep h0 v l -> Ext h0 h -> zget l k = Ok x -> runs (rdF v k) h x h.
Proof. intros HV He E. eapply runs_rdF; [eapply VRep_ext; eauto|exact E]. Qed.
Lemma sb_Operate h0 hb b v l out : BRep h0 hb b -> VRep h0 v l -> b_Operate b l = Ok out -> goes (hb_Operate hb v) h0 (fun s => OwnE h0 s out).
Proof.
  intros (HM & Sh) HV H. pose proof Sh as (S1 & S2 & S3 & S4). unfold b_Operate in H. unfold hb_Operate. rewrite S1, S2, S3, S4.
  assert (L : sl_len v = len l) by apply HV. rewrite L. destruct (negb (len l =? b_columns b)); [discriminate|].
  binv H o0 Hm. apply g_bind. eapply g_imp; [apply (g_makeF _ _ _ _ (Ext_refl _) Hm)|]. nx s h1 HO.
  apply g_bind. eapply g_imp; [eapply fill_for; [exact HO|exact H|]|intros [] h2 HO2; apply g_ret; exact HO2].
  intros i h2 r2 r3 Hi HO2 HP. cbv zeta in *. eapply g_imp; [eapply fill_for; [exact HO2|exact HP|]|intros [] h3 HO3; exact HO3].
  intros j h3 r4 r5 Hj HO3 HQ. cbv zeta in HQ. binv HQ st Hst. destruct st as [r6 k6]. injection HQ as <-.
  apply g_bind. eapply g_imp; [eapply (g_for (fun _ '(r, k) k' h => k' = k /\ OwnE h0 s r h)); [exact Hst|split; auto|]|intros k' h4 [_ HO4]; apply g_ret; exact HO4].
  intros p [r7 k7] k' h4 [r8 k8] Hp [-> HO4] HR. binv HR st Hs1. destruct st as [[x1 y1] z1]. binv HR st Hs2. destruct st as [[x2 y2] z2].
  binv HR o Ho. binv HR r9 Hr9. injection HR as <- <-. pose proof (proj2 HO4) as He.
  assert (RB : forall a c x, mget (b_blocks b) a c = Ok x -> runs (rd2 (hb_blocks hb) a c) h4 x h4) by (intros; eapply src_rd2; eauto).
  assert (RV : forall c x, zget l c = Ok x -> runs (rdF v c) h4 x h4) by (intros; eapply v_rd; eauto).
  eapply g_step; [eapply r_while; [|exact Hs1]|].
  { intros [[s3 l3] k3] p1 HW. binv HW a0 A0. binv HW b0 B0. binv HW a1 A1. binv HW b1 B1. binv HW a2 A2. binv HW b2 B2. binv HW a3 A3. binv HW b3 B3. injection HW as <-.
    repeat rb1. }
  eapply g_step; [eapply r_while; [|exact Hs2]|].
  { intros [[s3 l3] k3] p1 HW. binv HW a0 A0. binv HW b0 B0. injection HW as <-. repeat rb1. }
  cbn [fst snd]. eapply g_step; [eapply OwnE_rd; eauto|]. apply g_bind. eapply g_imp; [eapply g_wrF; eauto|]. intros [] h5 HO5. apply g_ret. split; auto.
Qed.
Lemma sb_PreMultiply h0 hb b v l out : BRep h0 hb b -> VRep h0 v l -> b_PreMultiply b l = Ok out -> goes (hb_PreMultiply hb v) h0 (fun s => OwnE h0 s out).
Proof.
  intros (HM & Sh) HV H. pose proof Sh as (S1 & S2 & S3 & S4). unfold b_PreMultiply in H. unfold hb_PreMultiply. rewrite S1, S2, S3, S4.
  assert (L : sl_len v = len l) by apply HV. rewrite L. destruct (negb (len l =? b_rows b)); [discriminate|].
  binv H o0 Hm. apply g_bind. eapply g_imp; [apply (g_makeF _ _ _ _ (Ext_refl _) Hm)|]. nx s h1 HO.
  apply g_bind. eapply g_imp; [eapply fill_for; [exact HO|exact H|]|intros [] h2 HO2; apply g_ret; exact HO2].
  intros i h2 r2 r3 Hi HO2 HP. cbv zeta in *. rewrite (sh_width _ _ _ Sh). eapply g_imp; [eapply fill_for; [exact HO2|exact HP|]|intros [] h3 HO3; exact HO3].
  intros j h3 r4 r5 Hj HO3 HQ. cbv zeta in *. eapply g_imp; [eapply fill_for; [exact HO3|exact HQ|]|intros [] h4 HO4; exact HO4].
  intros p h4 r7 r8 Hp HO4 HR. binv HR st Hs1. destruct st as [[x1 y1] z1]. binv HR st Hs2. destruct st as [[x2 y2] z2].
  binv HR o Ho. pose proof (proj2 HO4) as He.
  assert (RB : forall a c x, mget (b_blocks b) a c = Ok x -> runs (rd2 (hb_blocks hb) a c) h4 x h4) by (intros; eapply src_rd2; eauto).
  assert (RV : forall c x, zget l c = Ok x -> runs (rdF v c) h4 x h4) by (intros; eapply v_rd; eauto).
  eapply g_step; [eapply r_while; [|exact Hs1]|].
  { intros [[s3 l3] k3] p1 HW. binv HW a0 A0. binv HW b0 B0. binv HW a1 A1. binv HW b1 B1. binv HW a2 A2. binv HW b2 B2. binv HW a3 A3. binv HW b3 B3. injection HW as <-.
    repeat rb1. }
  eapply g_step; [eapply r_while; [|exact Hs2]|].
  { intros [[s3 l3] k3] p1 HW. binv HW a0 A0. binv HW b0 B0. injection HW as <-. repeat rb1. }
  cbn [fst snd]. eapply g_step; [eapply OwnE_rd; eauto|]. eapply g_imp; [eapply g_wrF; eauto|]. intros [] h5 HO5. exact HO5.
Qed.
End HeapBlkArithMain.

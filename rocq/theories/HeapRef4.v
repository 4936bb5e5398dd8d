(** Transpose on the heap, and the QR decompositions on the heap and on values. *)
From Coq Require Import ZArith List Lia Bool.
From Verif Require Import Base BaseLemmas Scalar Vector Matrix MatSpec MatFacts Array2D Array2DFacts BlockM BlockFacts BlockFacts2 Diagonal DiagFacts DiagFacts2 DiagFacts3 DiagSpec DiagProps RealMatrixM MatrixOps MatHist.
From Verif Require Import Heap HeapSpec HeapFacts HeapSim HeapSim2 HeapSim3 HeapSim4 HeapMain HeapDec HeapAtom HeapRefSpec HeapRef HeapRef2 HeapRef3.
From Verif Require Import QR HeapVec HeapUpd HeapPutBlk.
Import ListNotations.
Open Scope Z_scope.

Section Ref4.
Context {O : Ops}.
Opaque BLOCK_SIZE.

Lemma sb_Transpose h0 hb b b' : BRep h0 hb b -> b_Transpose b = Ok b' -> goes (hb_Transpose hb) h0 (fun hb' h => BRep h hb' b').
Proof.
  intros (HM & S1 & S2 & S3 & S4) H. unfold b_Transpose in H. unfold hb_Transpose. rewrite S1, S2, S3, S4. cbv zeta in *.
  binv H d0 Hm. apply g_bind. eapply g_imp; [apply (sb_create _ _ _ _ _ (Ext_refl _) Hm)|]. nx o h1 HT.
  binv H sx Hst. destruct sx as [d1 k1]. injection H as <-. apply g_bind. eapply g_imp.
  { eapply (g_for (fun _ '(d, k) k' h => k' = k /\ TabE h0 o d h)); [exact Hst|split; auto|].
    intros I [d2 k2] k2' h2 [d3 k3] HI [-> HT2] HP.
    eapply g_imp; [eapply (g_for (fun _ '(d, k) k' h => k' = k /\ TabE h0 o d h)); [exact HP|split; auto|]|auto].
    intros J [d4 k4] k4' h3 [d5 k5] HJ [-> HT3] HQ. binv HQ s6 Hs6. destruct s6 as [d6 k6]. injection HQ as <- <-. apply g_bind. eapply g_imp.
    { eapply (g_for (fun _ '(d, k) k' h => k' = k /\ TabE h0 o d h)); [exact Hs6|split; auto|].
      intros p [d7 k7] k7' h4 [d8 k8] Hp [-> HT4] HR. binv HR s9 Hs9. destruct s9 as [[d9 k9] l9]. injection HR as <- <-. apply g_bind. eapply g_imp.
      { eapply (g_for (fun _ '(d, k, l) kl h => kl = (k, l) /\ TabE h0 o d h)); [exact Hs9|split; auto|].
        intros q [[d10 k10] l10] kl h5 [[d11 k11] l11] Hq [-> HT5] HW. binv HW x Hx. binv HW d12 Hd12. injection HW as <- <- <-.
        eapply g_step; [eapply (runs_rd2 _ _ _ _ _ _ (MRep_ext _ _ _ _ (TabE_e _ _ _ _ HT5) HM) Hx)|]. apply g_bind. eapply g_imp; [eapply g_wr2; eauto|]. nxu h6 HT6. apply g_ret. auto. }
      intros kl h5 [-> HT5]. apply g_ret. auto. }
    intros k' h4 [-> HT4]. apply g_ret. auto. }
  intros k' h2 [-> HT2]. apply g_ret. split; [apply (TabE_MRep _ _ _ _ HT2)|]. repeat split; reflexivity.
Qed.
Lemma sd_Transpose h s l : VRep h s l -> zero_like fzero -> goes (hd_Transpose s) h (fun t => OwnE h t l).
Proof.
  intros HV Hz. pose proof HV as (_ & El & _). unfold hd_Transpose. rewrite El. pose proof (len_nonneg l).
  assert (Em : make fzero (len l) = Ok (repeat fzero (Z.to_nat (len l)))) by (unfold make; destruct (Z.ltb_spec (len l) 0); [lia|reflexivity]).
  apply g_bind. eapply g_imp; [apply (g_makeF _ _ _ _ (Ext_refl _) Em)|]. nx t h1 HO.
  assert (L0 : len (repeat fzero (Z.to_nat (len l))) = len l) by (unfold len at 1; rewrite repeat_length; lia).
  set (Inv := fun (i j : Z) (h' : heap) => exists q, OwnE h t q h' /\ len q = len l /\ forall k, 0 <= k < len l -> k < i \/ (k = i /\ i < j) -> zget q k = zget l k).
  apply g_bind. eapply g_imp.
  { apply (HeapVec.mfor_inv (fun i h' => Inv i 0 h')); [lia|exists (repeat fzero (Z.to_nat (len l))); split; [exact HO|]; split; [exact L0|intros; lia]|].
    intros i h2 Hi HI. eapply g_imp.
    - apply (HeapVec.mfor_inv (fun j h' => Inv i j h')); [lia|exact HI|]. intros j h3 Hj (q & HO3 & Lq & Hq).
      assert (Rt : runs (hd_At s i j) h3 (if i =? j then nthZ l i else fzero) h3).
      { unfold hd_At. eapply runs_bind; [apply (HeapUpd.hcheck_ok s i h3); lia|]. eapply runs_bind; [apply (HeapUpd.hcheck_ok s j h3); lia|]. destruct (i =? j); [|reflexivity].
        eapply runs_rdF; [eapply VRep_ext; [apply HO3|exact HV]|]. apply zget_ok. lia. }
      eapply g_step; [exact Rt|]. unfold hd_SetEntry. destruct (Z.eqb_spec i j) as [->|N].
      + rewrite Z.eqb_refl. pose proof HO3 as [(W1 & W2 & W3) W4]. assert (Elt : sl_len t = len q) by (rewrite W2; reflexivity).
        eapply g_step; [apply (HeapUpd.hcheck_ok t j h3); lia|]. eapply g_imp; [eapply g_wrF; [exact HO3|apply zset_ok; lia]|]. nxu h4 HO4. exists (upd q j (nthZ l j)). split; [exact HO4|].
        split; [rewrite len_upd; auto|]. intros k Hk Hc. destruct (Z.eq_dec k j) as [->|Nk]; [rewrite zget_upd_same, zget_ok by lia; reflexivity|rewrite zget_upd_other by auto; apply Hq; lia].
      + destruct (Z.eqb_spec j i); [lia|]. red in Hz. rewrite Hz. apply g_ret. exists q. split; [auto|]. split; [auto|]. intros k Hk Hc. apply Hq; lia.
    - intros u h3 (q & A & B & C). exists q. split; [auto|]. split; [auto|]. intros k Hk Hc. apply C; lia. }
  intros u h2 (q & A & B & C). apply g_ret. replace l with q; [exact A|]. apply list_ext; [auto|]. intros k Hk. specialize (C k ltac:(lia) ltac:(lia)). rewrite !zget_ok in C by lia. congruence.
Qed.
Lemma HMat_ext h x r c f g : (forall i j, 0 <= i < r -> 0 <= j < c -> f i j = g i j) -> HMatIs h x r c f -> HMatIs h x r c g.
Proof.
  intros E. destruct x as [a|s|b]; cbn [HMatIs].
  - intros (H1 & H2 & H3 & d & H4 & H5 & H6). split; [auto|split; [auto|split; auto]]. exists d. split; [auto|split; auto]. intros i j Hi Hj. rewrite <- E; auto.
  - intros (-> & H1 & u & H2 & H3). split; [auto|split; auto]. exists u. split; auto. intros i j Hi Hj. rewrite <- E; auto.
  - apply HeapPutBlk.HBlkIs_ext. auto.
Qed.
Lemma HMat_transpose h x r c f : zero_like fzero -> HMatIs h x r c f -> exists t h', hm_Transpose x h = (Ok t, h') /\ HMatIs h' t c r (fun i j => f j i).
Proof.
  intros Hz. destruct x as [a|s|b]; cbn [HMatIs hm_Transpose].
  - intros H. destruct (m2_Transpose _ _ _ _ _ H) as (o & h' & R & HT). exists (HA o), h'. unfold mbind. rewrite R. split; [reflexivity|exact HT].
  - intros (-> & H1 & u & (l & H2 & H3 & H4) & H5). destruct (sd_Transpose _ _ _ H2 Hz) as (t & h' & R & HO). unfold runs in R. exists (HD t), h'. unfold mbind. rewrite R. split; [reflexivity|].
    split; [auto|split; auto]. exists u. split; [exists l; split; [eapply OwnE_VRep; eauto|auto]|]. intros i j Hi Hj. rewrite H5 by auto. destruct (Z.eqb_spec j i), (Z.eqb_spec i j); subst; try lia; reflexivity.
  - intros H. destruct (HBlkIs_elim _ _ _ _ _ H) as (v & HBv & HI). destruct (b_Transpose_spec _ _ _ _ HI) as (v' & E & HI').
    destruct (sb_Transpose _ _ _ _ HBv E) as (t & h' & R & HBv'). unfold runs in R. exists (HB t), h'. unfold mbind. rewrite R. split; [reflexivity|]. eapply HBlkIs_intro; eauto.
Qed.
Lemma lib_transpose m r c f : zero_like fzero -> library m -> MatIs m r c f -> exists t, m_Transpose m = Ok t /\ library t /\ MatIs t c r (fun i j => f j i).
Proof.
  intros Hz Lm Hm. assert (G : general m -> exists t, m_Transpose m = Ok t /\ library t /\ MatIs t c r (fun i j => f j i)).
  { intros Gm. destruct (m_Transpose_ok m r c f Gm Hm) as (t & E & Gt & Ht). exists t. split; auto. split; auto. destruct t; cbn in *; auto. }
  destruct m as [a|b|d|? ? ?]; try (apply G; exact I); try contradiction.
  destruct (MatIs_DIs _ _ _ _ Hm) as (-> & HD & HO). destruct (d_Transpose_spec d c _ HD Hz) as (d' & E & HD'). exists (MDiag d'). cbn [m_Transpose]. rewrite E. split; [reflexivity|]. split; [exact I|].
  eapply MatIs_ext; [apply (DIs_MatIs _ _ _ HD')|]. intros i j Hi Hj. unfold dg. destruct (Z.eqb_spec i j) as [->|N]; [reflexivity|]. rewrite HO by auto. reflexivity.
Qed.
Lemma front_transpose {A B} h x r c f m (k : slice -> M A) (g : mat -> res B) Q : zero_like fzero -> HMatIs h x r c f -> library m -> MatIs m r c f ->
  (forall o h' hd d, Str h' o hd d [] c r -> sim (k o) (g d) h' Q) ->
  sim (mbind (hm_Transpose x) (fun t => mbind (hm_Data t) k)) (bind (m_Transpose m) (fun t => bind (m_Data t) g)) h Q.
Proof.
  intros Hz HX Lm Hm H. destruct (HMat_transpose _ _ _ _ _ Hz HX) as (t & h' & R & HT). destruct (lib_transpose _ _ _ _ Hz Lm Hm) as (t' & -> & Lt & Ht). cbn [bind].
  assert (G : sim (mbind (hm_Data t) k) (bind (m_Data t') g) h' Q) by (eapply front_data; eauto).
  unfold sim in G |- *. unfold mbind at 1. rewrite R. exact G.
Qed.

(** ** QR *)
Definition QRI (o : slice) (hd : list slice) (z : slice) (n m k : Z) (h : heap) (_ : unit) (b : mat * vec) : Prop :=
  Str h o hd (fst b) [(z, snd b)] n m /\ len (snd b) = k.
Lemma ref_qrreflect h o hd z n m p k b : QRI o hd z n m p h tt b -> 0 <= k < n -> k < m -> k < p ->
  sim (hqr_reflect o z k tt) (qr_reflect k b) h (QRI o hd z n m p).
Proof.
  intros [HS L] Hk Hm Hp. destruct b as [d q]. cbn [fst snd] in *. unfold hqr_reflect, qr_reflect. st. rename s into sk. destruct (Str_collen _ _ _ _ _ _ _ _ _ HS Hs) as (E1 & qk & E2 & E3).
  rewrite E1, E2. cbn [bind]. rewrite E3. assert (Eq : forall j, zget qk j = mget d k j) by (intros j; unfold mget; rewrite E2; reflexivity).
  eapply sim_acc; [intros i a Hi; rewrite Eq; repeat st; apply sim_ret; auto|]. intros xn. rewrite Eq. repeat (cbv zeta; st).
  match goal with |- context [wrF z k ?e] => set (a := e) end.
  eapply (s_wrX _ _ _ _ _ _ _ 0); [exact HS|reflexivity|lia|]. intros h1 q1 H1 L1 _. cbn [setx nth_error upd_nat] in H1. rewrite L in L1. clear dependent q.
  destruct (feq a fzero); [apply sim_ret; split; auto|].
  eapply s_modF; [exact H1|eassumption|lia|eassumption|reflexivity|]. intros h2 d2 H2 _. rewrite (Str_len _ _ _ _ _ _ _ H2), (proj1 (sr_r _ _ _ _ _ _ _ H2)).
  eapply (sim_end_bind _ _ _ (fun h' (_ : unit) d' => Str h' o hd d' [(z, q1)] n m)).
  2: { intros h3 [] d3 H3. split; cbn; auto. }
  apply (sim_loop (fun h' (_ : unit) d' => Str h' o hd d' [(z, q1)] n m)); [exact H2|]. intros col h3 [] d3 Hc H3. clear dependent d2. st. rename s into sc.
  match goal with H : zget hd col = Ok sc |- _ => destruct (Str_collen _ _ _ _ _ _ _ _ _ H3 H) as (F1 & qc & F2 & F3) end. rewrite F1, F2. cbn [bind]. rewrite F3.
  eapply sim_acc; [intros i al Hi; repeat st; apply sim_ret; auto|]. intros al. repeat (cbv zeta; st).
  apply (sim_loop (fun h' (_ : unit) d' => Str h' o hd d' [(z, q1)] n m)); [exact H3|]. intros i h4 [] d4 Hi H4. repeat st.
  eapply s_wrF_end; [exact H4|eassumption|lia|]. auto.
Qed.
Lemma ref_QR h x r c f m thr : zero_like fzero -> HMatIs h x r c f -> library m -> MatIs m r c f ->
  sim (h_NewQR x) (NewQRDecompositionWithThreshold m thr) h (fun h' a b => MRep h' (hqr_qrt a) (qr_qrt b) /\ VRep h' (hqr_rDiag a) (qr_rDiag b)).
Proof.
  intros Hz HX Lm Hm. unfold h_NewQR, NewQRDecompositionWithThreshold. cbv zeta. pose proof (HMat_pos _ _ _ _ _ HX) as [Hr Hc]. rewrite (proj1 (HMat_dims _ _ _ _ _ HX)). pose proof Hm as (_ & -> & _).
  eapply front_cols; eauto. eapply front_transpose; eauto. intros o h1 hd d HS. eapply s_make; [exact HS|lia|]. intros z h2 q H2 L2 _. cbn [app] in H2. st.
  destruct (Str_collen _ _ _ _ _ _ _ _ _ H2 Hs) as (E1 & q0 & E2 & E3). rewrite E2. cbn [bind]. rewrite E1, E3, (Str_len _ _ _ _ _ _ _ H2), (proj1 (sr_r _ _ _ _ _ _ _ H2)).
  eapply sim_bind.
  - apply (sim_loop (QRI o hd z c r (Z.min r c))); [split; auto|]. intros k h3 [] b3 Hk H3. apply ref_qrreflect; auto; lia.
  - intros h3 [] [d3 q3] [H3 L3]. apply sim_ret. cbn in *. split; [eapply Str_MRep; eauto|]. apply Who_VRep. eapply (sr_x _ _ _ _ _ _ _ H3 0%nat). reflexivity.
Qed.

(** ** RRQR *)
Lemma Str_perm h o hd d X r c i j a b : Str h o hd d X r c -> 0 <= i < r -> 0 <= j < r -> i <> j -> zget hd i = Ok a -> zget hd j = Ok b ->
  exists h1 h2, wrS o j a h = (Ok tt, h1) /\ wrS o i b h1 = (Ok tt, h2) /\ exists qi qj, zget d i = Ok qi /\ zget d j = Ok qj /\
    Str h2 o (upd (upd hd j a) i b) (upd (upd d j qi) i qj) X r c.
Proof.
  intros HS Hi Hj N Ha Hb. pose proof HS as [S1 S2 S3 S4 S5 S6 S7 S8 S9]. destruct S4 as [S4 S4'].
  destruct (zget_some d i ltac:(lia)) as (qi & Ei), (zget_some d j ltac:(lia)) as (qj & Ej).
  pose proof (zget_range _ _ _ S2) as Hb2. assert (EL : sl_len o = r) by (rewrite S1; reflexivity). assert (EO : sl_off o = 0) by (rewrite S1; reflexivity).
  exists (mkHeap (hf h) (upd (hs h) (sl_arr o) (upd hd j a))), (mkHeap (hf h) (upd (upd (hs h) (sl_arr o) (upd hd j a)) (sl_arr o) (upd (upd hd j a) i b))). split; [|split].
  - unfold wrS. rewrite EL, EO, (proj2 (inb_true _ _) Hj), S2. cbn [bind]. rewrite Z.add_0_l, zset_ok by lia. cbn [bind]. rewrite zset_ok by lia. reflexivity.
  - unfold wrS. cbn [hs hf]. rewrite EL, EO, (proj2 (inb_true _ _) Hi), zget_upd_same by lia. cbn [bind]. rewrite Z.add_0_l, zset_ok by (rewrite len_upd; lia). cbn [bind]. rewrite zset_ok by (rewrite len_upd; lia). reflexivity.
  - exists qi, qj. split; [auto|]. split; [auto|].
    set (sw := fun k => if k =? i then j else if k =? j then i else k).
    assert (Eh : forall k, 0 <= k < r -> zget (upd (upd hd j a) i b) k = zget hd (sw k)).
    { intros k Hk. unfold sw. rewrite !zget_upd, len_upd, !(proj2 (inb_true _ _)) by lia. rewrite !Bool.andb_true_r. destruct (Z.eqb_spec i k), (Z.eqb_spec k i); try lia; [auto|]. destruct (Z.eqb_spec j k), (Z.eqb_spec k j); try lia; auto. }
    assert (Ed : forall k, 0 <= k < r -> zget (upd (upd d j qi) i qj) k = zget d (sw k)).
    { intros k Hk. unfold sw. rewrite !zget_upd, len_upd, !(proj2 (inb_true _ _)) by lia. rewrite !Bool.andb_true_r. destruct (Z.eqb_spec i k), (Z.eqb_spec k i); try lia; [auto|]. destruct (Z.eqb_spec j k), (Z.eqb_spec k j); try lia; auto. }
    assert (Rh : forall k s, zget (upd (upd hd j a) i b) k = Ok s -> 0 <= k < r) by (intros k s Hs; apply zget_range in Hs; rewrite !len_upd in Hs; lia).
    assert (Rs : forall k, 0 <= k < r -> 0 <= sw k < r) by (intros k Hk; unfold sw; destruct (k =? i), (k =? j); lia).
    split; auto.
    + cbn [hs]. apply zget_upd_same. rewrite len_upd. auto.
    + rewrite !len_upd. auto.
    + split; [rewrite !len_upd; auto|]. intros k Hk. specialize (Ed k Hk). specialize (Rs k Hk). rewrite !zget_ok in Ed by (rewrite ?len_upd; lia). injection Ed as ->. apply S4'; auto.
    + intros k s q Hs Hq. pose proof (Rh _ _ Hs) as Hk. rewrite Eh in Hs by auto. rewrite Ed in Hq by auto. apply (S5 _ _ _ Hs Hq).
    + intros k l s t Hs Ht Nkl. pose proof (Rh _ _ Hs) as Hk. pose proof (Rh _ _ Ht) as Hl. rewrite Eh in Hs by auto. rewrite Eh in Ht by auto. apply (S7 _ _ _ _ Hs Ht). unfold sw.
      destruct (Z.eqb_spec k i), (Z.eqb_spec k j), (Z.eqb_spec l i), (Z.eqb_spec l j); lia.
    + intros k l s p Hs Hp. pose proof (Rh _ _ Hs) as Hk. rewrite Eh in Hs by auto. apply (S8 _ _ _ _ Hs Hp).
Qed.
Definition RRI (o z : slice) (n m k : Z) (h : heap) (a : list Z) (b : mat * vec * list Z) : Prop :=
  (exists hd, Str h o hd (fst (fst b)) [(z, snd (fst b))] n m) /\ len (snd (fst b)) = k /\ a = snd b /\ len a = n.
Lemma ref_rrreflect h o z n m p k a b : RRI o z n m p h a b -> 0 <= k < n -> k < m -> k < p ->
  sim (hrr_reflect o z k a) (rr_reflect k b) h (RRI o z n m p).
Proof.
  intros ((hd & HS) & L & E & La) Hk Hm Hp. destruct b as [[d q] pm]. cbn [fst snd] in *. subst pm. unfold hrr_reflect, rr_reflect, rr_best.
  rewrite (Str_len _ _ _ _ _ _ _ HS), (proj1 (sr_r _ _ _ _ _ _ _ HS)).
  eapply (sim_bind _ _ _ (fun h' u v => h' = h /\ u = v /\ 0 <= snd u < n)).
  { apply (sim_loop (fun h' (u v : F * Z) => h' = h /\ u = v /\ 0 <= snd u < n)); [cbn; auto with zarith|].
    intros i h1 [mx ix] v Hi (-> & <- & Hix). cbn [snd] in Hix. st. destruct (Str_collen _ _ _ _ _ _ _ _ _ HS Hs) as (E1 & qi & E2 & E3). rewrite E1, E2. cbn [bind]. rewrite E3.
    eapply sim_acc; [intros j al Hj; repeat st; apply sim_ret; auto|]. intros l2. apply sim_ret. split; [auto|]. split; [auto|]. destruct (fgt l2 mx); cbn; lia. }
  intros h1 [mx ix] v (-> & <- & Hix). cbn [snd] in Hix.
  eapply (sim_bind _ _ _ (fun h' u v => (exists hd', Str h' o hd' (fst v) [(z, q)] n m) /\ u = snd v /\ len u = n)).
  - destruct (Z.eqb_spec ix k) as [->|N]; cbn [negb].
    + apply sim_ret. cbn. split; eauto.
    + st. rename s into si. st. rename s into sk. match goal with H1 : zget hd ix = Ok si, H2 : zget hd k = Ok sk |- _ => destruct (Str_perm _ _ _ _ _ _ _ ix k si sk HS ltac:(lia) ltac:(lia) N H1 H2) as (h1 & h2 & W1 & W2 & qi & qk & Q1 & Q2 & HS2) end.
      rewrite Q1, Q2. cbn [bind]. pose proof (proj1 (sr_r _ _ _ _ _ _ _ HS)) as Ld. rewrite zset_ok by lia. cbn [bind]. rewrite zset_ok by (rewrite len_upd; lia). cbn [bind].
      destruct (zget_some a ix ltac:(lia)) as (y & Ey), (zget_some a k ltac:(lia)) as (y' & Ey'). rewrite Ey, Ey'. cbn [bind]. rewrite zset_ok by lia. cbn [bind]. rewrite zset_ok by (rewrite len_upd; lia). cbn [bind].
      unfold sim, mbind. rewrite W1, W2. cbn. split; [eauto|]. split; [auto|]. rewrite !len_upd. auto.
  - intros h2 a2 [d2 a2'] ((hd2 & H2) & E2 & L2). cbn [fst snd] in *. subst a2'.
    eapply sim_bind; [apply (ref_qrreflect h2 o hd2 z n m p k (d2, q)); auto; split; auto|]. intros h3 [] [d3 q3] [H3 L3]. apply sim_ret. cbn in *. split; [eauto|]. auto.
Qed.
Lemma ref_RRQR h x r c f m thr : zero_like fzero -> HMatIs h x r c f -> library m -> MatIs m r c f ->
  sim (h_NewRRQR x) (NewRRQRDecompositionWithThreshold m thr) h (fun h' a b =>
    MRep h' (hrr_qrt a) (qr_qrt (rr_qr b)) /\ VRep h' (hrr_rDiag a) (qr_rDiag (rr_qr b)) /\ hrr_p a = rr_p b).
Proof.
  intros Hz HX Lm Hm. unfold h_NewRRQR, NewRRQRDecompositionWithThreshold. cbv zeta. pose proof (HMat_pos _ _ _ _ _ HX) as [Hr Hc]. rewrite (proj1 (HMat_dims _ _ _ _ _ HX)). pose proof Hm as (_ & -> & _).
  eapply front_cols; eauto. eapply front_transpose; eauto. intros o h1 hd d HS. eapply s_make; [exact HS|lia|]. intros z h2 q H2 L2 _. cbn [app] in H2.
  rewrite (Str_len _ _ _ _ _ _ _ H2), (proj1 (sr_r _ _ _ _ _ _ _ H2)).
  assert (Em : make 0 c = Ok (repeat 0 (Z.to_nat c))) by (unfold make; destruct (Z.ltb_spec c 0); [lia|reflexivity]). pose proof (init_len c) as IL. rewrite Em in IL. rewrite Em. cbn [bind] in IL |- *.
  replace (len (repeat 0 (Z.to_nat c))) with c by (unfold len; rewrite repeat_length; lia).
  apply sim_pure. intros pv Ep. apply IL in Ep; [|lia]. st.
  destruct (Str_collen _ _ _ _ _ _ _ _ _ H2 Hs) as (E1 & q0 & E2 & E3). rewrite E2. cbn [bind]. rewrite E1, E3.
  eapply sim_bind.
  - apply (sim_loop (RRI o z c r (Z.min r c))); [split; [eauto|auto]|]. intros k h3 a3 b3 Hk H3. apply ref_rrreflect; auto; lia.
  - intros h3 a3 [[d3 q3] p3] ((hd3 & H3) & L3 & E & _). cbn [fst snd] in *. apply sim_ret. cbn in *. split; [eapply Str_MRep; eauto|]. split; [|auto]. apply Who_VRep. eapply (sr_x _ _ _ _ _ _ _ H3 0%nat). reflexivity.
Qed.
End Ref4.

(** Each copying function of Heap.v returns the table or slice that the value
    model computes. *)
From Coq Require Import ZArith List Lia Bool.
From Verif Require Import Base BaseLemmas Scalar Vector Matrix Array2D BlockM Diagonal Heap HeapSpec HeapFacts HeapSim.
Import ListNotations.
Open Scope Z_scope.

Section Sim2.
Context {O : Ops}.

Lemma bind_ok {A B} (m : res A) (f : A -> res B) b : bind m f = Ok b -> exists a, m = Ok a /\ f a = Ok b.
Proof. destruct m; cbn; intros H; try discriminate. eauto. Qed.
Lemma orpanic_ok {A} (m : res A) x : orpanic m = Ok x -> m = Ok x.
Proof. destruct m; cbn; intros H; try discriminate. auto. Qed.
Lemma make_len {A} (x : A) n l : make x n = Ok l -> len l = n.
Proof.
  unfold make. destruct (Z.ltb_spec n 0); [discriminate|]. intros [= <-]. unfold len. rewrite repeat_length. lia.
Qed.
End Sim2.
Ltac binv H x Hx := let H' := fresh "K" in
  apply bind_ok in H; destruct H as (x & Hx & H'); clear H; rename H' into H; cbv beta iota in H.
Ltac nx x h H := intros x h H; cbv beta in H; cbv beta.
Tactic Notation "nxu" ident(h) ident(H) := intros [] h H; cbv beta in H; cbv beta.
Ltac rb := eapply runs_bind; [eassumption|cbv beta iota].


Section Sim3.
Context {O : Ops}.

(** [m] from [h] returns normally, and then [Q]. *)
Definition goes {A} (m : M A) (h : heap) (Q : A -> heap -> Prop) : Prop :=
  exists a h', runs m h a h' /\ Q a h'.
Lemma g_bind {A B} (m : M A) (f : A -> M B) h Q :
  goes m h (fun a h1 => goes (f a) h1 Q) -> goes (mbind m f) h Q.
Proof. intros (a & h1 & R1 & b & h2 & R2 & HQ). exists b, h2. split; auto. eapply runs_bind; eauto. Qed.
Lemma g_step {A B} (m : M A) (f : A -> M B) h a h1 Q :
  runs m h a h1 -> goes (f a) h1 Q -> goes (mbind m f) h Q.
Proof. intros R H. apply g_bind. exists a, h1. auto. Qed.
Lemma g_ret {A} (x : A) h (Q : A -> heap -> Prop) : Q x h -> goes (ret x) h Q.
Proof. intros H. exists x, h. split; auto. reflexivity. Qed.
Lemma g_runs {A} (m : M A) h a h' (Q : A -> heap -> Prop) : runs m h a h' -> Q a h' -> goes m h Q.
Proof. intros R H. exists a, h'. auto. Qed.
Lemma g_imp {A} (m : M A) h (P Q : A -> heap -> Prop) : goes m h P -> (forall a h', P a h' -> Q a h') -> goes m h Q.
Proof. intros (a & h' & R & H) HI. exists a, h'. auto. Qed.
Lemma g_mpan {A} (m : M A) h (Q : A -> heap -> Prop) : goes m h Q -> goes (mpan m) h Q.
Proof. intros (a & h' & R & H). exists a, h'. split; auto. apply runs_mpan; auto. Qed.
Lemma g_for {P T} (Inv : Z -> P -> T -> heap -> Prop) lo hi (pb : Z -> P -> res P) (hb : Z -> T -> M T) p t h p' :
  for_ lo hi pb p = Ok p' -> Inv lo p t h ->
  (forall i p t h p1, lo <= i < hi -> Inv i p t h -> pb i p = Ok p1 -> goes (hb i t) h (Inv (i + 1) p1)) ->
  goes (mfor lo hi hb t) h (fun t' h' => Inv (Z.max lo hi) p' t' h').
Proof. intros Hf Hi Hb. exact (for_runs Inv lo hi pb hb p t h p' Hf Hi Hb). Qed.

(** ** Vectors: the result is a slice made by the call *)
Definition OwnE h0 s r (h : heap) : Prop := Own h0 h s r /\ Ext h0 h.
Lemma fill_for h0 (P : Z -> list F -> res (list F)) (B : Z -> unit -> M unit) lo hi s h r r' :
  OwnE h0 s r h -> for_ lo hi P r = Ok r' ->
  (forall i h r r1, lo <= i < hi -> OwnE h0 s r h -> P i r = Ok r1 -> goes (B i tt) h (fun _ => OwnE h0 s r1)) ->
  goes (mfor lo hi B tt) h (fun _ => OwnE h0 s r').
Proof.
  intros HO Hf Hb. eapply g_imp.
  - apply (g_for (fun _ r (_ : unit) => OwnE h0 s r) lo hi P B r tt h r' Hf HO).
    intros i p [] h1 p1 Hi HO1 Hp. eapply Hb; eauto.
  - auto.
Qed.
Lemma g_makeF h0 h n r : Ext h0 h -> make fzero n = Ok r -> goes (makeF n) h (fun s h' => OwnE h0 s r h').
Proof.
  intros He Hm. destruct (runs_makeF _ _ _ _ He Hm) as (s & h' & R & HO & He' & _). exists s, h'. split; auto. split; auto.
Qed.
Lemma g_wrF h0 h s r i x r' : OwnE h0 s r h -> zset r i x = Ok r' -> goes (wrF s i x) h (fun _ => OwnE h0 s r').
Proof.
  intros [HO He] Hz. destruct (runs_wrF _ _ _ _ _ _ _ He HO Hz) as (h' & R & HO' & He' & _). exists tt, h'. split; auto. split; auto.
Qed.
Lemma g_copyrange h0 h d r i j s q k l r' : OwnE h0 d r h -> VRep h s q -> slice_copy r i j q k l = Ok r' ->
  goes (copyrange d i j s k l) h (fun _ => OwnE h0 d r').
Proof.
  intros [HO He] HV Hs. destruct (runs_copyrange _ _ _ _ _ _ _ _ _ _ _ He HO HV Hs) as (h' & R & HO' & He' & _).
  exists tt, h'. split; auto. split; auto.
Qed.
Lemma g_appendF h0 h s r : Ext h0 h -> VRep h s r -> goes (appendF s) h (fun s' => OwnE h0 s' r).
Proof.
  intros He (Hc & _). destruct (runs_newF h0 h r He) as (s' & h' & R & HO & He' & _).
  exists s', h'. split; [|split; auto]. unfold runs, appendF in *. rewrite Hc. exact R.
Qed.

(** ** Array2DRowRealMatrix *)
Definition ARep (h : heap) (a : slice) (A : A2D) : Prop :=
  match a2_data A with None => isnil a = true | Some d => isnil a = false /\ MRep h a d end.
Lemma ARep_ext h0 h a A : Ext h0 h -> ARep h0 a A -> ARep h a A.
Proof. unfold ARep. destruct (a2_data A); auto. intros He [H1 H2]. split; auto. eapply MRep_ext; eauto. Qed.
Lemma s2_rows h a A : ARep h a A -> h2_rows a = a2_rows A.
Proof. unfold ARep, h2_rows, a2_rows. destruct (a2_data A); [intros [-> (_ & H & _)]; auto|intros ->; auto]. Qed.
Lemma s2_cols h0 h a A c : Ext h0 h -> ARep h0 a A -> a2_cols A = Ok c -> runs (h2_cols a) h c h.
Proof.
  intros He HA. apply (ARep_ext _ _ _ _ He) in HA. revert HA.
  unfold ARep, h2_cols, a2_cols. destruct (a2_data A) as [d|].
  - intros [-> HM] H. binv H r Hr. injection H as <-. destruct (runs_rdS _ _ _ _ _ HM Hr) as (s & R & (_ & E & _)).
    rb. rewrite E. apply runs_ret.
  - intros -> [= <-]. apply runs_ret.
Qed.
Lemma s2_ckrow h a A i : ARep h a A -> checkRowIndex (MArr A) i = Ok tt -> runs (h2_ckrow a i) h tt h.
Proof.
  intros HA H. unfold h2_ckrow. rewrite (s2_rows _ _ _ HA). unfold checkRowIndex in H. cbn in H.
  destruct (Z.ltb_spec i 0); [discriminate|]. destruct (Z.leb_spec (a2_rows A) i); [discriminate|].
  rewrite (proj2 (inb_true _ _)) by lia. apply runs_ret.
Qed.
Lemma s2_ckcol h a A j : ARep h a A -> checkColumnIndex (MArr A) j = Ok tt -> runs (h2_ckcol a j) h tt h.
Proof.
  intros HA H. unfold h2_ckcol. unfold checkColumnIndex in H.
  destruct (j <? 0); [discriminate|]. cbn [m_cols] in H. binv H c Hc.
  pose proof (s2_cols _ _ _ _ _ (Ext_refl _) HA Hc). rb. destruct (c <=? j); [discriminate|]. apply runs_ret.
Qed.
Lemma src_row h0 o d i r : MRep h0 o d -> zget d i = Ok r ->
  exists s, forall h, Ext h0 h -> runs (rdS o i) h s h /\ VRep h s r.
Proof.
  intros HM Hg. destruct (runs_rdS _ _ _ _ _ HM Hg) as (s & R & HV). exists s. intros h He.
  split; [|eapply VRep_ext; eauto]. unfold runs, rdS in *. injection R as R. rewrite <- R. f_equal.
  destruct (inb i (sl_len o)); auto.
  destruct (Z_lt_le_dec (sl_arr o) (len (hs h0))) as [L|L].
  - rewrite (ext_s _ _ He) by auto. reflexivity.
  - rewrite (zget_panic (hs h0)) in R by lia. discriminate.
Qed.
Lemma s2_MRep h0 a A i r : ARep h0 a A -> zget (a2_d A) i = Ok r -> MRep h0 a (a2_d A).
Proof.
  unfold ARep, a2_d. destruct (a2_data A) as [d|].
  - intros [_ HM] H. auto.
  - intros _ H. rewrite zget_panic in H by (change (len []) with 0; lia). discriminate.
Qed.
Lemma s2_rdS h0 a A i r : ARep h0 a A -> zget (a2_d A) i = Ok r ->
  exists s, forall h, Ext h0 h -> runs (rdS a i) h s h /\ VRep h s r.
Proof. intros HA H. eapply src_row; eauto. eapply s2_MRep; eauto. Qed.
Lemma s2_rd2 h0 h a A i j x : Ext h0 h -> ARep h0 a A -> mget (a2_d A) i j = Ok x -> runs (rd2 a i j) h x h.
Proof.
  intros He HA H. unfold mget in H. binv H r Hr. destruct (s2_rdS _ _ _ _ _ HA Hr) as (s & Hs).
  destruct (Hs h He) as [R HV]. unfold rd2. rb. eapply runs_rdF; eauto.
Qed.
Lemma Tab_ARep h0 h o hd d : Tab h0 h o hd d -> ARep h o (mkA2D (Some d)).
Proof.
  intros HT. split; [|eapply Tab_MRep; eauto]. unfold isnil. apply Z.eqb_neq.
  pose proof (tb_a _ _ _ _ _ HT). pose proof (len_nonneg (hs h0)). lia.
Qed.

Definition TabE h0 o d (h : heap) : Prop := exists hd, Tab h0 h o hd d.
Lemma TabE_e h0 o d h : TabE h0 o d h -> Ext h0 h. Proof. intros (hd & HT). apply HT. Qed.
(** Filling a table row by row. *)
Lemma tab_for h0 o (P : Z -> mat -> res mat) (B : Z -> unit -> M unit) lo hi h d d' :
  TabE h0 o d h -> for_ lo hi P d = Ok d' ->
  (forall i h d d1, lo <= i < hi -> TabE h0 o d h -> P i d = Ok d1 -> goes (B i tt) h (fun _ => TabE h0 o d1)) ->
  goes (mfor lo hi B tt) h (fun _ => TabE h0 o d').
Proof.
  intros HO Hf Hb. eapply g_imp.
  - apply (g_for (fun _ d (_ : unit) => TabE h0 o d) lo hi P B d tt h d' Hf HO).
    intros i p [] h1 p1 Hi HO1 Hp. eapply Hb; eauto.
  - auto.
Qed.
Lemma g_makeS h0 h n d : Ext h0 h -> make [] n = Ok d -> goes (makeS n) h (fun o => TabE h0 o d).
Proof. intros He Hm. destruct (runs_makeS _ _ _ _ He Hm) as (o & hd & h' & R & HT). exists o, h'. split; auto. exists hd. auto. Qed.
Lemma g_wr2 h0 h o d i j x d' : TabE h0 o d h -> mset d i j x = Ok d' -> goes (wr2 o i j x) h (fun _ => TabE h0 o d').
Proof. intros (hd & HT) Hm. destruct (Tab_wr2 _ _ _ _ _ _ _ _ _ HT Hm) as (h' & R & HT'). exists tt, h'. split; auto. exists hd. auto. Qed.
(** [t := make(n); o[i] = t], the row then being at hand. *)
Definition RowE h0 o d i s r (h : heap) : Prop := exists hd, AtRow h0 h o hd d i s r.
Lemma RowE_T h0 o d i s r h : RowE h0 o d i s r h -> TabE h0 o d h.
Proof. intros (hd & HA). exists hd. apply HA. Qed.
Lemma RowE_e h0 o d i s r h : RowE h0 o d i s r h -> Ext h0 h.
Proof. intros H. eapply TabE_e, RowE_T, H. Qed.
Lemma g_newrow {B} h0 h o d n r i (f : slice -> unit -> M B) Q : TabE h0 o d h -> make fzero n = Ok r -> 0 <= i < len d ->
  (forall s h', RowE h0 o (upd d i r) i s r h' -> goes (f s tt) h' Q) ->
  goes (mbind (makeF n) (fun s => mbind (wrS o i s) (f s))) h Q.
Proof.
  intros (hd & HT) Hm Hi Hf. destruct (Tab_row _ _ _ _ _ _ _ _ HT Hm Hi) as (s & h1 & h2 & hd' & R1 & R2 & R3 & HA).
  eapply g_step; [exact R1|]. eapply g_step; [exact R2|]. apply Hf. exists hd'. auto.
Qed.
Lemma g_putrow h0 h o d n r i : TabE h0 o d h -> make fzero n = Ok r -> 0 <= i < len d ->
  goes (mbind (makeF n) (fun s => wrS o i s)) h (fun _ => TabE h0 o (upd d i r)).
Proof.
  intros (hd & HT) Hm Hi. destruct (Tab_row _ _ _ _ _ _ _ _ HT Hm Hi) as (s & h1 & h2 & hd' & R1 & R2 & R3 & HA).
  eapply g_step; [exact R1|]. eapply g_runs; [exact R2|]. exists hd'. apply HA.
Qed.
Lemma RowE_rd h0 o d i s r h : RowE h0 o d i s r h -> runs (rdS o i) h s h.
Proof.
  intros (hd & HA). destruct (Tab_rdS _ _ _ _ _ _ _ (at_t _ _ _ _ _ _ _ _ HA) (at_r _ _ _ _ _ _ _ _ HA)) as (s' & R & HA').
  assert (s' = s); [|subst; auto]. pose proof (at_s _ _ _ _ _ _ _ _ HA). pose proof (at_s _ _ _ _ _ _ _ _ HA'). congruence.
Qed.
Lemma TabE_rd h0 o d i r h : TabE h0 o d h -> zget d i = Ok r -> exists s, RowE h0 o d i s r h.
Proof. intros (hd & HT) Hg. destruct (Tab_rdS _ _ _ _ _ _ _ HT Hg) as (s & R & HA). exists s, hd. auto. Qed.
Lemma RowE_copyrange h0 h o d i s r a b q k l t r' :
  RowE h0 o d i s r h -> VRep h t q -> slice_copy r a b q k l = Ok r' ->
  goes (copyrange s a b t k l) h (fun _ => RowE h0 o (upd d i r') i s r').
Proof.
  intros (hd & HA) HV Hs. destruct (AtRow_copyrange _ _ _ _ _ _ _ _ _ _ _ _ _ _ _ HA HV Hs) as (h' & R & HA').
  exists tt, h'. split; auto. exists hd. auto.
Qed.
Lemma RowE_gocopy h0 h o d i s r q t r' :
  RowE h0 o d i s r h -> VRep h t q -> slice_copy r 0 (len r) q 0 (len q) = Ok r' ->
  goes (gocopy s t) h (fun _ => RowE h0 o (upd d i r') i s r').
Proof.
  intros (hd & HA) HV Hs. destruct (AtRow_gocopy _ _ _ _ _ _ _ _ _ _ _ HA HV Hs) as (h' & R & HA').
  exists tt, h'. split; auto. exists hd. auto.
Qed.
Lemma RowE_wrF h0 h o d i s r j x r' : RowE h0 o d i s r h -> zset r j x = Ok r' ->
  goes (wrF s j x) h (fun _ => RowE h0 o (upd d i r') i s r').
Proof.
  intros (hd & HA) Hz. destruct (AtRow_wrF _ _ _ _ _ _ _ _ _ _ _ HA Hz) as (h' & R & HA').
  exists tt, h'. split; auto. exists hd. auto.
Qed.

Lemma s2_copyOut h0 a A d : ARep h0 a A -> a2_copyOut A = Ok d ->
  goes (h2_copyOut a) h0 (fun o => TabE h0 o d).
Proof.
  intros HA H. unfold a2_copyOut in H. unfold h2_copyOut. rewrite (s2_rows _ _ _ HA).
  binv H d0 Hm. apply g_bind. eapply g_imp; [apply (g_makeS _ _ _ _ (Ext_refl _) Hm)|]. nx o h1 HT.
  apply g_bind. eapply g_imp; [eapply tab_for; [exact HT|exact H|]|intros; apply g_ret; auto].
  intros i h d1 d2 Hi HT1 HP. pose proof (TabE_e _ _ _ _ HT1) as He.
  binv HP c Hc. binv HP r Hr. binv HP di Hdi. binv HP r' Hr'. apply zset_inv in HP. destruct HP as [Hi' ->].
  destruct (s2_rdS _ _ _ _ _ HA Hdi) as (t & Ht).
  eapply g_step; [eapply s2_cols; eauto|]. eapply g_newrow; eauto. intros s h2 HR.
  eapply g_step; [eapply RowE_rd; eauto|]. destruct (Ht h2 (RowE_e _ _ _ _ _ _ _ HR)) as (Rt & HVt).
  eapply g_step; [exact Rt|]. pose proof HVt as (_ & E & _). rewrite E.
  eapply g_imp; [eapply RowE_copyrange; eauto|]. nxu h3 HR3. rewrite upd_upd in HR3. eapply RowE_T; eauto.
Qed.

Lemma s2_rowloop h0 o d (n c : Z) d' h : TabE h0 o d h ->
  for_ 0 n (fun i data => let* r := make fzero c in zset data i r) d = Ok d' ->
  goes (mfor 0 n (fun i (_ : unit) => let! r := makeF c in wrS o i r) tt) h (fun _ => TabE h0 o d').
Proof.
  intros HT Hf. eapply tab_for; eauto. intros i h1 d1 d2 Hi HT1 HP. binv HP r Hr.
  apply zset_inv in HP. destruct HP as [Hi' ->]. eapply g_putrow; eauto.
Qed.
Lemma TabE_len h0 o d h : TabE h0 o d h -> sl_len o = len d.
Proof. intros (hd & HT). pose proof (tb_o _ _ _ _ _ HT) as E. rewrite E. reflexivity. Qed.
(** From a [][]float64, not nil. *)
Lemma s2_copyIn h0 o d d' : isnil o = false -> MRep h0 o d -> a2_copyIn (mkA2D None) (Some d) = Ok (mkA2D (Some d')) ->
  goes (h2_copyIn o) h0 (fun o' => TabE h0 o' d').
Proof.
  intros Hn HM H. unfold a2_copyIn, a2_SetSubMatrix in H. unfold h2_copyIn, h2_SetSubMatrix. rewrite Hn.
  pose proof HM as (_ & El & _). rewrite El. destruct (len d =? 0); [discriminate|].
  binv H s0 Hs0. destruct (src_row _ _ _ _ _ HM Hs0) as (t0 & Ht0). destruct (Ht0 h0 (Ext_refl _)) as (R0 & HV0).
  eapply g_step; [exact R0|]. destruct HV0 as (_ & E0 & _). rewrite E0. destruct (len s0 =? 0); [discriminate|].
  cbn [a2_data isnil nilsl sl_arr] in *. change (-1 =? -1) with true. cbv iota. cbv iota in H.
  change (0 <? 0) with false in *. cbv iota in *.
  binv H d0 Hm. binv H d1 Hl. binv H d2 Hc. injection H as <-.
  apply g_bind. eapply g_imp; [apply (g_makeS _ _ _ _ (Ext_refl _) Hm)|]. nx u h1 HT.
  apply g_bind. eapply g_imp; [eapply s2_rowloop; eauto|]. nxu h2 HT2.
  rewrite (TabE_len _ _ _ _ HT2).
  apply g_bind. eapply g_imp; [eapply tab_for; [exact HT2|exact Hc|]|intros; apply g_ret; auto].
  intros i h d3 d4 Hi HT3 HP. pose proof (TabE_e _ _ _ _ HT3) as He.
  binv HP si Hsi. destruct (src_row _ _ _ _ _ HM Hsi) as (t & Ht). destruct (Ht h He) as (R & HV).
  eapply g_step; [exact R|]. pose proof HV as (_ & E & _). rewrite E. destruct (negb (len si =? len s0)); [discriminate|].
  binv HP r Hr. binv HP r' Hr'. apply zset_inv in HP. destruct HP as [Hi' ->].
  destruct (TabE_rd _ _ _ _ _ _ HT3 Hr) as (s & HR). eapply g_step; [eapply RowE_rd; eauto|].
  eapply g_step; [exact R|]. eapply g_imp; [eapply RowE_copyrange; eauto|]. nxu h3 HR3. eapply RowE_T; eauto.
Qed.
End Sim3.

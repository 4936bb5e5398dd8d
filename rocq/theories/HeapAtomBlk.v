(** Refused writes of block matrices leave the heap as it was. *)
From Coq Require Import ZArith List Lia Bool.
From Verif Require Import Base BaseLemmas Scalar Matrix MatSpec MatFacts BlockFacts2 Heap HeapBlk HeapSpec HeapAtomSpec HeapFacts HeapSim HeapSim2 HeapSim4 HeapVec HeapMain HeapProps HeapAtom.
Import ListNotations.
Open Scope Z_scope.

Section AtomBlk.
Context {O : Ops}.
Lemma live_forS {A} h0 (I : Z -> A -> Prop) lo hi (B : Z -> A -> M A) a : lo <= hi -> I lo a ->
  (forall i a h, lo <= i < hi -> I i a -> live h0 h -> goes (B i a) h (fun a' h' => I (i + 1) a' /\ live h0 h')) ->
  forall h, live h0 h -> goes (mfor lo hi B a) h (fun a' h' => I hi a' /\ live h0 h').
Proof.
  intros Hl Ha HB h L. unfold mfor. remember (Z.to_nat (hi - lo)) as n eqn:En. revert lo a h Hl Ha HB L En.
  induction n; intros lo a h Hl Ha HB L En; cbn [mup].
  - apply g_ret. replace hi with lo by lia. auto.
  - apply g_bind. eapply g_imp; [apply HB; auto; lia|]. intros a' h' [Ha' L']. apply IHn; auto; try lia. intros. apply HB; auto; lia.
Qed.
Lemma live_copyrange h0 h d i n s k : live h0 h -> inheap h0 d -> inheap h0 s -> 1 <= n -> 0 <= i -> i + n <= sl_len d -> 0 <= k -> k + n <= sl_len s ->
  goes (copyrange d i (i + n) s k (k + n)) h (fun _ => live h0).
Proof.
  intros L Hd Hs Hn Hi Hid Hk Hks. unfold copyrange.
  assert (R : forall t i, inheap h0 t -> 0 <= i -> i + n <= sl_len t -> runs (reslice t i (i + n)) h (mkSl (sl_arr t) (sl_off t + i) (i + n - i) (sl_cap t - i)) h).
  { intros t j (_ & Hc & _) H1 H2. unfold runs, reslice. rewrite (proj2 (Z.leb_le 0 j)), (proj2 (Z.leb_le j (j + n))), (proj2 (Z.leb_le (j + n) (sl_cap t))) by lia. reflexivity. }
  eapply g_step; [apply R; auto|]. eapply g_step; [apply R; auto|]. cbv beta.
  pose proof (sub_slice h d i n (live_inheap _ _ _ L Hd) Hi ltac:(lia) Hid) as D1. pose proof (sub_slice h s k n (live_inheap _ _ _ L Hs) Hk ltac:(lia) Hks) as S1.
  destruct (gocopy_slot h _ _ D1 S1 ltac:(cbn; lia) ltac:(cbn; lia)) as (h' & R' & E & H'). eapply g_runs; [exact R'|].
  destruct L as [L1 L2]. split; [congruence|]. intros a q x Ex. rewrite H'. destruct (_ && _) eqn:Eb; [|eauto].
  rewrite !andb_true_iff, Z.leb_le, Z.ltb_lt in Eb. destruct S1 as (_ & _ & S3). cbn in *. apply S3. lia.
Qed.
Lemma VRep_inheap h s l : VRep h s l -> inheap h s.
Proof.
  intros H. pose proof H as (V1 & V2 & V3 & V4). split; [auto|split; [auto|]]. intros j Hj. destruct (zget_some l j ltac:(lia)) as (x & Ex). exists x. eapply VRep_slots; eauto.
Qed.
Lemma live_head h0 h a i s : live h0 h -> rdS a i h0 = (Ok s, h0) -> rdS a i h = (Ok s, h).
Proof. intros L E. pose proof (live_rdS h0 h a i L) as Es. rewrite E in Es. pose proof (pure_rdS a i h). destruct (rdS a i h). cbn in *. congruence. Qed.

(** Block (I, J) is a slice of length height times width. *)
Lemma HBlkIs_block h b r c f : HBlkIs h b r c f ->
  1 <= r /\ 1 <= c /\ hb_rows b = r /\ hb_columns b = c /\ hb_blockRows b = nblk r /\ hb_blockColumns b = nblk c /\
  (forall I, 0 <= I < nblk r -> hb_height b I = bw r I) /\ (forall J, 0 <= J < nblk c -> hb_width b J = bw c J) /\
  forall I J, 0 <= I < nblk r -> 0 <= J < nblk c -> exists s, rdS (hb_blocks b) (I * nblk c + J) h = (Ok s, h) /\ inheap h s /\ sl_len s = bw r I * bw c J.
Proof.
  intros H. destruct (HBlkIs_elim _ _ _ _ _ H) as (v & [HM Sh] & (bl & -> & Hr & Hc & HB)). pose proof Sh as (S1 & S2 & S3 & S4). cbn in S1, S2, S3, S4, HM.
  split; [auto|]. split; [auto|]. split; [auto|]. split; [auto|]. split; [auto|]. split; [auto|]. split; [|split].
  - intros I HI. rewrite (sh_height _ _ _ Sh). apply blockHeight_bw; auto.
  - intros J HJ. rewrite (sh_width _ _ _ Sh). apply blockWidth_bw; auto.
  - intros I J HI HJ. destruct HB as [Hs _]. destruct Hs as [Hl Hs].
    assert (Hi : 0 <= I * nblk c + J < len bl) by (rewrite Hl; nia).
    destruct (zget_some bl _ Hi) as (w & Ew). destruct (runs_rdS _ _ _ _ _ HM Ew) as (s & Rs & HV). exists s. split; [exact Rs|]. split; [eapply VRep_inheap; eauto|].
    destruct HV as (_ & El & _). rewrite El. pose proof (Hs I J HI HJ) as Q. rewrite zget_ok in Ew by auto. injection Ew as <-. exact Q.
Qed.
Lemma bckrow_ok h b i u : hb_ckrow b i h = (Ok u, h) -> 0 <= i < hb_rows b.
Proof. unfold hb_ckrow. destruct (inb _ _) eqn:E; [intros _; apply inb_true; auto|discriminate]. Qed.
Lemma bckcol_ok h b i u : hb_ckcol b i h = (Ok u, h) -> 0 <= i < hb_columns b.
Proof. unfold hb_ckcol. destruct (inb _ _) eqn:E; [intros _; apply inb_true; auto|discriminate]. Qed.
Lemma block_of n i : 1 <= n -> 0 <= i < n -> 0 <= i / 52 < nblk n /\ 0 <= i - i / 52 * 52 < bw n (i / 52).
Proof.
  intros Hn Hi. pose proof (Z.div_mod i 52 ltac:(lia)). pose proof (Z.mod_pos_bound i 52 ltac:(lia)). pose proof (nblk_spec n Hn). unfold bw. lia.
Qed.
Lemma in_block w h x y : 0 <= x < h -> 0 <= y < w -> 0 <= x * w + y /\ x * w + w <= h * w.
Proof. intros. nia. Qed.

Lemma aon_setrow h b r c f i d : HBlkIs h b r c f -> inheap h d -> all_or_nothing (hb_SetRow b i d) h.
Proof.
  intros H Hd. destruct (HBlkIs_block _ _ _ _ _ H) as (Hr & Hc & Er & Ec & Ebr & Ebc & Hh & Hw & Hb). unfold hb_SetRow.
  apply aon_bind; [apply pure_bckrow|]. intros u E. pose proof (bckrow_ok _ _ _ _ E) as Hi. rewrite Er in Hi. rewrite Ec, Ebc. destruct (Z.eqb_spec (sl_len d) c) as [El|El]; cbn [negb]; [|apply aon_panic].
  change BLOCK_SIZE with 52. destruct (block_of r i Hr Hi) as [HI Hx]. pose proof (nblk_pos c Hc).
  eapply aon_goes with (Q := fun _ => live h). apply g_bind. eapply (g_imp _ _ (fun a h' => a = Z.min (nblk c * 52) c /\ live h h')).
  - apply (live_forS h (fun J a => a = Z.min (J * 52) c)); [lia|lia| |apply live_refl].
    intros J a h2 HJ -> L. rewrite (Hw J HJ). destruct (bw_next c J Hc HJ) as [N1 N2]. pose proof (bw_bounds c J Hc HJ) as [B1 B2].
    destruct (Hb _ J HI HJ) as (s & Es & Hs & Ls). eapply g_step; [exact (live_head _ _ _ _ _ L Es)|].
    destruct (in_block (bw c J) (bw r (i / 52)) _ 0 Hx ltac:(lia)) as [P1 P2]. apply g_bind. rewrite N1. eapply g_imp; [apply (live_copyrange h); auto; lia|].
    intros u2 h3 L3. apply g_ret. split; [lia|auto].
  - intros a h' [_ L]. apply g_ret. exact L.
Qed.
Lemma aon_setcolumn h b r c f j d : HBlkIs h b r c f -> inheap h d -> all_or_nothing (hb_SetColumn b j d) h.
Proof.
  intros H Hd. destruct (HBlkIs_block _ _ _ _ _ H) as (Hr & Hc & Er & Ec & Ebr & Ebc & Hh & Hw & Hb). unfold hb_SetColumn.
  apply aon_bind; [apply pure_bckcol|]. intros u E. pose proof (bckcol_ok _ _ _ _ E) as Hj. rewrite Ec in Hj. rewrite Er, Ebr, Ebc. destruct (Z.eqb_spec (sl_len d) r) as [El|El]; cbn [negb]; [|apply aon_panic].
  change BLOCK_SIZE with 52. destruct (block_of c j Hc Hj) as [HJ Hy]. pose proof (nblk_pos r Hr). rewrite (Hw _ HJ).
  eapply aon_goes with (Q := fun _ => live h). apply g_bind. eapply (g_imp _ _ (fun a h' => a = Z.min (nblk r * 52) r /\ live h h')).
  - apply (live_forS h (fun I a => a = Z.min (I * 52) r)); [lia|lia| |apply live_refl].
    intros I a h2 HI -> L. rewrite (Hh I HI). destruct (bw_next r I Hr HI) as [N1 N2]. pose proof (bw_bounds r I Hr HI) as [B1 B2]. rewrite N1.
    eapply (g_imp _ _ (fun a h' => a = I * 52 + bw r I /\ live h h')); [|intros a h3 [-> L3]; split; [lia|auto]].
    apply (live_forS h (fun x a => a = I * 52 + x)); [lia|lia| |exact L]. intros x a h3 Hx -> L3.
    destruct (live_rdF h h3 d (I * 52 + x) L3 Hd ltac:(lia)) as (z & Rz). eapply g_step; [exact Rz|].
    destruct (Hb I _ HI HJ) as (s & Es & Hs & Ls). destruct (in_block (bw c (j / 52)) (bw r I) _ _ Hx Hy) as [P1 P2]. apply g_bind. eapply g_imp; [apply (live_wr2 h)|].
    + auto.
    + exists s. split; [exact Es|]. split; [lia|]. apply Hs. lia.
    + intros u2 h4 L4. apply g_ret. split; [lia|auto].
  - intros a h' [_ L]. apply g_ret. exact L.
Qed.
Lemma aon_setsub h b r c f sub e row column : HBlkIs h b r c f -> MRep h sub e -> all_or_nothing (hb_SetSubMatrix b sub row column) h.
Proof.
  intros H HM. destruct (HBlkIs_block _ _ _ _ _ H) as (Hr & Hc & Er & Ec & Ebr & Ebc & Hh & Hw & Hb). unfold hb_SetSubMatrix.
  destruct (isnil sub); [apply aon_panic|]. apply aon_bind; [apply pure_rdS|]. intros s0 Es0. destruct (sl_len s0 =? 0); [apply aon_panic|].
  apply aon_bind; [apply pure_bckrow|]. intros u1 E1. apply aon_bind; [apply pure_bckrow|]. intros u2 E2. destruct (Z.ltb_spec (row + sl_len sub - 1) row); [apply aon_panic|].
  apply aon_bind; [apply pure_bckcol|]. intros u3 E3. apply aon_bind; [apply pure_bckcol|]. intros u4 E4. destruct (Z.ltb_spec (column + sl_len s0 - 1) column); [apply aon_panic|].
  apply bckrow_ok in E1, E2. apply bckcol_ok in E3, E4. rewrite Er in *. rewrite Ec in *. rewrite Ebc.
  apply aon_bind; [apply pure_mup; intros; apply pure_bind; [apply pure_rdS|intros s; destruct (negb _); [apply pure_panic|apply pure_ret]]|]. intros u0 E0.
  change BLOCK_SIZE with 52.
  assert (Hsub : forall k, 0 <= k < sl_len sub -> exists s, rdS sub k h = (Ok s, h) /\ inheap h s /\ sl_len s = sl_len s0).
  { intros k Hk. assert (Hk' : 0 <= k < len e) by (destruct HM as (_ & Q & _); lia). destruct (zget_some e k Hk') as (w & Ew). destruct (runs_rdS _ _ _ _ _ HM Ew) as (s & Rs & HV).
    exists s. split; [exact Rs|]. split; [eapply VRep_inheap; eauto|]. unfold mfor in E0.
    pose proof (fun Hp => check_all _ _ _ _ _ Hp E0 k ltac:(lia)) as Q. destruct Q as (v & Ev).
    { intros. apply pure_bind; [apply pure_rdS|intros t; destruct (negb _); [apply pure_panic|apply pure_ret]]. }
    cbn beta in Ev. unfold mbind in Ev. rewrite Rs in Ev. destruct (Z.eqb_spec (sl_len s) (sl_len s0)); [auto|discriminate]. }
  assert (BR : forall n lo hi I, 0 <= lo <= hi -> hi < n -> lo / 52 <= I < (hi + 52) / 52 -> 0 <= I < nblk n /\ Z.max lo (I * 52) < Z.min (hi + 1) (I * 52 + bw n I)).
  { intros n lo hi I Hl Hn HI. pose proof (Z.div_mod lo 52 ltac:(lia)). pose proof (Z.mod_pos_bound lo 52 ltac:(lia)).
    pose proof (Z.div_mod (hi + 52) 52 ltac:(lia)). pose proof (Z.mod_pos_bound (hi + 52) 52 ltac:(lia)). pose proof (nblk_spec n ltac:(lia)). unfold bw. lia. }
  eapply aon_goes. apply (live_for h); [|apply live_refl]. intros I h1 HI L1. destruct (BR r row (row + sl_len sub - 1) I ltac:(lia) ltac:(lia) HI) as [HI' HIr].
  rewrite (Hh I HI'). apply (live_for h); [|exact L1]. intros J h2 HJ L2. destruct (BR c column (column + sl_len s0 - 1) J ltac:(lia) ltac:(lia) HJ) as [HJ' HJr].
  rewrite (Hw J HJ'). apply (live_for h); [|exact L2]. intros i h3 Hi L3.
  destruct (Hb I J HI' HJ') as (s & Es & Hs & Ls). eapply g_step; [exact (live_head _ _ _ _ _ L3 Es)|].
  destruct (Hsub (i - row) ltac:(lia)) as (t & Et & Ht & Lt). eapply g_step; [exact (live_head _ _ _ _ _ L3 Et)|].
  assert (Hx : 0 <= i - I * 52 < bw r I) by lia. destruct (in_block (bw c J) (bw r I) _ 0 Hx ltac:(lia)) as [P1 P2].
  apply (live_copyrange h); auto; lia.
Qed.
Lemma aon_block h b r c f : HBlkIs h b r c f ->
  (forall i d, inheap h d -> all_or_nothing (hb_SetRow b i d) h) /\
  (forall j d, inheap h d -> all_or_nothing (hb_SetColumn b j d) h) /\
  (forall sub e i j, MRep h sub e -> all_or_nothing (hb_SetSubMatrix b sub i j) h).
Proof.
  intros H. split; [|split]; intros; [eapply aon_setrow|eapply aon_setcolumn|eapply aon_setsub]; eauto.
Qed.
End AtomBlk.

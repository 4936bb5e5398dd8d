(** Refused writes leave the heap as it was. *)
From Coq Require Import ZArith List Lia Bool.
From Verif Require Import Base BaseLemmas Scalar Matrix MatSpec MatFacts Heap HeapSpec HeapAtomSpec HeapFacts HeapSim HeapSim2 HeapVec HeapMain HeapProps.
Import ListNotations.
Open Scope Z_scope.

Section Atom.
Context {O : Ops}.
Definition pure {A} (m : M A) : Prop := forall h, snd (m h) = h.
Lemma pure_ret {A} (x : A) : pure (ret x). Proof. intros h. reflexivity. Qed.
Lemma pure_panic {A} e : pure (mpanic (A := A) e). Proof. intros h. reflexivity. Qed.
Lemma pure_bind {A B} (m : M A) (f : A -> M B) : pure m -> (forall x, pure (f x)) -> pure (mbind m f).
Proof. intros H K h. unfold mbind. specialize (H h). destruct (m h) as [[x|e|e] h1]; cbn in *; subst; auto. apply K. Qed.
Lemma pure_rdF s i : pure (rdF s i). Proof. intros h. reflexivity. Qed.
Lemma pure_rdS s i : pure (rdS s i). Proof. intros h. reflexivity. Qed.
Lemma pure_hcheck s i : pure (hcheck s i). Proof. intros h. unfold hcheck. destruct (inb _ _); reflexivity. Qed.
Lemma pure_reslice s i j : pure (reslice s i j). Proof. intros h. unfold reslice. destruct (_ && _); reflexivity. Qed.
Lemma pure_cols a : pure (h2_cols a).
Proof. unfold h2_cols. destruct (isnil a); [apply pure_ret|apply pure_bind; [apply pure_rdS|intros; apply pure_ret]]. Qed.
Lemma pure_ckrow a i : pure (h2_ckrow a i). Proof. intros h. unfold h2_ckrow. destruct (inb _ _); reflexivity. Qed.
Lemma pure_ckcol a i : pure (h2_ckcol a i).
Proof. unfold h2_ckcol. destruct (i <? 0); [apply pure_panic|]. apply pure_bind; [apply pure_cols|]. intros c. destruct (c <=? i); [apply pure_panic|apply pure_ret]. Qed.
Lemma pure_ck a i j : pure (h2_ck a i j). Proof. apply pure_bind; [apply pure_ckrow|intros; apply pure_ckcol]. Qed.
Lemma pure_rd2 a i j : pure (rd2 a i j). Proof. apply pure_bind; [apply pure_rdS|intros; apply pure_rdF]. Qed.
Lemma pure_bckrow b i : pure (hb_ckrow b i). Proof. intros h. unfold hb_ckrow. destruct (inb _ _); reflexivity. Qed.
Lemma pure_bckcol b i : pure (hb_ckcol b i). Proof. intros h. unfold hb_ckcol. destruct (inb _ _); reflexivity. Qed.
Lemma pure_mup n : forall i (B : Z -> unit -> M unit) t, (forall i, pure (B i tt)) -> pure (mup n i B t).
Proof. induction n; intros i B t H; cbn [mup]; [apply pure_ret|]. destruct t. apply pure_bind; auto. Qed.

Lemma aon_bind {A B} (m : M A) (f : A -> M B) h : pure m -> (forall x, m h = (Ok x, h) -> all_or_nothing (f x) h) -> all_or_nothing (mbind m f) h.
Proof.
  intros H K r h' E. unfold mbind in E. specialize (H h). destruct (m h) as [[x|e|e] h1]; cbn in *; subst h1; [apply (K x); auto| |]; injection E as <- <-; auto.
Qed.
Lemma aon_panic {A} e h : all_or_nothing (mpanic (A := A) e) h. Proof. intros r h' E. injection E as <- <-. auto. Qed.
Lemma aon_ret {A} (x : A) h : all_or_nothing (ret x) h. Proof. intros r h' E. injection E as <- <-. eauto. Qed.
Lemma aon_wrF s i x h : all_or_nothing (wrF s i x) h.
Proof. intros r h' E. unfold wrF in E. destruct (if inb _ _ then _ else _) as [m|e|e]; injection E as <- <-; eauto. Qed.
Lemma aon_gocopy d s h : all_or_nothing (gocopy d s) h.
Proof. intros r h' E. unfold gocopy in E. destruct (zget _ _); injection E as <- <-; eauto. Qed.
Lemma aon_goes {A} (m : M A) h Q : goes m h Q -> all_or_nothing m h.
Proof. intros (y & h1 & E & _) r h' E'. unfold runs in E. rewrite E in E'. injection E' as <- <-. eauto. Qed.
Lemma aon_wr2 a i j x h : all_or_nothing (wr2 a i j x) h.
Proof. apply aon_bind; [apply pure_rdS|]. intros. apply aon_wrF. Qed.
Lemma aon_modF s i g h : all_or_nothing (modF s i g) h.
Proof. apply aon_bind; [apply pure_rdF|]. intros. apply aon_wrF. Qed.

(** ** Single entries, for any arguments *)
Lemma aon_entries h :
  (forall s i x, all_or_nothing (h_SetEntry s i x) h /\ all_or_nothing (h_AddToEntry s i x) h) /\
  (forall a i j x, all_or_nothing (h2_SetEntry a i j x) h /\ all_or_nothing (h2_AddToEntry a i j x) h /\ all_or_nothing (h2_MultiplyEntry a i j x) h) /\
  (forall s i j x, all_or_nothing (hd_SetEntry s i j x) h /\ all_or_nothing (hd_AddToEntry s i j x) h /\ all_or_nothing (hd_MultiplyEntry s i j x) h) /\
  (forall b i j x, all_or_nothing (hb_SetEntry b i j x) h /\ all_or_nothing (hb_AddToEntry b i j x) h /\ all_or_nothing (hb_MultiplyEntry b i j x) h).
Proof.
  assert (H2 : forall a i j g, all_or_nothing (h2_modEntry a i j g) h).
  { intros. apply aon_bind; [apply pure_ck|]. intros. apply aon_bind; [apply pure_rd2|]. intros. apply aon_wr2. }
  assert (HB : forall b i j g, all_or_nothing (hb_modEntry b i j g) h).
  { intros. apply aon_bind; [apply pure_bckrow|]. intros. apply aon_bind; [apply pure_bckcol|]. intros. apply aon_bind; [apply pure_rd2|]. intros. apply aon_wr2. }
  split; [|split; [|split]].
  - intros. split; apply aon_bind; try apply pure_hcheck; intros; [apply aon_wrF|apply aon_modF].
  - intros. split; [|split; apply H2]. apply aon_bind; [apply pure_ck|]. intros. apply aon_wr2.
  - intros. unfold hd_SetEntry, hd_AddToEntry, hd_MultiplyEntry. destruct (i =? j).
    + split; [|split]; apply aon_bind; try apply pure_hcheck; intros; try apply aon_modF. apply aon_wrF.
    + split; [|split]; try destruct (fulp1 fzero x); try apply aon_ret; apply aon_panic.
  - intros. split; [|split; apply HB]. apply aon_bind; [apply pure_bckrow|]. intros. apply aon_bind; [apply pure_bckcol|]. intros. apply aon_wr2.
Qed.

(** ** No place disappears *)
Definition live (h0 h : heap) : Prop := hs h = hs h0 /\ forall a k x, slot h0 a k = Ok x -> exists y, slot h a k = Ok y.
Lemma live_refl h : live h h. Proof. split; eauto. Qed.
Lemma live_inheap h0 h s : live h0 h -> inheap h0 s -> inheap h s.
Proof. intros [_ L] (H1 & H2 & H3). split; [auto|]. split; [auto|]. intros j Hj. destruct (H3 j Hj) as (x & E). eapply L; eauto. Qed.
Lemma live_wrF h0 h s i x : live h0 h -> inheap h0 s -> 0 <= i < sl_len s -> goes (wrF s i x) h (fun _ => live h0).
Proof.
  intros L H Hi. pose proof (live_inheap _ _ _ L H) as (_ & _ & H3). destruct (H3 i Hi) as (y & E). destruct (wrF_slot h s i x y Hi E) as (h' & R & Es & Hv).
  eapply g_runs; [exact R|]. destruct L as [L1 L2]. split; [congruence|]. intros a k z Ez. rewrite Hv. destruct (_ && _); eauto.
Qed.
Lemma live_rdF h0 h s i : live h0 h -> inheap h0 s -> 0 <= i < sl_len s -> exists x, runs (rdF s i) h x h.
Proof. intros L H Hi. pose proof (live_inheap _ _ _ L H) as (_ & _ & H3). destruct (H3 i Hi) as (y & E). exists y. apply rdF_slot; auto. Qed.
Lemma live_At h0 h v i : live h0 h -> vok h0 v -> 0 <= i < hv_dim v -> exists x, runs (hv_At v i) h x h.
Proof.
  intros L H Hi. destruct v as [s|d]; cbn in *.
  - destruct (live_rdF h0 h s i L H Hi) as (x & R). exists x. unfold runs, hv_At. cbn. rewrite (proj2 (inb_true _ _) Hi). exact R.
  - destruct (zget_some d i Hi) as (x & E). exists x. unfold runs, hv_At. cbn. rewrite (proj2 (inb_true _ _) Hi), E. reflexivity.
Qed.
Lemma live_for h0 lo hi (B : Z -> unit -> M unit) : (forall i h, lo <= i < hi -> live h0 h -> goes (B i tt) h (fun _ => live h0)) ->
  forall h, live h0 h -> goes (mfor lo hi B tt) h (fun _ => live h0).
Proof.
  intros HB h L. destruct (Z_le_gt_dec lo hi) as [Hl|Hl].
  - apply (mfor_inv (fun _ => live h0)); auto.
  - unfold mfor. replace (Z.to_nat (hi - lo)) with 0%nat by lia. apply g_ret. exact L.
Qed.
Lemma hcheck_ok s i h u : hcheck s i h = (Ok u, h) -> 0 <= i < sl_len s.
Proof. unfold hcheck. destruct (inb _ _) eqn:E; [intros _; apply inb_true; auto|discriminate]. Qed.

Lemma aon_vectors h s : inheap h s ->
  (forall i d, all_or_nothing (h_SetSubVectorWithSlice s i d) h) /\
  (forall i v, vok h v -> 0 <= hv_dim v -> all_or_nothing (h_SetSubVector s i v) h) /\
  (forall v, vok h v -> all_or_nothing (h_CopyFrom s v) h) /\
  (forall a b v, vok h v -> all_or_nothing (h_Combine s a b v) h).
Proof.
  intros Hs. split; [|split; [|split]].
  - intros i d. unfold h_SetSubVectorWithSlice. apply aon_bind; [apply pure_hcheck|]. intros _ _. apply aon_bind; [apply pure_hcheck|]. intros _ _. apply aon_bind; [apply pure_reslice|]. intros. apply aon_gocopy.
  - intros i v Hv Ht. unfold h_SetSubVector. apply aon_bind; [apply pure_hcheck|]. intros u1 E1. apply hcheck_ok in E1. apply aon_bind; [apply pure_hcheck|]. intros u2 E2. apply hcheck_ok in E2.
    eapply aon_goes with (Q := fun _ => live h). apply g_bind. eapply (g_imp _ _ (fun _ => live h)).
    + destruct v as [t|d]; [|apply g_ret, live_refl]. cbn in E2, Hv, Ht. unfold h_SetSubVectorWithSlice. eapply g_step; [unfold runs, hcheck; rewrite (proj2 (inb_true _ _) E1); reflexivity|].
      eapply g_step; [unfold runs, hcheck; rewrite (proj2 (inb_true _ _) E2); reflexivity|]. destruct Hs as (S1 & S2 & S3).
      eapply g_step. { unfold runs, reslice. rewrite (proj2 (Z.leb_le 0 i)), (proj2 (Z.leb_le i (i + sl_len t))), (proj2 (Z.leb_le (i + sl_len t) (sl_cap s))) by lia. reflexivity. }
        destruct (Z.eq_dec (sl_len t) 0) as [E0|E0].
        -- destruct (zget (hf h) (sl_arr s)) as [A|e|e] eqn:EA; eexists; eexists;
             (split; [unfold runs, gocopy; cbn [sl_len sl_arr sl_off]; rewrite EA; replace (Z.min (i + sl_len t - i) (sl_len t)) with 0 by lia; reflexivity|]); try apply live_refl.
           split; [reflexivity|]. intros a k x Ex. unfold slot in *. cbn. destruct (Z.eq_dec a (sl_arr s)) as [->|N]; [|rewrite zget_upd_other by auto; eauto].
           rewrite zget_upd_same by (apply zget_range in EA; auto). rewrite EA in Ex. cbn in *. eauto.
        -- destruct (mv_SetSubVectorWithSlice h s i t (Logic.conj S1 (Logic.conj S2 S3)) Hv) as (u & h' & R & St); try lia.
           unfold h_SetSubVectorWithSlice, runs, mbind, hcheck in R. rewrite (proj2 (inb_true _ _) E1) in R. cbn in R. rewrite (proj2 (inb_true _ _) E2) in R. cbn in R.
           unfold reslice in R. rewrite (proj2 (Z.leb_le 0 i)), (proj2 (Z.leb_le i (i + sl_len t))), (proj2 (Z.leb_le (i + sl_len t) (sl_cap s))) in R by lia. cbn in R.
           eexists; eexists; split; [exact R|]. destruct St as [Q1 Q2]. split; [auto|]. intros a k x Ex. rewrite Q2. destruct (_ && _) eqn:Eb; [|eauto].
           apply andb_true_iff in Eb. destruct Eb as [_ Eb]. apply andb_true_iff in Eb. destruct Eb as [B1 B2]. apply Z.leb_le in B1. apply Z.ltb_lt in B2. destruct Hv as (_ & _ & T3). cbn. apply T3. lia.
    + intros u h1 L1. apply (live_for h); [|exact L1]. intros k h2 Hk L. destruct (live_At h h2 v (k - i) L Hv ltac:(lia)) as (x & R). eapply g_step; [exact R|]. apply live_wrF; auto. lia.
  - intros v Hv. unfold h_CopyFrom. destruct (Z.eqb_spec (sl_len s) (hv_dim v)) as [E|E]; cbn [negb]; [|apply aon_panic]. eapply aon_goes. apply (live_for h); [|apply live_refl].
    intros k h2 Hk L. destruct (live_At h h2 v k L Hv Hk) as (x & R). eapply g_step; [exact R|]. apply live_wrF; auto. lia.
  - intros a b v Hv. unfold h_Combine. destruct (Z.eqb_spec (sl_len s) (hv_dim v)) as [E|E]; cbn [negb]; [|apply aon_panic]. eapply aon_goes. apply (live_for h); [|apply live_refl].
    intros k h2 Hk L. destruct (live_rdF h h2 s k L Hs Hk) as (z & Rz). eapply g_step; [exact Rz|]. destruct (live_At h h2 v k L Hv ltac:(lia)) as (x & R). eapply g_step; [exact R|]. apply live_wrF; auto.
Qed.

(** ** Dense matrices *)
Lemma live_rdS h0 h a i : live h0 h -> fst (rdS a i h) = fst (rdS a i h0).
Proof. intros [E _]. unfold rdS. cbn. rewrite E. reflexivity. Qed.
Lemma live_ck h0 h a i j u : live h0 h -> h2_ck a i j h0 = (Ok u, h0) -> h2_ck a i j h = (Ok u, h).
Proof.
  intros [E _] H. destruct (h2_ck_hs a i j h0 h E) as (E1 & _ & E2). rewrite H in E1. destruct (h2_ck a i j h). cbn in *. congruence.
Qed.
Definition reach (h : heap) (a : slice) (i j : Z) : Prop := exists s, rdS a i h = (Ok s, h) /\ 0 <= j < sl_len s /\ exists x, slot h (sl_arr s) (sl_off s + j) = Ok x.
Lemma rd2_reach h a i j y : rd2 a i j h = (Ok y, h) -> reach h a i j.
Proof.
  intros E. unfold rd2, mbind in E. pose proof (pure_rdS a i h) as Ep. destruct (rdS a i h) as [[s|e|e] h1] eqn:Es; cbn in Ep; subst h1; try discriminate. exists s. split; [auto|].
  unfold rdF in E. destruct (inb j (sl_len s)) eqn:Eb; [|discriminate]. split; [apply inb_true; auto|]. exists y. injection E as E. exact E.
Qed.
Lemma live_reach h0 h a i j : live h0 h -> reach h0 a i j -> reach h a i j.
Proof.
  intros L (s & E & Hj & x & Ex). pose proof (live_rdS h0 h a i L) as Es. rewrite E in Es. exists s. split; [|split; [auto|apply (proj2 L _ _ _ Ex)]].
  pose proof (pure_rdS a i h). destruct (rdS a i h). cbn in *. congruence.
Qed.
Lemma reach_rd2 h a i j : reach h a i j -> exists y, runs (rd2 a i j) h y h.
Proof. intros (s & E & Hj & x & Ex). exists x. unfold runs, rd2, mbind. rewrite E. apply rdF_slot; auto. Qed.
Lemma live_wr2 h0 h a i j x : live h0 h -> reach h0 a i j -> goes (wr2 a i j x) h (fun _ => live h0).
Proof.
  intros L R. destruct (live_reach _ _ _ _ _ L R) as (s & E & Hj & y & Ey). unfold wr2. eapply g_step; [exact E|].
  destruct (wrF_slot h s j x y Hj Ey) as (h' & W & Es & Hv). eapply g_runs; [exact W|]. destruct L as [L1 L2]. split; [congruence|]. intros a' k z Ez. rewrite Hv. destruct (_ && _); eauto.
Qed.
Lemma HTab_reach h a r c f i j : HTab h a r c f -> 0 <= i < r -> 0 <= j < c -> reach h a i j /\ h2_ck a i j h = (Ok tt, h).
Proof.
  intros H Hi Hj. pose proof (m2_At h a r c f i j H Hi Hj) as R. unfold h2_At, mbind in R. pose proof (pure_ck a i j h) as Ep. destruct (h2_ck a i j h) as [[[]|e|e] h1] eqn:Ec; cbn in Ep; subst h1; try discriminate.
  split; [eapply rd2_reach; eauto|auto].
Qed.
Lemma HTab_dims h a r c f : HTab h a r c f -> h2_rows a = r /\ h2_cols a h = (Ok c, h).
Proof.
  intros H. destruct (HTab_elim _ _ _ _ _ H) as (d & HA & HM & _). split.
  - rewrite (s2_rows _ _ _ HA). pose proof (MatIs_rows _ _ _ _ HM) as E. exact E.
  - apply (s2_cols h h a _ c (Ext_refl h) HA). exact (MatIs_cols _ _ _ _ HM).
Qed.
Lemma ckrow_ok h a r c f i u : HTab h a r c f -> h2_ckrow a i h = (Ok u, h) -> 0 <= i < r.
Proof. intros H E. destruct (HTab_dims _ _ _ _ _ H) as [Er _]. unfold h2_ckrow in E. rewrite Er in E. destruct (inb i r) eqn:Eb; [apply inb_true; auto|discriminate]. Qed.
Lemma ckcol_ok h a r c f j u : HTab h a r c f -> h2_ckcol a j h = (Ok u, h) -> 0 <= j < c.
Proof.
  intros H E. destruct (HTab_dims _ _ _ _ _ H) as [_ Ec]. unfold h2_ckcol in E. destruct (Z.ltb_spec j 0); [discriminate|]. unfold mbind in E. rewrite Ec in E. destruct (Z.leb_spec c j); [discriminate|lia].
Qed.
Lemma check_all n : forall i (B : Z -> unit -> M unit) h u, (forall i, pure (B i tt)) -> mup n i B tt h = (Ok u, h) -> forall k, i <= k < i + Z.of_nat n -> exists v, B k tt h = (Ok v, h).
Proof.
  induction n; intros i B h u Hp E k Hk; [lia|]. cbn [mup] in E. unfold mbind in E. pose proof (Hp i h) as Ep. destruct (B i tt h) as [[[]|e|e] h1] eqn:Eb; cbn in Ep; subst h1; try discriminate.
  destruct (Z.eq_dec k i) as [->|N]; [eauto|]. apply (IHn (i + 1) B h u Hp E k). lia.
Qed.
Lemma aon_array h a r c f : HTab h a r c f ->
  (forall i d, all_or_nothing (h2_SetRow a i d) h) /\
  (forall j d, inheap h d -> all_or_nothing (h2_SetColumn a j d) h) /\
  (forall sub e i j, MRep h sub e -> all_or_nothing (h2_SetSubMatrix a sub i j) h).
Proof.
  intros H. destruct (HTab_dims _ _ _ _ _ H) as [Er Ec]. pose proof H as (Hnil & Hr & Hc & _). split; [|split].
  - intros i d. unfold h2_SetRow. apply aon_bind; [apply pure_ckrow|]. intros _ _. apply aon_bind; [apply pure_cols|]. intros n _. destruct (negb _); [apply aon_panic|]. apply aon_bind; [apply pure_rdS|]. intros s _.
    unfold copyrange. apply aon_bind; [apply pure_reslice|]. intros ? _. apply aon_bind; [apply pure_reslice|]. intros. apply aon_gocopy.
  - intros j d Hd. unfold h2_SetColumn. apply aon_bind; [apply pure_ckcol|]. intros u E. pose proof (ckcol_ok _ _ _ _ _ _ _ H E) as Hj. rewrite Er. destruct (Z.eqb_spec (sl_len d) r) as [El|El]; cbn [negb]; [|apply aon_panic].
    eapply aon_goes. apply (live_for h); [|apply live_refl]. intros k h2 Hk L. destruct (live_rdF h h2 d k L Hd ltac:(lia)) as (x & R). eapply g_step; [exact R|]. apply live_wr2; auto. apply (HTab_reach h a r c f); auto.
  - intros sub e row column HM. unfold h2_SetSubMatrix. destruct (isnil sub); [apply aon_panic|]. destruct (sl_len sub =? 0); [apply aon_panic|]. apply aon_bind; [apply pure_rdS|]. intros s0 Es0.
    destruct (sl_len s0 =? 0); [apply aon_panic|]. assert (En : isnil a = false) by (unfold isnil; apply Z.eqb_neq; auto). rewrite En.
    apply aon_bind; [apply pure_mup; intros; apply pure_bind; [apply pure_rdS|intros s; destruct (negb _); [apply pure_panic|apply pure_ret]]|]. intros u0 E0.
    apply aon_bind; [apply pure_ckrow|]. intros u1 E1. apply aon_bind; [apply pure_ckcol|]. intros u2 E2. apply aon_bind; [apply pure_ckrow|]. intros u3 E3. apply aon_bind; [apply pure_ckcol|]. intros u4 E4.
    pose proof (ckrow_ok _ _ _ _ _ _ _ H E1). pose proof (ckrow_ok _ _ _ _ _ _ _ H E3). pose proof (ckcol_ok _ _ _ _ _ _ _ H E2). pose proof (ckcol_ok _ _ _ _ _ _ _ H E4).
    eapply aon_goes with (Q := fun _ => live h). apply g_bind. eapply (g_imp _ _ (fun _ => live h)); [|intros; apply g_ret; auto].
    apply (live_for h); [|apply live_refl]. intros k h2 Hk L2. apply (live_for h); [|exact L2]. intros l h3 Hl L3.
    assert (Rs : reach h sub k l).
    { assert (Hk' : 0 <= k < len e) by (destruct HM as (_ & Q & _); lia). destruct (zget_some e k Hk') as (w & Ew). destruct (runs_rdS _ _ _ _ _ HM Ew) as (s & Rs & HV). exists s. split; [exact Rs|].
      assert (El : sl_len s = sl_len s0).
      { destruct (Z.eq_dec k 0) as [->|N]; [unfold runs in Rs; congruence|]. unfold mfor in E0.
        pose proof (fun Hp => check_all _ _ _ _ _ Hp E0 k ltac:(lia)) as Q. destruct Q as (v & Ev).
        { intros. apply pure_bind; [apply pure_rdS|intros t; destruct (negb _); [apply pure_panic|apply pure_ret]]. }
        cbn beta in Ev. unfold mbind in Ev. rewrite Rs in Ev.
        destruct (Z.eqb_spec (sl_len s) (sl_len s0)); [auto|discriminate]. }
      split; [lia|]. destruct HV as (V1 & V2 & V3). destruct (zget_some w l ltac:(lia)) as (x & Ex). exists x. eapply VRep_slots; [split; [exact V1|split; [exact V2|exact V3]]|exact Ex]. }
    destruct (reach_rd2 _ _ _ _ (live_reach _ _ _ _ _ L3 Rs)) as (x & Rx). eapply g_step; [exact Rx|]. unfold h2_SetEntry.
    destruct (HTab_reach h a r c f (row + k) (column + l) H ltac:(lia) ltac:(lia)) as [Ra Ck]. eapply g_step; [exact (live_ck _ _ _ _ _ _ L3 Ck)|]. apply live_wr2; auto.
Qed.

(** ** Diagonal matrices: at most the entry on the diagonal changes *)
Lemma mup_one (B : Z -> unit -> M unit) k : (forall i, i <> k -> pure (B i tt)) -> forall n i h, i <= k ->
  snd (mup n i B tt h) = h \/ snd (mup n i B tt h) = snd (B k tt h).
Proof.
  intros HB. assert (G : forall n i h, k < i -> snd (mup n i B tt h) = h).
  { induction n; intros i h Hi; [reflexivity|]. cbn [mup]. unfold mbind. pose proof (HB i ltac:(lia) h) as Ep. destruct (B i tt h) as [[[]|e|e] h1]; cbn in *; subst h1; auto. apply IHn. lia. }
  induction n; intros i h Hi; [left; reflexivity|]. cbn [mup]. unfold mbind. destruct (Z.eq_dec i k) as [->|N].
  - right. destruct (B k tt h) as [[[]|e|e] h1]; auto. cbn. apply G. lia.
  - pose proof (HB i N h) as Ep. destruct (B i tt h) as [[[]|e|e] h1]; cbn in *; subst h1; auto. apply IHn. lia.
Qed.
Lemma diag_one h s k array : one_entry (hd_SetRow s k array) h s array k /\ one_entry (hd_SetColumn s k array) h s array k.
Proof.
  assert (P0 : forall i j x, i <> j -> pure (hd_SetEntry s i j x)).
  { intros i j x N h'. unfold hd_SetEntry. rewrite (proj2 (Z.eqb_neq i j) N). destruct (fulp1 fzero x); reflexivity. }
  assert (G : forall (B : Z -> unit -> M unit), (forall i, i <> k -> pure (B i tt)) -> (B k tt = let! x := rdF array k in hd_SetEntry s k k x) ->
    one_entry (let! _ := hcheck s k in if negb (sl_len array =? sl_len s) then mpanic EMatDimMismatch else mfor 0 (sl_len s) B tt) h s array k).
  { intros B HB HBk r h' E. unfold mbind, hcheck in E. destruct (inb k (sl_len s)) eqn:Ek; [|injection E as _ <-; auto]. cbn in E. destruct (negb _); [injection E as _ <-; auto|].
    pose proof (inb_true k (sl_len s)) as Q. apply Q in Ek. destruct (mup_one B k HB (Z.to_nat (sl_len s - 0)) 0 h ltac:(lia)) as [K|K]; unfold mfor in E; rewrite E in K; cbn in K; [auto|]. rewrite K. clear E K. rewrite HBk.
    unfold mbind. pose proof (pure_rdF array k h) as Ep. destruct (rdF array k h) as [[x|e|e] h1]; cbn in Ep; subst h1; auto.
    unfold hd_SetEntry. rewrite Z.eqb_refl. unfold mbind, hcheck. rewrite (proj2 Q Ek). cbn. pose proof (aon_wrF s k x h) as Hw. destruct (wrF s k x h) as [r2 h2] eqn:Ew. destruct (Hw _ _ Ew) as [([] & ->)| ->]; [right; exists x; auto|left; auto]. }
  split; apply G; auto; intros; apply pure_bind; try apply pure_rdF; intros; apply P0; auto.
Qed.
End Atom.

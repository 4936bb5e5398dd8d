(** The solvers of HeapSolve.v and those of LU.v, Cholesky.v and QR.v, on
    vectors: what they read, step by step. *)
From Coq Require Import ZArith List Lia Bool.
From Verif Require Import Base BaseLemmas Scalar Vector Matrix VecSpec MatSpec MatFacts Array2D Array2DFacts BlockM Diagonal.
From Verif Require Import Heap HeapSpec HeapFacts HeapSim HeapSim2 HeapSim3 HeapSim4 HeapMain HeapDec HeapRefSpec HeapRef HeapRef2 HeapRef3 HeapSolve.
From Verif Require Import LU Cholesky QR.
Import ListNotations.
Open Scope Z_scope.

Section Ref7.
Context {O : Ops}.

(** ** Reading *)
Lemma zget_out {A} (l : list A) i : inb i (len l) = false -> zget l i = Panic ERuntime.
Proof. unfold zget. intros ->. reflexivity. Qed.
Lemma inb_dec i n : (0 <= i < n /\ inb i n = true) \/ (~ (0 <= i < n) /\ inb i n = false).
Proof.
  destruct (inb i n) eqn:E; [left; apply inb_true in E; auto|right; split; auto]. intros H. apply inb_true in H. congruence.
Qed.
Lemma u_rdF h s q j : VRep h s q -> sim (rdF s j) (zget q j) h (fun h' a b => h' = h /\ a = b).
Proof.
  intros HV. destruct (inb_dec j (len q)) as [[Hj _]|[_ Hj]].
  - destruct (zget_some q j Hj) as (x & Ex). rewrite Ex. unfold sim. rewrite (runs_rdF _ _ _ _ _ HV Ex). auto.
  - rewrite (zget_out _ _ Hj). unfold sim, rdF. destruct HV as (_ & E & _). rewrite E, Hj. reflexivity.
Qed.
Lemma u_rd {A B} h s q j (f : F -> M A) (g : F -> res B) Q : VRep h s q ->
  (forall x, zget q j = Ok x -> sim (f x) (g x) h Q) -> sim (mbind (rdF s j) f) (bind (zget q j) g) h Q.
Proof.
  intros HV H. destruct (inb_dec j (len q)) as [[Hj _]|[_ Hj]].
  - destruct (zget_some q j Hj) as (x & Ex). rewrite Ex. cbn [bind]. unfold sim, mbind. rewrite (runs_rdF _ _ _ _ _ HV Ex). apply H. auto.
  - rewrite (zget_out _ _ Hj). unfold sim, mbind, rdF. destruct HV as (_ & E & _). rewrite E, Hj. reflexivity.
Qed.
Lemma u_row {A B} h o d i (f : slice -> M A) (g : list F -> res B) Q : MRep h o d ->
  (forall s q, VRep h s q -> zget d i = Ok q -> sim (f s) (g q) h Q) -> sim (mbind (rdS o i) f) (bind (zget d i) g) h Q.
Proof.
  intros HM H. destruct (inb_dec i (len d)) as [[Hj _]|[_ Hj]].
  - destruct (zget_some d i Hj) as (x & Ex). rewrite Ex. cbn [bind]. destruct (runs_rdS _ _ _ _ _ HM Ex) as (s & R & HV). unfold sim, mbind. rewrite R. apply H; auto.
  - rewrite (zget_out _ _ Hj). unfold sim, mbind, rdS. destruct HM as (_ & E & _). rewrite E, Hj. reflexivity.
Qed.
Lemma u_rd2 {A B} h o d i j (f : F -> M A) (g : F -> res B) Q : MRep h o d ->
  (forall x, mget d i j = Ok x -> sim (f x) (g x) h Q) -> sim (mbind (rd2 o i j) f) (bind (mget d i j) g) h Q.
Proof.
  intros HM H. assert (Ea : forall (m : M slice) (u : slice -> M F), sim (mbind m (fun x => mbind (u x) f)) (bind (mget d i j) g) h Q -> sim (mbind (mbind m u) f) (bind (mget d i j) g) h Q).
  { intros m u. unfold sim, mbind. destruct (m h) as [[a|e|e] h']; auto. }
  apply Ea. unfold mget in *. rewrite bind_assoc. apply (u_row h o d i); [exact HM|]. intros s q HV Eq. apply (u_rd h s q j); [exact HV|]. intros x Ex. apply H. rewrite Eq. exact Ex.
Qed.
(** A row taken ahead. *)
Lemma u_rdS {A B} h o d i (f : slice -> M A) (v : res B) Q : MRep h o d -> 0 <= i < len d ->
  (forall s q, VRep h s q -> zget d i = Ok q -> sim (f s) v h Q) -> sim (mbind (rdS o i) f) v h Q.
Proof.
  intros HM Hi H. destruct (zget_some d i Hi) as (q & Eq). destruct (runs_rdS _ _ _ _ _ HM Eq) as (s & R & HV). unfold sim, mbind. rewrite R. eapply H; eauto.
Qed.
(** A row of something that was there before the call: it stays as it is. *)
Lemma u_src {A B} h0 h o d i (f : slice -> M A) (v : res B) Q : MRep h0 o d -> Ext h0 h -> 0 <= i < len d ->
  (forall s q, (forall h', Ext h0 h' -> VRep h' s q) -> zget d i = Ok q -> sim (f s) v h Q) -> sim (mbind (rdS o i) f) v h Q.
Proof.
  intros HM He Hi H. destruct (zget_some d i Hi) as (q & Eq). destruct (src_row _ _ _ _ _ HM Eq) as (s & Hs).
  unfold sim, mbind. rewrite (proj1 (Hs h He)). apply (H s q); auto. intros h' He'. apply Hs. auto.
Qed.
Lemma u_srcrow {A B} h0 h o d i (f : slice -> M A) (g : list F -> res B) Q : MRep h0 o d -> Ext h0 h ->
  (forall s q, (forall h', Ext h0 h' -> VRep h' s q) -> zget d i = Ok q -> sim (f s) (g q) h Q) -> sim (mbind (rdS o i) f) (bind (zget d i) g) h Q.
Proof.
  intros HM He H. destruct (inb_dec i (len d)) as [[Hj _]|[_ Hj]].
  - destruct (zget_some d i Hj) as (x & Ex). rewrite Ex. cbn [bind]. eapply u_src; eauto. intros s q HV Eq. rewrite Ex in Eq. injection Eq as <-. apply H; auto.
  - rewrite (zget_out _ _ Hj). unfold sim, mbind, rdS. destruct HM as (_ & E & _). rewrite E, Hj. reflexivity.
Qed.
Lemma mget_row (d : mat) i j q : zget d i = Ok q -> mget d i j = zget q j.
Proof. unfold mget. intros ->. reflexivity. Qed.
Lemma MRep_len h o d : MRep h o d -> sl_len o = len d.
Proof. intros (_ & E & _). exact E. Qed.
Lemma VRep_len h o d : VRep h o d -> sl_len o = len d.
Proof. intros (_ & E & _). exact E. Qed.

(** ** A right-hand side *)
Definition VSrc (h : heap) (b : HVec) (l : list F) : Prop := match b with HArr s => VRep h s l | HOther d => d = l end.
Lemma VSrc_ext h0 h b l : Ext h0 h -> VSrc h0 b l -> VSrc h b l.
Proof. destruct b; cbn; auto. apply VRep_ext. Qed.
Lemma VSrc_dim h b l : VSrc h b l -> hv_dim b = len l.
Proof. destruct b; cbn; [apply VRep_len|intros ->; reflexivity]. Qed.
Lemma list_ext {A} (l l' : list A) : len l = len l' -> (forall j, 0 <= j < len l -> zget l j = zget l' j) -> l = l'.
Proof.
  revert l'. induction l as [|x t IH]; intros [|y u] Hl H; try (unfold len in Hl; cbn in Hl; lia); auto.
  rewrite !len_cons in Hl. pose proof (len_nonneg t). assert (E : x = y).
  { specialize (H 0 ltac:(rewrite len_cons; lia)). cbn in H. congruence. }
  subst y. f_equal. apply IH; [lia|]. intros j Hj. specialize (H (j + 1) ltac:(rewrite len_cons; lia)).
  unfold zget in *. rewrite !len_cons in H. rewrite !(proj2 (inb_true _ _)) in H by lia. rewrite !(proj2 (inb_true _ _)) by lia.
  replace (Z.to_nat (j + 1)) with (Datatypes.S (Z.to_nat j)) in H by lia. exact H.
Qed.
Lemma vec_src h b n g w : HVIs h b n g -> VecIs w n g -> VSrc h b (v_data w) /\ len (v_data w) = n.
Proof.
  intros HB (E1 & E2 & _). assert (L : len (v_data w) = n) by exact E1. split; [|exact L].
  assert (G : forall j, 0 <= j < n -> zget (v_data w) j = Ok (g j)).
  { intros j Hj. specialize (E2 j Hj). unfold v_At, arv_At in E2. destruct (orpanic _); try discriminate. exact E2. }
  destruct b as [s|d]; cbn in *.
  - destruct HB as (l & HV & Ll & Hl). replace (v_data w) with l; auto. apply list_ext; [lia|]. intros j Hj. rewrite G, Hl by lia. reflexivity.
  - destruct HB as (Ll & Hl). apply list_ext; [lia|]. intros j Hj. rewrite G, Hl by lia. reflexivity.
Qed.
Lemma u_vAt {A B} h b l i (f : F -> M A) (g : F -> res B) Q : VSrc h b l ->
  (forall x, sim (f x) (g x) h Q) -> sim (mbind (hv_At b i) f) (bind (arv_At l i) g) h Q.
Proof.
  intros HB H. unfold arv_At, checkIndex, hv_At. rewrite (VSrc_dim _ _ _ HB). destruct (inb_dec i (len l)) as [[Hj Ej]|[Nj Ej]]; rewrite Ej.
  - replace ((i <? 0) || (len l <=? i)) with false by lia. cbn [orpanic bind].
    destruct b as [s|d]; cbn in HB; [eapply u_rd; [exact HB|]; auto|]. subst d. destruct (zget_some l i Hj) as (x & Ex). unfold sim, mbind. rewrite Ex. cbn [bind]. apply H.
  - replace ((i <? 0) || (len l <=? i)) with true by lia. reflexivity.
Qed.
Lemma u_toArray {A B} h0 h b l (f : slice -> M A) (v : res B) Q : Ext h0 h -> VSrc h b l ->
  (forall s h', OwnE h0 s l h' -> hf h' = hf h ++ [l] -> sl_arr s = len (hf h) -> sim (f s) v h' Q) -> sim (mbind (hv_ToArray b) f) v h Q.
Proof.
  intros He HB H. assert (E : hv_ToArray b h = newF l h).
  { destruct b as [s|d]; cbn in *; [unfold appendF; destruct HB as (-> & _); reflexivity|subst; reflexivity]. }
  destruct (runs_newF h0 h l He) as (s & h' & R & HO & He' & Ea & Ef & _). unfold sim, mbind. rewrite E, R. apply H; auto. split; auto.
Qed.
Lemma u_makeF {A B} h0 h n (f : slice -> M A) (g : list F -> res B) Q : Ext h0 h ->
  (forall s h' q, OwnE h0 s q h' -> make fzero n = Ok q -> hf h' = hf h ++ [q] -> sl_arr s = len (hf h) -> hs h' = hs h -> sim (f s) (g q) h' Q) -> sim (mbind (makeF n) f) (bind (make fzero n) g) h Q.
Proof.
  intros He H. destruct (make fzero n) as [q|e|e] eqn:Em.
  - destruct (runs_makeF h0 h n q He Em) as (s & h' & R & HO & He' & Ea & Ef & Eh). unfold sim, mbind. rewrite R. cbn [bind]. apply H; auto. split; auto.
  - unfold make in Em. destruct (n <? 0); discriminate.
  - unfold make in Em. unfold makeF. destruct (n <? 0); [|discriminate]. injection Em as <-. reflexivity.
Qed.

(** ** Writing to an array made by the call *)
Lemma w_own_end h0 h s q j x : OwnE h0 s q h -> sim (wrF s j x) (zset q j x) h (fun h' _ q' => OwnE h0 s q' h').
Proof.
  intros [HO He]. destruct (zset q j x) as [q'|e|e] eqn:Ez.
  - destruct (runs_wrF h0 h s q j x q' He HO Ez) as (h' & R & HO' & He' & _). unfold sim. rewrite R. split; auto.
  - unfold zset in Ez. destruct (inb j (len q)); discriminate.
  - unfold zset in Ez. destruct (inb j (len q)) eqn:Ej; [discriminate|]. injection Ez as <-. unfold sim, wrF. destruct HO as (_ & E & _). rewrite E. cbn [sl_len]. rewrite Ej. reflexivity.
Qed.
Lemma w_own {A B} h0 h s q j x (f : unit -> M A) (g : list F -> res B) Q : OwnE h0 s q h ->
  (forall h' q', OwnE h0 s q' h' -> sim (f tt) (g q') h' Q) -> sim (mbind (wrF s j x) f) (bind (zset q j x) g) h Q.
Proof. intros HO H. eapply sim_bind; [apply (w_own_end h0); exact HO|]. intros h' [] q' HO'. apply H. exact HO'. Qed.
Lemma OwnE_V h0 s q h : OwnE h0 s q h -> VRep h s q.
Proof. intros [HO _]. eapply Own_VRep; eauto. Qed.
Lemma append_end h0 s q h : OwnE h0 s q h -> sim (appendF s) (Ok (VArr ([] ++ q))) h (fun h' s' w => VRep h' s' (v_data w)).
Proof.
  intros HO. pose proof (OwnE_V _ _ _ _ HO) as (E & _). unfold sim, appendF. rewrite E. destruct HO as [_ He].
  destruct (runs_newF h0 h q He) as (s' & h' & R & HO' & _). rewrite R. cbn. eapply Own_VRep; eauto.
Qed.

Ltac rd := first [eapply u_rd; [first [eapply OwnE_V; eassumption | eassumption]|let x := fresh "x" in let Ex := fresh "Ex" in intros x Ex] ].

(** ** LU *)
Lemma ref_lus_vector h s v b n g w : MRep h (hlu_lu s) (lu_lu v) -> hlu_pivot s = lu_pivot v -> hlu_singular s = lu_singular v ->
  HVIs h b n g -> VecIs w n g ->
  sim (hlus_SolveVector s b) (lus_SolveVector v w) h (fun h' r x => VRep h' r (v_data x)).
Proof.
  intros HM Ep Es HB HW. destruct (vec_src _ _ _ _ _ HB HW) as [HS HL]. unfold hlus_SolveVector, lus_SolveVector. rewrite Ep, Es, (VSrc_dim _ _ _ HS).
  change (v_Dimension w) with (len (v_data w)). destruct (negb _); [reflexivity|]. destruct (lu_singular v); [reflexivity|].
  set (m := len (lu_pivot v)).
  apply (u_makeF h); [apply Ext_refl|]. intros bp h1 q0 HO _ _ _ _.
  eapply sim_bind with (P := fun h' _ q => OwnE h bp q h').
  { apply (sim_loop (fun h' _ q => OwnE h bp q h')); [exact HO|]. intros row h2 [] q _ HO2. apply sim_pure. intros k _.
    apply (u_vAt h2 b (v_data w)); [eapply VSrc_ext; [apply HO2|exact HS]|]. intros x. apply w_own_end. exact HO2. }
  intros h2 [] q2 HO2. eapply sim_bind with (P := fun h' _ q => OwnE h bp q h').
  { apply (sim_loop (fun h' _ q => OwnE h bp q h')); [exact HO2|]. intros col h3 [] q _ HO3. rd.
    apply (sim_loop (fun h' _ q => OwnE h bp q h')); [exact HO3|]. intros i h4 [] q4 _ HO4. rd.
    eapply u_rd2; [eapply MRep_ext; [apply HO4|exact HM]|]. intros l _. apply w_own_end. exact HO4. }
  intros h3 [] q3 HO3. eapply sim_bind with (P := fun h' _ q => OwnE h bp q h').
  { apply (sim_down (fun h' _ q => OwnE h bp q h')); [exact HO3|]. intros col h4 [] q _ HO4. rd.
    eapply u_rd2; [eapply MRep_ext; [apply HO4|exact HM]|]. intros u _. eapply w_own; [exact HO4|]. intros h5 q5 HO5. rd.
    apply (sim_loop (fun h' _ q => OwnE h bp q h')); [exact HO5|]. intros i h6 [] q6 _ HO6. rd.
    eapply u_rd2; [eapply MRep_ext; [apply HO6|exact HM]|]. intros l _. apply w_own_end. exact HO6. }
  intros h4 [] q4 HO4. eapply append_end. exact HO4.
Qed.
(** ** Cholesky *)
Lemma ref_chs_vector h t v b n g w : MRep h t (ch_lT v) -> ch_m v = len (ch_lT v) ->
  HVIs h b n g -> VecIs w n g ->
  sim (hchs_SolveVector t b) (chs_SolveVector v w) h (fun h' r x => VRep h' r (v_data x)).
Proof.
  intros HM Em HB HW. destruct (vec_src _ _ _ _ _ HB HW) as [HS HL]. unfold hchs_SolveVector, chs_SolveVector. rewrite Em, (MRep_len _ _ _ HM), (VSrc_dim _ _ _ HS).
  change (v_Dimension w) with (len (v_data w)). destruct (negb _); [reflexivity|].
  set (m := len (ch_lT v)). change (arv_ToArray (v_data w)) with (v_data w). cbv zeta.
  apply (u_toArray h h b (v_data w)); [apply Ext_refl|exact HS|]. intros x h1 HO _ _.
  eapply sim_bind with (P := fun h' _ q => OwnE h x q h').
  { apply (sim_loop (fun h' _ q => OwnE h x q h')); [exact HO|]. intros j h2 [] q Hj HO2.
    eapply u_src; [exact HM|apply HO2|exact Hj|]. intros lJ r HE Er. rd.
    rewrite (mget_row _ _ _ _ Er). eapply u_rd; [apply HE, HO2|]. intros l _. eapply w_own; [exact HO2|]. intros h3 q3 HO3. rd.
    apply (sim_loop (fun h' _ q => OwnE h x q h')); [exact HO3|]. intros i h4 [] q4 _ HO4. rd.
    rewrite (mget_row _ _ _ _ Er). eapply u_rd; [apply HE, HO4|]. intros l' _. apply w_own_end. exact HO4. }
  intros h3 [] q3 HO3. eapply sim_bind with (P := fun h' _ q => OwnE h x q h').
  { apply (sim_down (fun h' _ q => OwnE h x q h')); [exact HO3|]. intros col h4 [] q _ HO4. rd.
    eapply u_rd2; [eapply MRep_ext; [apply HO4|exact HM]|]. intros u _. eapply w_own; [exact HO4|]. intros h5 q5 HO5. rd.
    apply (sim_loop (fun h' _ q => OwnE h x q h')); [exact HO5|]. intros i h6 [] q6 _ HO6. rd.
    eapply u_rd2; [eapply MRep_ext; [apply HO6|exact HM]|]. intros l _. apply w_own_end. exact HO6. }
  intros h4 [] q4 HO4. eapply append_end. exact HO4.
Qed.
(** ** QR: two arrays made by the call *)
Definition Own2 (h0 : heap) (x : slice) (p : list F) (y : slice) (q : list F) (h : heap) : Prop :=
  Ext h0 h /\ Own h0 h x p /\ Own h0 h y q /\ sl_arr x <> sl_arr y.
Lemma Own2_sym h0 x p y q h : Own2 h0 x p y q h -> Own2 h0 y q x p h.
Proof. intros (A & B & C & D). split; [auto|split; [auto|split; auto]]. Qed.
Lemma Own2_y h0 x p y q h : Own2 h0 x p y q h -> OwnE h0 y q h.
Proof. intros (A & B & C & D). split; auto. Qed.
Lemma w2_end h0 x p y q h j v : Own2 h0 x p y q h -> sim (wrF y j v) (zset q j v) h (fun h' _ q' => Own2 h0 x p y q' h').
Proof.
  intros (He & HX & HY & N). destruct (zset q j v) as [q'|e|e] eqn:Ez.
  - destruct (runs_wrF h0 h y q j v q' He HY Ez) as (h' & R & HO' & He' & Eh & Ef). unfold sim. rewrite R. split; [auto|split; [|split; auto]].
    destruct HX as (A & B & C). split; [auto|split; auto]. rewrite Ef, zget_upd_other; auto.
  - unfold zset in Ez. destruct (inb j (len q)); discriminate.
  - pose proof (w_own_end h0 h y q j v (conj HY He)) as G. unfold sim in G |- *. rewrite Ez in G. destruct (wrF y j v h) as [[]]; auto.
Qed.
Lemma w2 {A B} h0 x p y q h j v (f : unit -> M A) (g : list F -> res B) Q : Own2 h0 x p y q h ->
  (forall h' q', Own2 h0 x p y q' h' -> sim (f tt) (g q') h' Q) -> sim (mbind (wrF y j v) f) (bind (zset q j v) g) h Q.
Proof. intros HO H. eapply sim_bind; [apply (w2_end h0); exact HO|]. intros h' [] q' HO'. apply H. exact HO'. Qed.
Lemma w2x {A B} h0 x p y q h j v (f : unit -> M A) (g : list F -> res B) Q : Own2 h0 x p y q h ->
  (forall h' p', Own2 h0 x p' y q h' -> sim (f tt) (g p') h' Q) -> sim (mbind (wrF x j v) f) (bind (zset p j v) g) h Q.
Proof. intros HO H. eapply w2; [apply Own2_sym; exact HO|]. intros h' p' HO'. apply H, Own2_sym, HO'. Qed.
Lemma ref_check h d q mn r : VRep h d q -> sim (h_checkSingular d mn r) (checkSingular q mn r) h (fun h' a b => h' = h /\ a = b).
Proof.
  intros HV. unfold h_checkSingular, checkSingular. rewrite (VRep_len _ _ _ HV). eapply sim_bind.
  - apply (sim_brk (fun h' a b => h' = h /\ a = b)); [auto|]. intros i h1 a b _ [-> ->]. eapply u_rd; [exact HV|]. intros x _.
    destruct (fle (fabs x) mn); [destruct r; [reflexivity|apply sim_ret; auto]|apply sim_ret; auto].
  - intros h1 [a1 a2] [b1 b2] [E [-> E']]. cbn in E, E'. subst. apply sim_ret. auto.
Qed.
Lemma ref_qrs_vector h s v b n g w : MRep h (hqr_qrt s) (qr_qrt v) -> VRep h (hqr_rDiag s) (qr_rDiag v) ->
  HVIs h b n g -> VecIs w n g ->
  sim (hqrs_SolveVector s (qr_threshold v) b) (qrs_SolveVector v w) h (fun h' r x => VRep h' r (v_data x)).
Proof.
  intros HM HD HB HW. destruct (vec_src _ _ _ _ _ HB HW) as [HS HL]. unfold hqrs_SolveVector, qrs_SolveVector.
  eapply u_srcrow; [exact HM|apply Ext_refl|]. intros r0 q0 H0 _. rewrite (VRep_len _ _ _ (H0 h (Ext_refl h))), (VSrc_dim _ _ _ HS).
  change (v_Dimension w) with (len (v_data w)). destruct (negb _); [reflexivity|].
  eapply sim_bind; [apply ref_check; exact HD|]. intros h1 _ _ [-> _].
  rewrite (MRep_len _ _ _ HM), (VRep_len _ _ _ HD). set (m := len q0). change (arv_ToArray (v_data w)) with (v_data w). cbv zeta.
  apply (u_makeF h); [apply Ext_refl|]. intros x h1 p0 [HX He1] _ Ef1 Ea1 _.
  apply (u_toArray h h1 b (v_data w)); [exact He1|eapply VSrc_ext; eauto|]. intros y h2 [HY He2] Ef2 Ea2.
  assert (HO : Own2 h x p0 y (v_data w) h2).
  { split; [auto|split; [eapply Own_frame; eauto|split; [auto|]]]. rewrite Ea1, Ea2, Ef1, len_app. unfold len at 3. cbn. pose proof (len_nonneg (hf h)). lia. }
  clear HX HY Ef1 Ef2 Ea1 Ea2 He1 He2 h1.
  eapply sim_bind with (P := fun h' _ q => Own2 h x p0 y q h').
  { apply (sim_loop (fun h' _ q => Own2 h x p0 y q h')); [exact HO|]. intros k h3 [] q _ HO3.
    eapply u_srcrow; [exact HM|apply HO3|]. intros rk qk HK _. apply sim_acc.
    { intros row acc _. eapply u_rd; [eapply OwnE_V, Own2_y; exact HO3|]. intros a _. eapply u_rd; [apply HK, HO3|]. intros z _. apply sim_ret. auto. }
    intros dot. eapply u_rd; [eapply VRep_ext; [apply HO3|exact HD]|]. intros a _. eapply u_rd; [apply HK, HO3|]. intros v0 _.
    apply (sim_loop (fun h' _ q => Own2 h x p0 y q h')); [exact HO3|]. intros row h4 [] q4 _ HO4.
    eapply u_rd; [eapply OwnE_V, Own2_y; exact HO4|]. intros a4 _. eapply u_rd; [apply HK, HO4|]. intros z _. apply w2_end. exact HO4. }
  intros h3 [] q3 HO3. eapply sim_bind with (P := fun h' _ pq => Own2 h x (fst pq) y (snd pq) h').
  { apply (sim_down (fun h' _ pq => Own2 h x (fst pq) y (snd pq) h')); [exact HO3|]. intros row h4 [] [p4 q4] _ HO4. cbn [fst snd] in HO4.
    eapply u_rd; [eapply OwnE_V, Own2_y; exact HO4|]. intros u _. eapply u_rd; [eapply VRep_ext; [apply HO4|exact HD]|]. intros a _.
    eapply w2; [exact HO4|]. intros h5 q5 HO5. eapply u_rd; [eapply OwnE_V, Own2_y; exact HO5|]. intros yr _.
    eapply u_srcrow; [exact HM|apply HO5|]. intros rk qk HK _. eapply w2x; [exact HO5|]. intros h6 p6 HO6.
    apply (sim_end_bind _ _ _ (fun h' _ q => Own2 h x p6 y q h') (fun q => (p6, q))); [|auto].
    apply (sim_loop (fun h' _ q => Own2 h x p6 y q h')); [exact HO6|]. intros i h7 [] q7 _ HO7.
    eapply u_rd; [eapply OwnE_V, Own2_y; exact HO7|]. intros u7 _. eapply u_rd; [apply HK, HO7|]. intros z _. apply w2_end. exact HO7. }
  intros h4 [] [p4 q4] HO4. apply sim_ret. cbn. eapply OwnE_V, Own2_y, Own2_sym. exact HO4.
Qed.
End Ref7.

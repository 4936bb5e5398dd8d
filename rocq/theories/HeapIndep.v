(** A result in new storage is independent of everything that existed, and the
    methods that write are actions of a program holding the object. *)
From Coq Require Import ZArith List Lia Bool.
From Verif Require Import Base BaseLemmas Scalar Vector Matrix Heap HeapSpec HeapFacts.
Import ListNotations.
Open Scope Z_scope.

Section Indep.
Context {O : Ops}.

(** Two parts of memory without a reference from one to the other. *)
Record apart (FA SA FB SB : Z -> Prop) (h : heap) : Prop := {
  ap_f : forall a, FA a -> FB a -> a < 0;
  ap_s : forall a, SA a -> SB a -> a < 0;
  ap_fa : forall a, FA a -> a < len (hf h);
  ap_fb : forall a, FB a -> a < len (hf h);
  ap_sa : forall a, SA a -> a < len (hs h);
  ap_sb : forall a, SB a -> a < len (hs h);
  ap_ra : forall b l s, SA b -> zget (hs h) b = Ok l -> In s l -> FA (sl_arr s) \/ sl_arr s = -1;
  ap_rb : forall b l s, SB b -> zget (hs h) b = Ok l -> In s l -> FB (sl_arr s) \/ sl_arr s = -1
}.
Lemma apart_sym FA SA FB SB h : apart FA SA FB SB h -> apart FB SB FA SA h.
Proof. intros [A B C D E F G H]. split; eauto. Qed.

Definition within (F1 S1 : Z -> Prop) (K : know) : Prop :=
  (forall a, kF K a -> F1 a \/ a = -1) /\ (forall b, kS K b -> S1 b \/ b = -1).
Definition inside (F1 S1 : Z -> Prop) (x : obj) : Prop := within F1 S1 (holds x).

(** Arrays of the part [F1], [S1] are the same in both heaps. *)
Definition same_on (F1 S1 : Z -> Prop) (h h' : heap) : Prop :=
  (forall a, F1 a -> zget (hf h') a = zget (hf h) a) /\ (forall b, S1 b -> zget (hs h') b = zget (hs h) b).
Lemma zget_m1 {A} (l : list A) : zget l (-1) = Panic ERuntime.
Proof. apply zget_panic. lia. Qed.
Lemma same_cont F1 S1 h h' s : same_on F1 S1 h h' -> F1 (sl_arr s) \/ sl_arr s = -1 -> cont h' s = cont h s.
Proof. intros [Hf _] [H|H]; unfold cont, window; [rewrite Hf; auto|rewrite H, !zget_m1; auto]. Qed.
Lemma same_heads F1 S1 h h' s : same_on F1 S1 h h' -> S1 (sl_arr s) \/ sl_arr s = -1 -> heads h' s = heads h s.
Proof. intros [_ Hs] [H|H]; unfold heads, window; [rewrite Hs; auto|rewrite H, !zget_m1; auto]. Qed.
Lemma In_window {A} (m : list (list A)) s x : In x (window m s) -> exists l, zget m (sl_arr s) = Ok l /\ In x l.
Proof.
  unfold window. destruct (zget m (sl_arr s)); [|intros []..]. intros H. eexists; split; eauto.
  assert (HH : forall n (l : list A) x, In x (firstn n l) -> In x l).
  { induction n; destruct l; simpl; intuition. }
  assert (HS : forall n (l : list A) x, In x (skipn n l) -> In x l).
  { induction n; destruct l; simpl; intuition. }
  eauto.
Qed.
Lemma same_view FA SA FB SB h h' x :
  apart FA SA FB SB h -> same_on FB SB h h' -> inside FB SB x -> view h' x = view h x.
Proof.
  intros Ha Hs [H1 H2]. destruct x as [s|o]; cbn in *.
  - rewrite (same_cont _ _ _ _ _ Hs); auto.
  - rewrite (same_heads _ _ _ _ _ Hs) by auto. apply map_ext_in. intros s Hin.
    apply (same_cont _ _ _ _ _ Hs). apply In_window in Hin. destruct Hin as (l & Hl & Hi).
    destruct (H2 _ eq_refl) as [E|E]; [eapply ap_rb; eauto|]. rewrite E, zget_m1 in Hl. discriminate.
Qed.

(** One action on the one side. *)
Lemma step_apart FA SA FB SB K h K' h' :
  apart FA SA FB SB h -> within FA SA K -> step K h K' h' ->
  exists FA' SA', apart FA' SA' FB SB h' /\ within FA' SA' K' /\ same_on FB SB h h' /\
    (forall a, FA a -> FA' a) /\ (forall b, SA b -> SA' b).
Proof.
  intros Ha [W1 W2] St. pose proof Ha as Ha0.
  destruct St as [K h a i v l Hk Hg | K h b i s l Hk Hs Hg | K h b s l Hk Hg Hi | K h l | K h l Hl].
  - pose proof (zget_range _ _ _ Hg). assert (FA a) as HF by (destruct (W1 _ Hk); [auto|lia]).
    exists FA, SA. split; [|split; [split; auto|split; [split|split; auto]]].
    + destruct Ha as [A B C D E F' G H']. split; cbn; eauto; intros; rewrite len_upd; auto.
    + intros c Hc. cbn. rewrite zget_upd. destruct (Z.eqb_spec a c); auto. subst c.
      pose proof (ap_f _ _ _ _ _ Ha _ HF Hc). lia.
    + auto.
  - pose proof (zget_range _ _ _ Hg). assert (SA b) as HF by (destruct (W2 _ Hk); [auto|lia]).
    exists FA, SA. split; [|split; [split; auto|split; [split|split; auto]]].
    + destruct Ha as [A B C D E F' G H']. split; cbn; eauto; intros; rewrite ?len_upd; auto.
      * rewrite zget_upd in H1. destruct (_ && _); [|eauto]. injection H1 as <-.
        apply In_upd in H2. destruct H2 as [->|H2]; eauto. destruct Hs; auto.
      * rewrite zget_upd in H1. destruct (Z.eqb_spec b b0); [|cbn in H1; eauto]. subst b0.
        pose proof (B _ HF H0). lia.
    + auto.
    + intros c Hc. cbn. rewrite zget_upd. destruct (Z.eqb_spec b c); auto. subst c.
      pose proof (ap_s _ _ _ _ _ Ha _ HF Hc). lia.
  - exists FA, SA. split; [auto|]. split; [|split; [split; auto|auto]].
    split; cbn; auto. intros a [H| ->]; auto.
    pose proof (zget_range _ _ _ Hg). destruct (W2 _ Hk) as [HS|HS]; [|lia].
    eapply ap_ra; eauto.
  - exists (fun a => FA a \/ a = len (hf h)), SA.
    destruct Ha as [A B C D E F' G H']. split; [|split; [|split; [|auto]]].
    + split; cbn; auto; try (rewrite len_app; change (len [l]) with 1).
      * intros a [H| ->] Hb; auto. apply D in Hb. lia.
      * intros a [H| ->]; [apply C in H; lia|lia].
      * intros a H; apply D in H; lia.
      * intros b l' s Hb Hg Hi. destruct (G b l' s Hb Hg Hi); auto.
    + split; cbn; auto. intros a [H| ->]; auto. destruct (W1 _ H); auto.
    + split; cbn; auto. intros a H. apply zget_app_l. auto.
  - exists FA, (fun a => SA a \/ a = len (hs h)).
    destruct Ha as [A B C D E F' G H']. split; [|split; [|split; [|auto]]].
    + split; cbn; auto; try (rewrite len_app; change (len [l]) with 1).
      * intros a [H| ->] Hb; auto. apply F' in Hb. lia.
      * intros a [H| ->]; [apply E in H; lia|lia].
      * intros a H; apply F' in H; lia.
      * intros b l' s Hb Hg Hi. apply zget_app_inv in Hg. destruct Hg as [Hg|[-> ->]].
        -- destruct Hb as [Hb| ->]; eauto. apply zget_range in Hg. lia.
        -- destruct (Hl _ Hi) as [H|H]; auto.
      * intros b l' s Hb Hg Hi. pose proof (F' _ Hb). rewrite zget_app_l in Hg by auto. eauto.
    + split; cbn; auto. intros a [H| ->]; auto. destruct (W2 _ H); auto.
    + split; cbn; auto. intros a H. apply zget_app_l. auto.
Qed.
Lemma steps_apart FA SA FB SB K h K' h' :
  apart FA SA FB SB h -> within FA SA K -> steps K h K' h' ->
  forall y, inside FB SB y -> view h' y = view h y.
Proof.
  intros Ha Hw St. revert FA SA Ha Hw. induction St as [|K h K1 h1 K2 h2 St1 St IH]; intros FA SA Ha Hw y Hy; auto.
  destruct (step_apart _ _ _ _ _ _ _ _ Ha Hw St1) as (FA' & SA' & Ha' & Hw' & Hs & _).
  rewrite (IH FA' SA' Ha' Hw' y Hy). eapply same_view; eauto.
Qed.
Lemma inside_mono (F1 S1 F2 S2 : Z -> Prop) x : (forall a, F1 a -> F2 a) -> (forall a, S1 a -> S2 a) ->
  inside F1 S1 x -> inside F2 S2 x.
Proof. intros A B [H1 H2]. split; intros a Ha; [destruct (H1 a Ha)|destruct (H2 a Ha)]; auto. Qed.
Lemma apart_independent FA SA FB SB h x y :
  apart FA SA FB SB h -> inside FA SA x -> inside FB SB y -> independent h x y.
Proof.
  intros Ha Hx Hy K L h1 Ht.
  assert (HH : exists FA SA FB SB, apart FA SA FB SB h1 /\ within FA SA K /\ within FB SB L /\
     inside FA SA x /\ inside FB SB y).
  { assert (Wx : within FA SA (holds x)) by exact Hx. assert (Wy : within FB SB (holds y)) by exact Hy.
    revert Wx Wy. revert FA SA FB SB Ha Hx Hy.
    generalize (holds x) (holds y) Ht. clear. intros K0 L0 Ht.
    induction Ht as [K L h | K L h K1 h1 K2 L2 h2 St Ht IH | K L h L1 h1 K2 L2 h2 St Ht IH];
      intros FA SA FB SB Ha Hx Hy Wx Wy.
    - exists FA, SA, FB, SB. auto.
    - destruct (step_apart _ _ _ _ _ _ _ _ Ha Wx St) as (FA' & SA' & Ha' & Hw' & Hs & M1 & M2).
      apply (IH FA' SA' FB SB); auto. eapply inside_mono; eauto.
    - destruct (step_apart _ _ _ _ _ _ _ _ (apart_sym _ _ _ _ _ Ha) Wy St) as (FA' & SA' & Ha' & Hw' & Hs & M1 & M2).
      apply (IH FA SA FA' SA'); auto. apply apart_sym; auto. eapply inside_mono; eauto. }
  destruct HH as (FA1 & SA1 & FB1 & SB1 & Ha1 & Wx & Wy & Ix & Iy). split.
  - intros K' h2 St. exact (steps_apart _ _ _ _ _ _ _ _ Ha1 Wx St y Iy).
  - intros L' h2 St. exact (steps_apart _ _ _ _ _ _ _ _ (apart_sym _ _ _ _ _ Ha1) Wy St x Ix).
Qed.

(** ** New storage *)
Definition isnew (h0 h : heap) (y : obj) : Prop :=
  match y with OF s => isnewF h0 h s | OM o => isnewS h0 h o end.
Lemma Ext_apart h0 h : wfheap h0 -> Ext h0 h ->
  apart (fun a => a < len (hf h0)) (fun b => b < len (hs h0))
    (fun a => len (hf h0) <= a < len (hf h)) (fun b => len (hs h0) <= b < len (hs h)) h.
Proof.
  intros Hw He. pose proof (len_nonneg (hf h0)). pose proof (len_nonneg (hs h0)).
  destruct (ext_le _ _ He).
  split; try (intros; lia).
  - intros b l s Hb Hg Hi. rewrite (ext_s _ _ He) in Hg by auto.
    pose proof (Hw b l s Hg Hi). left. lia.
  - intros b l s Hb Hg Hi. destruct (ext_n _ _ He b l s) as [E|E]; auto; lia.
Qed.
Lemma Ext_independent h0 h x y :
  wfheap h0 -> Ext h0 h -> exists_in h0 x -> isnew h0 h y -> independent h x y.
Proof.
  intros Hw He Hx Hy. eapply apart_independent; [apply Ext_apart; eauto|..].
  - destruct x; split; cbn in *; intros a Ha; try tauto; lia.
  - destruct y; split; cbn in *; intros a Ha; try tauto; subst a; destruct Hy; auto.
Qed.
Lemma Ext_only_adds h0 h : wfheap h0 -> Ext h0 h -> only_adds h0 h.
Proof.
  intros Hw He z Hz.
  assert (HA : apart (fun a => False) (fun b => False) (fun a => a < len (hf h0)) (fun b => b < len (hs h0)) h0).
  { split; try (intros; tauto); try (intros; lia).
    intros b l s Hb Hg Hi. pose proof (Hw b l s Hg Hi). left. lia. }
  eapply same_view; [exact HA|split; intros; symmetry; symmetry; apply He; auto|].
  destruct z; split; cbn in *; intros a Ha; try tauto; lia.
Qed.
Lemma Ext_wfheap h0 h : wfheap h0 -> Ext h0 h -> wfheap h.
Proof.
  intros Hw He b l s Hg Hi. pose proof (len_nonneg (hf h0)). destruct (ext_le _ _ He).
  destruct (Z_lt_le_dec b (len (hs h0))).
  - rewrite (ext_s _ _ He) in Hg by auto. pose proof (Hw b l s Hg Hi). lia.
  - destruct (ext_n _ _ He b l s) as [E|E]; auto; lia.
Qed.

Lemma keeps_separate {A} (m : M A) (of : A -> obj) :
  (forall h0, keeps h0 h0 m (fun h y => isnew h0 h (of y))) -> separate m of.
Proof.
  intros Hk h0 Hw r h E. destruct (Hk h0 h0 (Ext_refl _) (hle_refl _) r h E) as (He & Hl & Hy).
  split; [apply Ext_only_adds; auto|]. split; [eapply Ext_wfheap; eauto|].
  intros y Hr. specialize (Hy y Hr). split.
  - pose proof (len_nonneg (hf h0)). pose proof (len_nonneg (hs h0)).
    pose proof (len_nonneg (hf h)). pose proof (len_nonneg (hs h)).
    destruct (of y); cbn in *; destruct Hy; lia.
  - intros x Hx. eapply Ext_independent; eauto.
Qed.

(** ** Methods that write *)
Definition kle (K K' : know) : Prop := (forall a, kF K a -> kF K' a) /\ (forall b, kS K b -> kS K' b).
Definition acts {A} (K : know) (m : M A) (P : know -> A -> Prop) : Prop :=
  forall h r h', m h = (r, h') -> exists K', kle K K' /\ steps K h K' h' /\ forall a, r = Ok a -> P K' a.
Lemma steps_trans K h K1 h1 K2 h2 : steps K h K1 h1 -> steps K1 h1 K2 h2 -> steps K h K2 h2.
Proof. induction 1; auto. intros. econstructor; eauto. Qed.
Lemma steps_one K h K1 h1 : step K h K1 h1 -> steps K h K1 h1.
Proof. intros. econstructor; eauto. constructor. Qed.
Lemma kle_refl K : kle K K. Proof. split; auto. Qed.
Lemma kle_trans K1 K2 K3 : kle K1 K2 -> kle K2 K3 -> kle K1 K3.
Proof. intros [A B] [C D]; split; auto. Qed.
Definition anyk {A} (_ : know) (_ : A) : Prop := True.
Lemma acts_same {A} K (m : M A) (P : know -> A -> Prop) :
  (forall h r h', m h = (r, h') -> h' = h /\ forall a, r = Ok a -> P K a) -> acts K m P.
Proof. intros H h r h' E. destruct (H h r h' E) as [-> Hp]. exists K. split; [apply kle_refl|split; [constructor|auto]]. Qed.
Lemma acts_ret {A} K (x : A) (P : know -> A -> Prop) : P K x -> acts K (ret x) P.
Proof. intros H. apply acts_same. intros h r h' [= <- <-]. split; auto. intros a [= <-]; auto. Qed.
Lemma acts_panic {A} K e (P : know -> A -> Prop) : acts K (mpanic e) P.
Proof. apply acts_same. intros h r h' [= <- <-]. split; auto. discriminate. Qed.
Lemma acts_read {A} K (f : heap -> res A) : acts K (fun h => (f h, h)) anyk.
Proof. apply acts_same. intros h r h' [= <- <-]. split; auto. intros; exact I. Qed.
Lemma acts_rdF K s i : acts K (rdF s i) anyk. Proof. apply acts_read. Qed.
Lemma acts_bind {A B} K (m : M A) (f : A -> M B) P Q :
  acts K m P -> (forall K1 a, kle K K1 -> P K1 a -> acts K1 (f a) Q) -> acts K (mbind m f) Q.
Proof.
  intros Hm Hf h r h' E. unfold mbind in E. destruct (m h) as [[a|e|e] h1] eqn:Em.
  - destruct (Hm _ _ _ Em) as (K1 & L1 & S1 & P1).
    destruct (Hf K1 a L1 (P1 _ eq_refl) _ _ _ E) as (K2 & L2 & S2 & P2).
    exists K2. split; [eapply kle_trans; eauto|split; [eapply steps_trans; eauto|auto]].
  - injection E as <- <-. destruct (Hm _ _ _ Em) as (K1 & L1 & S1 & P1). exists K1. split; auto. split; auto. discriminate.
  - injection E as <- <-. destruct (Hm _ _ _ Em) as (K1 & L1 & S1 & P1). exists K1. split; auto. split; auto. discriminate.
Qed.
Lemma acts_for {T} K lo hi (body : Z -> T -> M T) (s : T) :
  (forall i s K1, kle K K1 -> acts K1 (body i s) anyk) -> acts K (mfor lo hi body s) anyk.
Proof.
  unfold mfor. generalize (Z.to_nat (hi - lo)). intros n. revert lo s K. induction n; intros lo s K H; simpl.
  - apply acts_ret. exact I.
  - eapply acts_bind; [apply H, kle_refl|]. intros K1 a L1 _. apply IHn. intros. apply H. eapply kle_trans; eauto.
Qed.
Lemma acts_wrF K s i x : kF K (sl_arr s) -> acts K (wrF s i x) anyk.
Proof.
  intros Hk h r h' E. unfold wrF in E.
  assert (HS : h' = h -> exists K', kle K K' /\ steps K h K' h' /\ forall a, r = Ok a -> anyk K' a).
  { intros ->. exists K. split; [apply kle_refl|split; [constructor|intros; exact I]]. }
  destruct (inb i (sl_len s)); cbn in E; [|injection E as <- <-; auto].
  destruct (zget (hf h) (sl_arr s)) as [l| |] eqn:El; cbn in E; try (injection E as <- <-; auto).
  destruct (zset l _ x) as [l'| |] eqn:El'; cbn in E; try (injection E as <- <-; auto).
  destruct (zset (hf h) _ l') as [m| |] eqn:Em; cbn in E; try (injection E as <- <-; auto).
  apply zset_inv in Em. destruct Em as [Hr ->]. apply zset_inv in El'. destruct El' as [_ ->].
  exists K. split; [apply kle_refl|split; [|intros; exact I]]. apply steps_one. constructor; auto.
Qed.
Lemma acts_rdS K o i : kS K (sl_arr o) -> acts K (rdS o i) (fun K s => kF K (sl_arr s)).
Proof.
  intros Hk h r h' E. unfold rdS in E. injection E as <- <-.
  destruct (inb i (sl_len o)); [|exists K; split; [apply kle_refl|split; [constructor|discriminate]]].
  destruct (zget (hs h) (sl_arr o)) as [l| |] eqn:El; cbn;
    try (exists K; split; [apply kle_refl|split; [constructor|discriminate]]; fail).
  destruct (zget l (sl_off o + i)) as [s| |] eqn:Es;
    try (exists K; split; [apply kle_refl|split; [constructor|discriminate]]; fail).
  exists (mkK (fun a => kF K a \/ a = sl_arr s) (kS K)). split; [split; cbn; auto|].
  split; [apply steps_one; econstructor; eauto; eapply zget_In; eauto|]. intros a [= <-]. cbn. auto.
Qed.
Lemma acts_rdS_any K o i : acts K (rdS o i) anyk. Proof. apply acts_read. Qed.
Lemma acts_reslice K s lo hi : kF K (sl_arr s) -> acts K (reslice s lo hi) (fun K s => kF K (sl_arr s)).
Proof. intros. unfold reslice. destruct (_ && _); [apply acts_ret; auto|apply acts_panic]. Qed.
Lemma acts_reslice_any K s lo hi : acts K (reslice s lo hi) anyk.
Proof. unfold reslice. destruct (_ && _); [apply acts_ret; exact I|apply acts_panic]. Qed.
Lemma steps_blit K l : forall h a i x, kF K a -> zget (hf h) a = Ok x ->
  steps K h K (mkHeap (upd (hf h) a (blit x i l)) (hs h)).
Proof.
  assert (Hid : forall (m : list (list F)) b x, zget m b = Ok x -> upd m b x = m).
  { intros m b x H. apply zget_nth in H. destruct H as [Hb H]. unfold upd. rewrite (proj2 (Z.leb_le 0 b)) by lia.
    revert H. generalize (Z.to_nat b). clear. induction m; intros [|n]; simpl; try discriminate.
    - intros [= ->]; auto.
    - intros. f_equal; auto. }
  assert (E2 : forall (m : list (list F)) b x y, upd (upd m b x) b y = upd m b y).
  { intros m b x y. unfold upd. destruct (0 <=? b); auto. generalize (Z.to_nat b). clear.
    induction m; intros [|n]; simpl; auto. f_equal; auto. }
  induction l as [|v t IH]; intros h a i x Hk Hg; cbn [blit].
  - rewrite (Hid _ _ _ Hg). destruct h; constructor.
  - eapply ss_step; [exact (st_put K h a i v x Hk Hg)|].
    specialize (IH (mkHeap (upd (hf h) a (upd x i v)) (hs h)) a (i + 1) (upd x i v) Hk). cbn [hf hs] in IH.
    rewrite E2 in IH. apply IH. rewrite zget_upd, Z.eqb_refl.
    apply zget_range in Hg. rewrite (proj2 (inb_true _ _) Hg). reflexivity.
Qed.
Lemma acts_gocopy K d s : kF K (sl_arr d) -> acts K (gocopy d s) anyk.
Proof.
  intros Hk h r h' E. unfold gocopy in E. exists K. split; [apply kle_refl|].
  destruct (zget (hf h) (sl_arr d)) as [l| |] eqn:El; injection E as <- <-; split; try constructor; auto.
  apply steps_blit; auto.
Qed.
End Indep.

Ltac alift Hl :=
  match type of Hl with kle ?K ?K' =>
    repeat match goal with
    | H : kF K _ |- _ => apply (proj1 Hl) in H
    | H : kS K _ |- _ => apply (proj2 Hl) in H
    end
  end.
Ltac ac1 := cbn beta in *;
  match goal with
  | |- acts _ (if ?b then _ else _) _ => destruct b
  | |- acts _ (let '(_, _) := ?p in _) _ => destruct p
  | |- acts _ (match ?v with HArr _ => _ | HOther _ => _ end) _ => destruct v
  | |- acts _ (ret _) _ => apply acts_ret; first [exact I|auto; fail]
  | |- acts _ (mpanic _) _ => apply acts_panic
  | |- acts _ (rdF _ _) _ => apply acts_rdF
  | H : kS ?K (sl_arr ?s) |- acts ?K (rdS ?s _) _ => apply acts_rdS; exact H
  | |- acts _ (rdS _ _) _ => apply acts_rdS_any
  | |- acts _ (wrF _ _ _) _ => apply acts_wrF; auto; fail
  | H : kF ?K (sl_arr ?s) |- acts ?K (reslice ?s _ _) _ => apply acts_reslice; exact H
  | |- acts _ (reslice _ _ _) _ => apply acts_reslice_any
  | |- acts _ (gocopy _ _) _ => apply acts_gocopy; auto; fail
  | |- acts _ (mfor _ _ _ _) _ =>
      apply acts_for; let i := fresh "i" in let s := fresh "s" in let K := fresh "K" in let Hl := fresh "Hl" in
      intros i s K Hl; alift Hl
  | |- acts _ (mbind _ _) _ =>
      eapply acts_bind; [|let a := fresh "a" in let K := fresh "K" in let Hl := fresh "Hl" in
        intros K a Hl ?; cbn beta in *; alift Hl]
  | |- acts _ (fun h => (_, h)) _ => apply acts_read
  end.
Ltac ac := repeat ac1.

Section Writers.
Context {O : Ops}.
Implicit Types (s a d : slice) (v : HVec) (b : HBlk).
(** The methods of an object that write act within what a program holding the
    object can do. *)
Lemma acts_writes {A} x (m : M A) P : acts (holds x) m P -> writes x m.
Proof. intros H h r h' E. destruct (H h r h' E) as (K' & _ & S & _). eauto. Qed.

Lemma a_hcheck K s i : acts K (hcheck s i) anyk. Proof. unfold hcheck. ac. Qed.
Lemma a_At K v i : acts K (hv_At v i) anyk. Proof. unfold hv_At. ac. Qed.
Lemma a_SetEntry K s i x : kF K (sl_arr s) -> acts K (h_SetEntry s i x) anyk.
Proof. intros. unfold h_SetEntry. repeat (ac1 || apply a_hcheck). Qed.
Lemma a_AddToEntry K s i x : kF K (sl_arr s) -> acts K (h_AddToEntry s i x) anyk.
Proof. intros. unfold h_AddToEntry, modF. repeat (ac1 || apply a_hcheck). Qed.
Lemma a_Set K s x : kF K (sl_arr s) -> acts K (h_Set s x) anyk.
Proof. intros. unfold h_Set. ac. Qed.
Lemma a_Map K s f : kF K (sl_arr s) -> acts K (h_Map s f) anyk.
Proof. intros. unfold h_Map, modF. ac. Qed.
Lemma a_SetSubVectorWithSlice K s i d : kF K (sl_arr s) -> acts K (h_SetSubVectorWithSlice s i d) anyk.
Proof. intros. unfold h_SetSubVectorWithSlice. repeat (ac1 || apply a_hcheck). Qed.
Lemma a_SetSubVector K s i v : kF K (sl_arr s) -> acts K (h_SetSubVector s i v) anyk.
Proof. intros. unfold h_SetSubVector. repeat (ac1 || apply a_hcheck || apply a_At || (apply a_SetSubVectorWithSlice; auto)). Qed.
Lemma a_CopyFrom K s v : kF K (sl_arr s) -> acts K (h_CopyFrom s v) anyk.
Proof. intros. unfold h_CopyFrom. repeat (ac1 || apply a_At). Qed.
Lemma a_Combine K s x y v : kF K (sl_arr s) -> acts K (h_Combine s x y v) anyk.
Proof. intros. unfold h_Combine. repeat (ac1 || apply a_At). Qed.
Lemma a2_ckrow K a i : acts K (h2_ckrow a i) anyk. Proof. unfold h2_ckrow. ac. Qed.
Lemma a2_cols K a : acts K (h2_cols a) anyk.
Proof.
  unfold h2_cols. ac1; [ac|]. eapply acts_bind; [apply acts_rdS_any|]. intros; ac.
Qed.
Lemma a2_ckcol K a i : acts K (h2_ckcol a i) anyk.
Proof. unfold h2_ckcol. repeat (ac1 || apply a2_cols). Qed.
Lemma a2_ck K a i j : acts K (h2_ck a i j) anyk.
Proof. unfold h2_ck. repeat (ac1 || apply a2_ckrow || apply a2_ckcol). Qed.
Lemma a_rd2 K a i j : acts K (rd2 a i j) anyk.
Proof. unfold rd2. eapply acts_bind; [apply acts_rdS_any|]. intros; ac. Qed.
Lemma a_wr2 K a i j x : kS K (sl_arr a) -> acts K (wr2 a i j x) anyk.
Proof. intros. unfold wr2. ac. Qed.
Lemma a2_SetEntry K a i j x : kS K (sl_arr a) -> acts K (h2_SetEntry a i j x) anyk.
Proof. intros. unfold h2_SetEntry. repeat (ac1 || apply a2_ck || (apply a_wr2; auto)). Qed.
Lemma a2_modEntry K a i j g : kS K (sl_arr a) -> acts K (h2_modEntry a i j g) anyk.
Proof. intros. unfold h2_modEntry. repeat (ac1 || apply a2_ck || apply a_rd2 || (apply a_wr2; auto)). Qed.
Lemma a2_SetColumn K a i d : kS K (sl_arr a) -> acts K (h2_SetColumn a i d) anyk.
Proof. intros. unfold h2_SetColumn. repeat (ac1 || apply a2_ckcol || (apply a_wr2; auto)). Qed.
Lemma a2_SetRow K a i d : kS K (sl_arr a) -> acts K (h2_SetRow a i d) anyk.
Proof. intros. unfold h2_SetRow, copyrange. repeat (ac1 || apply a2_ckrow || apply a2_cols). Qed.
Lemma a2_SetSubMatrix K a d i j : kS K (sl_arr a) -> isnil a = false -> acts K (h2_SetSubMatrix a d i j) anyk.
Proof.
  intros H E. unfold h2_SetSubMatrix. rewrite E.
  repeat (ac1 || apply a2_ckrow || apply a2_ckcol || apply a_rd2 || (apply a2_SetEntry; auto)).
Qed.
Lemma ad_SetEntry K s i j x : kF K (sl_arr s) -> acts K (hd_SetEntry s i j x) anyk.
Proof. intros. unfold hd_SetEntry. repeat (ac1 || apply a_hcheck). Qed.
Lemma ad_AddToEntry K s i j x : kF K (sl_arr s) -> acts K (hd_AddToEntry s i j x) anyk.
Proof. intros. unfold hd_AddToEntry, modF. repeat (ac1 || apply a_hcheck). Qed.
Lemma ad_MultiplyEntry K s i j x : kF K (sl_arr s) -> acts K (hd_MultiplyEntry s i j x) anyk.
Proof. intros. unfold hd_MultiplyEntry, modF. repeat (ac1 || apply a_hcheck). Qed.
Lemma ad_SetRow K s i d : kF K (sl_arr s) -> acts K (hd_SetRow s i d) anyk.
Proof. intros. unfold hd_SetRow. repeat (ac1 || apply a_hcheck || (apply ad_SetEntry; auto)). Qed.
Lemma ad_SetColumn K s i d : kF K (sl_arr s) -> acts K (hd_SetColumn s i d) anyk.
Proof. intros. unfold hd_SetColumn. repeat (ac1 || apply a_hcheck || (apply ad_SetEntry; auto)). Qed.
Lemma ab_ckrow K b i : acts K (hb_ckrow b i) anyk. Proof. unfold hb_ckrow. ac. Qed.
Lemma ab_ckcol K b i : acts K (hb_ckcol b i) anyk. Proof. unfold hb_ckcol. ac. Qed.
Lemma ab_SetEntry K b i j x : kS K (sl_arr (hb_blocks b)) -> acts K (hb_SetEntry b i j x) anyk.
Proof. intros. unfold hb_SetEntry. repeat (ac1 || apply ab_ckrow || apply ab_ckcol || (apply a_wr2; auto)). Qed.
Lemma ab_modEntry K b i j g : kS K (sl_arr (hb_blocks b)) -> acts K (hb_modEntry b i j g) anyk.
Proof. intros. unfold hb_modEntry. repeat (ac1 || apply ab_ckrow || apply ab_ckcol || apply a_rd2 || (apply a_wr2; auto)). Qed.
End Writers.

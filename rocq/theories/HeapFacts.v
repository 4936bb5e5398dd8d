(** Facts about the heap model: calls that only add, and independence. *)
From Coq Require Import ZArith List Lia Bool.
From Verif Require Import Base BaseLemmas Scalar Vector Matrix Heap HeapSpec.
Import ListNotations.
Open Scope Z_scope.

(** ** Lists *)
Lemma zget_range {A} (l : list A) i x : zget l i = Ok x -> 0 <= i < len l.
Proof.
  unfold zget. destruct (inb i (len l)) eqn:E; [|discriminate]. intros _. apply inb_true; auto.
Qed.
Lemma zget_some {A} (l : list A) i : 0 <= i < len l -> exists x, zget l i = Ok x.
Proof.
  intros H. unfold zget. rewrite (proj2 (inb_true _ _) H).
  destruct (nth_error l (Z.to_nat i)) eqn:E; [eauto|]. apply nth_error_None in E. unfold len in H. lia.
Qed.
Lemma zget_nth {A} (l : list A) i x :
  zget l i = Ok x <-> 0 <= i /\ nth_error l (Z.to_nat i) = Some x.
Proof.
  unfold zget. destruct (inb i (len l)) eqn:E.
  - apply inb_true in E. destruct (nth_error l (Z.to_nat i)); split; intros H.
    + injection H as ->. split; auto; lia.
    + destruct H as [_ [= ->]]. reflexivity.
    + discriminate.
    + destruct H; discriminate.
  - apply inb_false in E. split; [discriminate|]. intros [H H'].
    assert (nth_error l (Z.to_nat i) <> None) as Hn by congruence. apply nth_error_Some in Hn.
    unfold len in E. lia.
Qed.
Lemma zget_In {A} (l : list A) i x : zget l i = Ok x -> In x l.
Proof. intros H. apply zget_nth in H. destruct H as [_ H]. apply nth_error_In in H. auto. Qed.
Lemma In_zget {A} (l : list A) x : In x l -> exists i, zget l i = Ok x.
Proof.
  intros H. apply In_nth_error in H. destruct H as [n H]. exists (Z.of_nat n). apply zget_nth.
  rewrite Nat2Z.id. split; [lia|auto].
Qed.
Lemma nth_error_upd_nat {A} (l : list A) n m v :
  nth_error (upd_nat l n v) m =
  if Nat.eqb n m && Nat.ltb n (length l) then Some v else nth_error l m.
Proof.
  revert n m. induction l as [|x t IH]; intros n m.
  - destruct n; simpl; rewrite ?andb_false_r; auto.
  - destruct n, m; simpl; auto. rewrite IH. reflexivity.
Qed.
Lemma zget_upd {A} (l : list A) i j v :
  zget (upd l i v) j = if (i =? j) && inb i (len l) then Ok v else zget l j.
Proof.
  unfold upd. destruct (Z.leb_spec 0 i).
  2: { replace (inb i (len l)) with false; [rewrite andb_false_r; auto|]. symmetry. apply inb_false. lia. }
  unfold zget. assert (EL : len (upd_nat l (Z.to_nat i) v) = len l)
    by (unfold len; rewrite length_upd_nat; auto). rewrite EL.
  rewrite nth_error_upd_nat. destruct (inb j (len l)) eqn:Ej.
  - apply inb_true in Ej. destruct (Z.eqb_spec i j).
    + subst j. rewrite Nat.eqb_refl. rewrite (proj2 (inb_true _ _) Ej).
      replace (Nat.ltb (Z.to_nat i) (length l)) with true; auto.
      symmetry. apply Nat.ltb_lt. unfold len in Ej. lia.
    + replace (Nat.eqb (Z.to_nat i) (Z.to_nat j)) with false; auto. symmetry. apply Nat.eqb_neq. lia.
  - destruct (Z.eqb_spec i j); auto. subst. rewrite Ej. auto.
Qed.
Lemma In_upd {A} (l : list A) i v x : In x (upd l i v) -> x = v \/ In x l.
Proof.
  intros H. apply In_zget in H. destruct H as [j H]. rewrite zget_upd in H.
  destruct (_ && _); [left; congruence|right]. apply zget_In in H. auto.
Qed.
Lemma zget_app_l {A} (l1 l2 : list A) i : i < len l1 -> zget (l1 ++ l2) i = zget l1 i.
Proof.
  intros H. unfold zget. rewrite len_app. pose proof (len_nonneg l2).
  destruct (inb i (len l1)) eqn:E.
  - apply inb_true in E. rewrite (proj2 (inb_true _ _)) by lia. rewrite nth_error_app1; auto.
    unfold len in *. lia.
  - apply inb_false in E. rewrite (proj2 (inb_false _ _)) by lia. auto.
Qed.
Lemma zget_app_last {A} (l : list A) x : zget (l ++ [x]) (len l) = Ok x.
Proof.
  apply zget_nth. split; [apply len_nonneg|]. unfold len. rewrite Nat2Z.id.
  rewrite nth_error_app2, Nat.sub_diag by lia. reflexivity.
Qed.
Lemma zget_app_inv {A} (l : list A) x i y :
  zget (l ++ [x]) i = Ok y -> zget l i = Ok y \/ (i = len l /\ y = x).
Proof.
  intros H. pose proof (zget_range _ _ _ H) as R. rewrite len_app in R. change (len [x]) with 1 in R.
  destruct (Z.eq_dec i (len l)) as [->|n].
  - right. rewrite zget_app_last in H. injection H as ->. auto.
  - left. rewrite zget_app_l in H by lia. auto.
Qed.
Lemma zset_inv {A} (l : list A) i v l' : zset l i v = Ok l' -> 0 <= i < len l /\ l' = upd l i v.
Proof.
  unfold zset. destruct (inb i (len l)) eqn:E; [|discriminate]. intros [= <-].
  split; auto. apply inb_true; auto.
Qed.

Section HeapFacts.
Context {O : Ops}.

(** ** Calls that only add *)
Definition hle (h h' : heap) : Prop := len (hf h) <= len (hf h') /\ len (hs h) <= len (hs h').
(** Refers to an array of [h] that is not in [h0], or is nil. *)
Definition isnewF (h0 h : heap) (s : slice) : Prop := len (hf h0) <= sl_arr s < len (hf h) \/ sl_arr s = -1.
Definition isnewS (h0 h : heap) (o : slice) : Prop := len (hs h0) <= sl_arr o < len (hs h) \/ sl_arr o = -1.
Record Ext (h0 h : heap) : Prop := {
  ext_le : hle h0 h;
  ext_f : forall a, a < len (hf h0) -> zget (hf h) a = zget (hf h0) a;
  ext_s : forall b, b < len (hs h0) -> zget (hs h) b = zget (hs h0) b;
  ext_n : forall b l s, len (hs h0) <= b -> zget (hs h) b = Ok l -> In s l -> isnewF h0 h s
}.
Lemma hle_refl h : hle h h.
Proof. split; lia. Qed.
Lemma hle_trans h1 h2 h3 : hle h1 h2 -> hle h2 h3 -> hle h1 h3.
Proof. unfold hle. lia. Qed.
Lemma Ext_refl h : Ext h h.
Proof. split; auto; try apply hle_refl. intros b l s H Hb. apply zget_range in Hb. lia. Qed.
Lemma isnewF_mono h0 h h' s : hle h h' -> isnewF h0 h s -> isnewF h0 h' s.
Proof. unfold hle, isnewF. lia. Qed.
Lemma isnewS_mono h0 h h' s : hle h h' -> isnewS h0 h s -> isnewS h0 h' s.
Proof. unfold hle, isnewS. lia. Qed.

Definition keeps {A} (h0 hm : heap) (m : M A) (P : heap -> A -> Prop) : Prop :=
  forall h, Ext h0 h -> hle hm h -> forall r h', m h = (r, h') ->
    Ext h0 h' /\ hle h h' /\ forall a, r = Ok a -> P h' a.
Definition any {A} (_ : heap) (_ : A) : Prop := True.

Lemma keeps_any {A} h0 hm (m : M A) P : keeps h0 hm m P -> keeps h0 hm m any.
Proof. intros H h He Hl r h' E. destruct (H h He Hl r h' E) as (A1 & A2 & A3). split; [|split]; auto; intros; exact I. Qed.
Lemma keeps_panic {A} h0 hm e (P : heap -> A -> Prop) : keeps h0 hm (mpanic e) P.
Proof. intros h He Hl r h' [= <- <-]. split; [|split]; auto using hle_refl. discriminate. Qed.
Lemma keeps_err {A} h0 hm e (P : heap -> A -> Prop) : keeps h0 hm (merr e) P.
Proof. intros h He Hl r h' [= <- <-]. split; [|split]; auto using hle_refl. discriminate. Qed.
Lemma keeps_ret {A} h0 hm (x : A) (P : heap -> A -> Prop) :
  (forall h, hle hm h -> P h x) -> keeps h0 hm (ret x) P.
Proof. intros H h He Hl r h' [= <- <-]. split; [|split]; auto using hle_refl. intros a [= <-]; auto. Qed.
Lemma keeps_bind {A B} h0 hm (m : M A) (f : A -> M B) P Q :
  keeps h0 hm m P -> (forall a h1, hle hm h1 -> P h1 a -> keeps h0 h1 (f a) Q) -> keeps h0 hm (mbind m f) Q.
Proof.
  intros Hm Hf h He Hl r h' E. unfold mbind in E. destruct (m h) as [[a|e|e] h1] eqn:Em.
  - destruct (Hm h He Hl _ _ Em) as (He1 & Hl1 & Pa).
    destruct (Hf a h1 (hle_trans _ _ _ Hl Hl1) (Pa a eq_refl) h1 He1 (hle_refl _) r h' E) as (B1 & B2 & B3).
    split; [|split]; auto. eapply hle_trans; eauto.
  - injection E as <- <-. destruct (Hm h He Hl _ _ Em) as (B1 & B2 & B3). split; [|split]; auto. discriminate.
  - injection E as <- <-. destruct (Hm h He Hl _ _ Em) as (B1 & B2 & B3). split; [|split]; auto. discriminate.
Qed.
Lemma keeps_mpan {A} h0 hm (m : M A) P : keeps h0 hm m P -> keeps h0 hm (mpan m) P.
Proof.
  intros Hm h He Hl r h' E. unfold mpan in E. destruct (m h) as [[a|e|e] h1] eqn:Em;
    injection E as <- <-; destruct (Hm h He Hl _ _ Em) as (B1 & B2 & B3); split; auto; split; auto; discriminate.
Qed.
Lemma keeps_weak {A} h0 hm hm' (m : M A) P : hle hm hm' -> keeps h0 hm m P -> keeps h0 hm' m P.
Proof. intros H Hm h He Hl. apply Hm; auto. eapply hle_trans; eauto. Qed.
Lemma keeps_up {T} h0 hm n i (body : Z -> T -> M T) (s : T) :
  (forall i s h1, hle hm h1 -> keeps h0 h1 (body i s) any) -> keeps h0 hm (mup n i body s) any.
Proof.
  revert hm i s. induction n; intros hm i s H; simpl.
  - apply keeps_ret. intros; exact I.
  - eapply keeps_bind; [apply H, hle_refl|]. intros a h1 Hl _. apply IHn.
    intros. apply H. eapply hle_trans; eauto.
Qed.
Lemma keeps_for {T} h0 hm lo hi (body : Z -> T -> M T) (s : T) :
  (forall i s h1, hle hm h1 -> keeps h0 h1 (body i s) any) -> keeps h0 hm (mfor lo hi body s) any.
Proof. apply keeps_up. Qed.

Lemma Ext_newF h0 h l : Ext h0 h -> Ext h0 (mkHeap (hf h ++ [l]) (hs h)).
Proof.
  intros [[A1 A2] C D E]. split; cbn; auto.
  - split; cbn; rewrite ?len_app; change (len [l]) with 1; lia.
  - intros a Ha. rewrite zget_app_l by lia. auto.
  - intros b l' s Hb Hg Hs. specialize (E b l' s Hb Hg Hs). unfold isnewF in *. cbn. rewrite len_app.
    change (len [l]) with 1. lia.
Qed.
Lemma Ext_newS h0 h l : Ext h0 h -> (forall s, In s l -> isnewF h0 h s) -> Ext h0 (mkHeap (hf h) (hs h ++ [l])).
Proof.
  intros [[A1 A2] C D E] Hl. split; cbn; auto.
  - split; cbn; rewrite ?len_app; change (len [l]) with 1; lia.
  - intros a Ha. rewrite zget_app_l by lia. auto.
  - intros b l' s Hb Hg Hs. apply zget_app_inv in Hg. destruct Hg as [Hg|[_ ->]].
    + exact (E b l' s Hb Hg Hs).
    + exact (Hl s Hs).
Qed.
Lemma Ext_putF h0 h a l : Ext h0 h -> len (hf h0) <= a -> Ext h0 (mkHeap (upd (hf h) a l) (hs h)).
Proof.
  intros [[A1 A2] C D E] Ha. split; cbn; auto.
  - split; cbn; rewrite ?len_upd; lia.
  - intros b Hb. rewrite zget_upd. destruct (Z.eqb_spec a b); [lia|]. cbn. auto.
  - intros b l' s Hb Hg Hs. specialize (E b l' s Hb Hg Hs). unfold isnewF in *. cbn. rewrite len_upd. lia.
Qed.
Lemma Ext_putS h0 h b l : Ext h0 h -> len (hs h0) <= b -> (forall s, In s l -> isnewF h0 h s) ->
  Ext h0 (mkHeap (hf h) (upd (hs h) b l)).
Proof.
  intros [[A1 A2] C D E] Ha Hl. split; cbn; auto.
  - split; cbn; rewrite ?len_upd; lia.
  - intros c Hb. rewrite zget_upd. destruct (Z.eqb_spec b c); [lia|]. cbn. auto.
  - intros c l' s Hc Hg Hs. rewrite zget_upd in Hg. destruct (_ && _); [injection Hg as <-|].
    + exact (Hl s Hs).
    + exact (E c l' s Hc Hg Hs).
Qed.
Lemma hle_putF h a l : hle h (mkHeap (upd (hf h) a l) (hs h)).
Proof. split; cbn; rewrite ?len_upd; lia. Qed.
Lemma hle_putS h a l : hle h (mkHeap (hf h) (upd (hs h) a l)).
Proof. split; cbn; rewrite ?len_upd; lia. Qed.

Lemma keeps_newF h0 hm l : keeps h0 hm (newF l) (isnewF h0).
Proof.
  intros h He Hl r h' [= <- <-]. split; [apply Ext_newF; auto|]. pose proof (ext_le _ _ He) as [E1 E2].
  assert (len (hf h ++ [l]) = len (hf h) + 1) as L1 by (rewrite len_app; reflexivity).
  split; [split; cbn; rewrite ?L1; lia|].
  intros a [= <-]. left. cbn. rewrite L1. lia.
Qed.
Lemma keeps_newS h0 hm l : (forall s, In s l -> isnewF h0 hm s) -> keeps h0 hm (newS l) (isnewS h0).
Proof.
  intros Hn h He Hl r h' [= <- <-]. split; [apply Ext_newS; auto; intros; eapply isnewF_mono; eauto|].
  pose proof (ext_le _ _ He) as [E1 E2].
  assert (len (hs h ++ [l]) = len (hs h) + 1) as L1 by (rewrite len_app; reflexivity).
  split; [split; cbn; rewrite ?L1; lia|].
  intros a [= <-]. left. cbn. rewrite L1. lia.
Qed.
Lemma keeps_makeF h0 hm n : keeps h0 hm (makeF n) (isnewF h0).
Proof. unfold makeF. destruct (_ <? _); [apply keeps_panic|apply keeps_newF]. Qed.
Lemma keeps_makeS h0 hm n : keeps h0 hm (makeS n) (isnewS h0).
Proof.
  unfold makeS. destruct (_ <? _); [apply keeps_panic|apply keeps_newS].
  intros s Hs. apply repeat_spec in Hs. subst s. right. reflexivity.
Qed.
Lemma keeps_appendF h0 hm d : keeps h0 hm (appendF d) (isnewF h0).
Proof. intros h He Hl r h' E. apply (keeps_newF h0 hm _ h He Hl r h' E). Qed.
Lemma keeps_read {A} h0 hm (f : heap -> res A) : keeps h0 hm (fun h => (f h, h)) any.
Proof. intros h He Hl r h' [= <- <-]. split; [|split]; auto using hle_refl. intros; exact I. Qed.
Lemma keeps_rdF h0 hm s i : keeps h0 hm (rdF s i) any.
Proof. apply keeps_read. Qed.
Lemma keeps_rdS_any h0 hm s i : keeps h0 hm (rdS s i) any.
Proof. apply keeps_read. Qed.
Lemma keeps_rdS h0 hm s i : isnewS h0 hm s -> keeps h0 hm (rdS s i) (isnewF h0).
Proof.
  intros Hn h He Hl r h' [= <- <-]. split; [|split]; auto using hle_refl.
  intros a Ha. destruct (inb i (sl_len s)); [|discriminate].
  destruct (zget (hs h) (sl_arr s)) as [l| |] eqn:El; cbn in Ha; try discriminate.
  apply zget_In in Ha. eapply ext_n; eauto. unfold isnewS in Hn. apply zget_range in El. lia.
Qed.
Ltac done_same := match goal with E : (_, _) = (_, _) |- _ => injection E as <- <- end;
  split; [|split]; auto using hle_refl; intros; try discriminate; exact I.
Lemma keeps_wrF h0 hm s i x : isnewF h0 hm s -> keeps h0 hm (wrF s i x) any.
Proof.
  intros Hn h He Hl r h' E. unfold wrF in E. destruct (inb i (sl_len s)); cbn in E; [|done_same].
  destruct (zget (hf h) (sl_arr s)) as [l| |] eqn:El; cbn in E; try done_same.
  destruct (zset l _ x) as [l'| |] eqn:El'; cbn in E; try done_same.
  destruct (zset (hf h) _ l') as [m| |] eqn:Em; cbn in E; try done_same.
  apply zset_inv in Em. destruct Em as [Hr ->]. injection E as <- <-.
  split; [apply Ext_putF; auto; unfold isnewF in Hn; lia|]. split; [apply hle_putF|]. intros; exact I.
Qed.
Lemma keeps_wrS h0 hm s i x : isnewS h0 hm s -> isnewF h0 hm x -> keeps h0 hm (wrS s i x) any.
Proof.
  intros Hn Hx h He Hl r h' E. unfold wrS in E. destruct (inb i (sl_len s)); cbn in E; [|done_same].
  destruct (zget (hs h) (sl_arr s)) as [l| |] eqn:El; cbn in E; try done_same.
  destruct (zset l _ x) as [l'| |] eqn:El'; cbn in E; try done_same.
  destruct (zset (hs h) _ l') as [m| |] eqn:Em; cbn in E; try done_same.
  apply zset_inv in Em. destruct Em as [Hr ->]. apply zset_inv in El'. destruct El' as [_ ->].
  assert (len (hs h0) <= sl_arr s) by (unfold isnewS in Hn; lia). injection E as <- <-.
  split; [apply Ext_putS; auto|split; [apply hle_putS|intros; exact I]].
  intros y Hy. apply In_upd in Hy. destruct Hy as [->|Hy]; [eapply isnewF_mono; eauto|].
  exact (ext_n _ _ He (sl_arr s) l y H El Hy).
Qed.
Lemma keeps_reslice h0 hm s lo hi : isnewF h0 hm s -> keeps h0 hm (reslice s lo hi) (isnewF h0).
Proof.
  intros H. unfold reslice. destruct (_ && _); [apply keeps_ret|apply keeps_panic].
  intros h Hl. exact (isnewF_mono _ _ _ _ Hl H).
Qed.
Lemma keeps_reslice_any h0 hm s lo hi : keeps h0 hm (reslice s lo hi) any.
Proof. unfold reslice. destruct (_ && _); [apply keeps_ret; intros; exact I|apply keeps_panic]. Qed.
Lemma keeps_gocopy h0 hm d s : isnewF h0 hm d -> keeps h0 hm (gocopy d s) any.
Proof.
  intros Hn h He Hl r h' E. unfold gocopy in E.
  destruct (zget (hf h) (sl_arr d)) as [l| |] eqn:El; try done_same.
  injection E as <- <-. apply zget_range in El.
  split; [apply Ext_putF; auto; unfold isnewF in Hn; lia|]. split; [apply hle_putF|]. intros; exact I.
Qed.
Definition isnewB (h0 h : heap) (b : HBlk) : Prop := isnewS h0 h (hb_blocks b).
Lemma isnewB_mono h0 h h' b : hle h h' -> isnewB h0 h b -> isnewB h0 h' b.
Proof. apply isnewS_mono. Qed.
End HeapFacts.

(** Walk through a function whose writes all go to new storage. *)
Ltac klift Hl :=
  match type of Hl with hle ?h ?h' =>
    repeat match goal with
    | H : isnewF ?h0 h _ |- _ => apply (isnewF_mono h0 h h' _ Hl) in H
    | H : isnewS ?h0 h _ |- _ => apply (isnewS_mono h0 h h' _ Hl) in H
    | H : isnewB ?h0 h _ |- _ => apply (isnewB_mono h0 h h' _ Hl) in H
    end
  end.
Ltac ksub lem := first [apply lem; auto; fail | eapply keeps_any; apply lem; auto; fail].
Ltac kp1 :=
  match goal with
  | |- keeps _ _ (if ?b then _ else _) _ => destruct b
  | |- keeps _ _ (let '(_, _) := ?p in _) _ => destruct p
  | |- keeps _ _ (match ?v with HArr _ => _ | HOther _ => _ end) _ => destruct v
  | |- keeps _ _ (ret _) _ =>
      apply keeps_ret; let h := fresh "h" in let Hl := fresh "Hl" in intros h Hl; klift Hl; first [exact I|auto; fail]
  | |- keeps _ _ (mpanic _) _ => apply keeps_panic
  | |- keeps _ _ (merr _) _ => apply keeps_err
  | |- keeps _ _ (mpan _) _ => apply keeps_mpan
  | |- keeps _ _ (newF _) _ => ksub @keeps_newF
  | |- keeps _ _ (makeF _) _ => ksub @keeps_makeF
  | |- keeps _ _ (makeS _) _ => ksub @keeps_makeS
  | |- keeps _ _ (appendF _) _ => ksub @keeps_appendF
  | |- keeps _ _ (rdF _ _) _ => apply keeps_rdF
  | H : isnewS ?h0 ?h ?s |- keeps ?h0 ?h (rdS ?s _) _ => apply keeps_rdS; exact H
  | H : isnewB ?h0 ?h ?b |- keeps ?h0 ?h (rdS (hb_blocks ?b) _) _ => apply keeps_rdS; exact H
  | |- keeps _ _ (rdS _ _) _ => apply keeps_rdS_any
  | |- keeps _ _ (wrF _ _ _) _ => apply keeps_wrF; auto; fail
  | |- keeps _ _ (wrS _ _ _) _ => apply keeps_wrS; auto; fail
  | H : isnewF ?h0 ?h ?s |- keeps ?h0 ?h (reslice ?s _ _) _ => apply keeps_reslice; exact H
  | |- keeps _ _ (reslice _ _ _) _ => apply keeps_reslice_any
  | |- keeps _ _ (gocopy _ _) _ => apply keeps_gocopy; auto; fail
  | |- keeps _ _ (mfor _ _ _ _) _ =>
      apply keeps_for; let i := fresh "i" in let s := fresh "s" in let h := fresh "h" in let Hl := fresh "Hl" in
      intros i s h Hl; klift Hl
  | |- keeps _ _ (mbind _ _) _ =>
      eapply keeps_bind; [|let a := fresh "a" in let h := fresh "h" in let Hl := fresh "Hl" in
        intros a h Hl ?; klift Hl]
  | |- keeps _ _ (fun h => (_, h)) _ => apply keeps_read
  end.
Ltac kp := repeat kp1.

Section Only.
Context {O : Ops}.
Implicit Types (s a d : slice) (v : HVec) (b : HBlk).

Lemma k_hcheck h0 hm s i : keeps h0 hm (hcheck s i) any.
Proof. unfold hcheck. kp. Qed.
Lemma k_At h0 hm v i : keeps h0 hm (hv_At v i) any.
Proof. unfold hv_At. kp. Qed.
Lemma k_copyrange h0 hm d i j s k l : isnewF h0 hm d -> keeps h0 hm (copyrange d i j s k l) any.
Proof. intros. unfold copyrange. kp. Qed.
Lemma k_rd2 h0 hm a i j : keeps h0 hm (rd2 a i j) any.
Proof. unfold rd2. kp. Qed.
Lemma k_wr2 h0 hm a i j x : isnewS h0 hm a -> keeps h0 hm (wr2 a i j x) any.
Proof. intros. unfold wr2. kp. Qed.
End Only.
Ltac kq1 :=
  match goal with
  | |- keeps _ _ (hcheck _ _) _ => apply k_hcheck
  | |- keeps _ _ (hv_At _ _) _ => apply k_At
  | |- keeps _ _ (copyrange _ _ _ _ _ _) _ => apply k_copyrange; auto; fail
  | |- keeps _ _ (rd2 _ _ _) _ => apply k_rd2
  | |- keeps _ _ (wr2 _ _ _ _) _ => apply k_wr2; auto; fail
  | _ => kp1
  end.
Ltac kq := repeat kq1.

Section Only2.
Context {O : Ops}.
Implicit Types (s a d : slice) (v : HVec) (b : HBlk).

(** *** Vectors *)
Lemma k_NewCopy h0 hm v : keeps h0 hm (h_NewArrayRealVectorCopy v) (isnewF h0).
Proof. unfold h_NewArrayRealVectorCopy. kq. Qed.
Lemma k_FromSlice h0 hm s : keeps h0 hm (h_NewArrayRealVectorFromSlice s) (isnewF h0).
Proof. unfold h_NewArrayRealVectorFromSlice. kq. Qed.
Lemma k_NewVector h0 hm s : keeps h0 hm (h_NewArrayRealVector s true) (isnewF h0).
Proof. apply k_FromSlice. Qed.
Lemma k_SubVector h0 hm s i n : keeps h0 hm (h_SubVector s i n) (isnewF h0).
Proof. unfold h_SubVector. kq. Qed.
Lemma k_FromTwo h0 hm s1 s2 : keeps h0 hm (h_FromTwo s1 s2) (isnewF h0).
Proof. unfold h_FromTwo. kq. Qed.
Lemma k_Append h0 hm s x : keeps h0 hm (h_Append s x) (isnewF h0).
Proof. unfold h_Append, h_NewArrayRealVector. cbn iota. kq. Qed.
Lemma k_Add h0 hm s v : keeps h0 hm (h_Add s v) (isnewF h0).
Proof. unfold h_Add. kq. Qed.

(** *** Array2DRowRealMatrix *)
Lemma k2_cols h0 hm a : keeps h0 hm (h2_cols a) any.
Proof. unfold h2_cols. kq. Qed.
Lemma k2_ckrow h0 hm a i : keeps h0 hm (h2_ckrow a i) any.
Proof. unfold h2_ckrow. kq. Qed.
Lemma k2_ckcol h0 hm a i : keeps h0 hm (h2_ckcol a i) any.
Proof. unfold h2_ckcol. repeat (kq1 || apply k2_cols). Qed.
Lemma k_make2 h0 hm r c : keeps h0 hm (h_make2 r c) (isnewS h0).
Proof. unfold h_make2. kq. Qed.
Lemma k2_New h0 hm r c : keeps h0 hm (h2_New r c) (isnewS h0).
Proof. unfold h2_New. repeat (kq1 || apply k_make2). Qed.
Lemma k2_copyIn h0 hm a : keeps h0 hm (h2_copyIn a) (isnewS h0).
Proof. unfold h2_copyIn, h2_SetSubMatrix. change (isnil nilsl) with true. cbn iota. kq. Qed.
Lemma k2_copyOut h0 hm a : keeps h0 hm (h2_copyOut a) (isnewS h0).
Proof. unfold h2_copyOut. repeat (kq1 || apply k2_cols). Qed.
Lemma k2_Copy h0 hm a : keeps h0 hm (h2_Copy a) (isnewS h0).
Proof. unfold h2_Copy. repeat (kq1 || apply k2_copyOut || apply k2_copyIn). Qed.
Lemma k2_FromSlices h0 hm a : keeps h0 hm (h2_FromSlices a true) (isnewS h0).
Proof. apply k2_copyIn. Qed.
Lemma k2_ColumnAt h0 hm a j : keeps h0 hm (h2_ColumnAt a j) (isnewF h0).
Proof. unfold h2_ColumnAt. repeat (kq1 || apply k2_ckcol). Qed.
Lemma k2_RowAt h0 hm a j : keeps h0 hm (h2_RowAt a j) (isnewF h0).
Proof. unfold h2_RowAt. repeat (kq1 || apply k2_ckrow || apply k2_cols). Qed.
Lemma k2_ColumnVectorAt h0 hm a j : keeps h0 hm (h2_ColumnVectorAt a j) (isnewF h0).
Proof. unfold h2_ColumnVectorAt. repeat (kq1 || apply k2_ColumnAt). Qed.
Lemma k2_RowVectorAt h0 hm a j : keeps h0 hm (h2_RowVectorAt a j) (isnewF h0).
Proof. unfold h2_RowVectorAt. repeat (kq1 || apply k2_RowAt). Qed.
Lemma k2_SubMatrix h0 hm a r0 r1 c0 c1 : keeps h0 hm (h2_SubMatrix a r0 r1 c0 c1) (isnewS h0).
Proof.
  unfold h2_SubMatrix.
  repeat (kq1 || apply k2_ckrow || apply k2_ckcol).
Qed.
Lemma k2_RowMatrixAt h0 hm a j : keeps h0 hm (h2_RowMatrixAt a j) (isnewS h0).
Proof. unfold h2_RowMatrixAt. repeat (kq1 || apply k2_ckrow || apply k2_ckcol || apply k2_cols || apply k2_New). Qed.
Lemma k2_ColumnMatrixAt h0 hm a j : keeps h0 hm (h2_ColumnMatrixAt a j) (isnewS h0).
Proof. unfold h2_ColumnMatrixAt. repeat (kq1 || apply k2_ckrow || apply k2_ckcol || apply k2_cols || apply k2_New). Qed.
Lemma k2_Transpose h0 hm a : keeps h0 hm (h2_Transpose a) (isnewS h0).
Proof. unfold h2_Transpose. repeat (kq1 || apply k2_cols). Qed.

(** *** DiagonalMatrix *)
Lemma kd_New h0 hm s : keeps h0 hm (hd_New s true) (isnewF h0).
Proof. unfold hd_New. kq. Qed.
Lemma kd_Copy h0 hm s : keeps h0 hm (hd_Copy s) (isnewF h0).
Proof. unfold hd_Copy. kq. Qed.
Lemma kd_Data h0 hm s : keeps h0 hm (hd_Data s) (isnewS h0).
Proof. unfold hd_Data. kq. Qed.
Lemma kd_At h0 hm s i j : keeps h0 hm (hd_At s i j) any.
Proof. unfold hd_At. kq. Qed.
Lemma kd_ColumnAt h0 hm s j : keeps h0 hm (hd_ColumnAt s j) (isnewF h0).
Proof. unfold hd_ColumnAt. repeat (kq1 || apply kd_At). Qed.
Lemma kd_RowAt h0 hm s j : keeps h0 hm (hd_RowAt s j) (isnewF h0).
Proof. unfold hd_RowAt. repeat (kq1 || apply kd_At). Qed.

(** *** BlockRealMatrix *)
Lemma kb_create h0 hm r c : keeps h0 hm (hb_create r c) (isnewS h0).
Proof. unfold hb_create. kq. Qed.
Lemma kb_New h0 hm r c : keeps h0 hm (hb_New r c) (isnewB h0).
Proof. unfold hb_New. repeat (kq1 || apply kb_create). Qed.
Lemma kb_FromBlockData h0 hm r c s : isnewS h0 hm s -> keeps h0 hm (hb_FromBlockData r c s) (isnewB h0).
Proof. intros. unfold hb_FromBlockData. kq. Qed.
Lemma kb_toBlocks h0 hm s : keeps h0 hm (hb_toBlocks s) (isnewS h0).
Proof. unfold hb_toBlocks. kq. Qed.
Lemma kb_FromSlices h0 hm s : keeps h0 hm (hb_FromSlices s) (isnewB h0).
Proof. unfold hb_FromSlices. repeat (kq1 || apply kb_toBlocks || (apply kb_FromBlockData; auto)). Qed.
Lemma kb_Copy h0 hm b : keeps h0 hm (hb_Copy b) (isnewB h0).
Proof. unfold hb_Copy. repeat (kq1 || apply kb_create). Qed.
Lemma kb_Data h0 hm b : keeps h0 hm (hb_Data b) (isnewS h0).
Proof. unfold hb_Data. kq. Qed.
Lemma kb_ckrow h0 hm b i : keeps h0 hm (hb_ckrow b i) any.
Proof. unfold hb_ckrow. kq. Qed.
Lemma kb_ckcol h0 hm b i : keeps h0 hm (hb_ckcol b i) any.
Proof. unfold hb_ckcol. kq. Qed.
Lemma kb_RowAt h0 hm b i : keeps h0 hm (hb_RowAt b i) (isnewF h0).
Proof. unfold hb_RowAt. repeat (kq1 || apply kb_ckrow). Qed.
Lemma kb_ColumnAt h0 hm b i : keeps h0 hm (hb_ColumnAt b i) (isnewF h0).
Proof. unfold hb_ColumnAt. repeat (kq1 || apply kb_ckcol). Qed.
Lemma kb_part h0 hm s (sw a0 a1 b0 b1 : Z) d (dw dr dc : Z) : isnewF h0 hm d ->
  keeps h0 hm (hb_part s sw a0 a1 b0 b1 d dw dr dc) any.
Proof. intros. unfold hb_part. kq. Qed.
Lemma kb_SubMatrix h0 hm b r0 r1 c0 c1 : keeps h0 hm (hb_SubMatrix b r0 r1 c0 c1) (isnewB h0).
Proof.
  unfold hb_SubMatrix.
  repeat (kq1 || apply kb_ckrow || apply kb_ckcol || apply kb_New || (apply kb_part; auto) ||
    match goal with H : isnewB _ ?o |- keeps _ _ (rdS (hb_blocks ?o) _) _ => apply keeps_rdS; exact H end).
Qed.
End Only2.

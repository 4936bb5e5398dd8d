(** One action of a program, alone and in the common memory; and goroutines. *)
From Coq Require Import ZArith List Lia Bool Arith.
From Verif Require Import Base BaseLemmas Scalar Vector Matrix Heap HeapDec HeapSpec HeapFacts HeapCo HeapCoFacts HeapCoRel.
Import ListNotations.
Open Scope Z_scope.

Section Step.
Context {O : Ops}.
Variable g : heap.
Notation relF := (relF g).
Notation relS := (relS g).
Notation prel := (prel g).
Notation hrel := (hrel g).

Lemma stay {A} (R : rho -> A -> A -> Prop) r (p1 p1' : prog A) h h' : hrel r h h' -> prel R r p1 p1' ->
  exists r', grows r r' /\ hrel r' h h' /\ prel R r' p1 p1' /\ frame r' h' h' /\ fresh r r' h'.
Proof.
  intros H Hp. exists r. split; [apply grows_refl|]. split; auto. split; auto. split; [apply frame_refl|apply fresh_refl].
Qed.
Lemma zget_fail {A} (l : list A) i : (exists x, zget l i = Ok x) \/ zget l i = Panic ERuntime.
Proof. unfold zget. destruct (inb _ _); [destruct (nth_error _ _)|]; eauto. Qed.
Lemma cont_rel r h h' s s' : hrel r h h' -> relF r s s' -> cont h' s' = cont h s.
Proof.
  intros H Hs. unfold cont, window. rewrite (getF g r h h' s s' H Hs). destruct Hs as [_ (E1 & E2 & E3)]. rewrite E1, E2. reflexivity.
Qed.
Lemma put_frame_f r h' a l : In a (fst r) -> frame r h' (mkHeap (upd (hf h') a l) (hs h')).
Proof.
  intros Ha. split; cbn; rewrite ?len_upd; try lia; auto. intros b Hb Hn. rewrite zget_upd.
  destruct (Z.eqb_spec a b) as [->|]; [contradiction|reflexivity].
Qed.
Lemma put_frame_s r h' a l : In a (snd r) -> frame r h' (mkHeap (hf h') (upd (hs h') a l)).
Proof.
  intros Ha. split; cbn; rewrite ?len_upd; try lia; auto. intros b Hb Hn. rewrite zget_upd.
  destruct (Z.eqb_spec a b) as [->|]; [contradiction|reflexivity].
Qed.
Lemma step_rel {A} (R : rho -> A -> A -> Prop) r (p p' : prog A) h h' :
  Ext g h -> hrel r h h' -> ~ hits g p -> prel R r p p' ->
  exists r', grows r r' /\ hrel r' (fst (step h p)) (fst (step h' p')) /\ prel R r' (snd (step h p)) (snd (step h' p')) /\
    frame r' h' (fst (step h' p')) /\ fresh r r' h'.
Proof.
  intros He H Hh Hp.
  destruct p as [q|s i k|s i k|s i x k|s i x k|l k|l k|d k|d s k];
    destruct p' as [q'|s' i' k'|s' i' k'|s' i' x' k'|s' i' x' k'|l' k'|l' k'|d' k'|d' s' k']; cbn [HeapCoRel.prel] in Hp;
    try contradiction; try (destruct q; contradiction).
  - cbn [step fst snd]. apply stay; auto.
  - destruct Hp as (Hs & <- & Hk). pose proof (getF g r h h' s s' H Hs) as E. cbn [step]. unfold rdF.
    destruct Hs as [_ (E1 & E2 & E3)]. rewrite <- E1, <- E2, E.
    destruct (if inb i (sl_len s) then let* a := zget (hf h) (sl_arr s) in zget a (sl_off s + i) else Panic ERuntime) as [v|e|e];
      cbn [goon fst snd]; apply stay; auto; try reflexivity. apply Hk, grows_refl.
  - destruct Hp as (Hs & <- & Hk). pose proof (getS g r h h' s s' H Hs) as E. cbn [step]. unfold rdS.
    destruct Hs as [_ (E1 & E2 & E3)]. rewrite <- E1, <- E2.
    destruct (inb i (sl_len s)); [|cbn [goon fst snd]; apply stay; auto; reflexivity].
    destruct E as [(l & l' & F1 & F2 & F3)|[F1 F2]]; rewrite F1, F2; [cbn [bind]|cbn [bind goon fst snd]; apply stay; auto; reflexivity].
    destruct (F2_zget g r l l' (sl_off s + i) F3) as [(y & y' & G1 & G2 & G3)|[G1 G2]]; rewrite G1, G2; cbn [goon fst snd]; apply stay; auto.
    + apply Hk; [apply grows_refl|auto].
    + reflexivity.
  - destruct Hp as (Hs & <- & <- & Hk). pose proof (getF g r h h' s s' H Hs) as E. cbn [step]. unfold wrF. cbn [hits] in Hh.
    destruct Hs as [Hr (E1 & E2 & E3)]. rewrite <- E1, <- E2, E.
    destruct (inb i (sl_len s)); [|cbn [goon fst snd]; apply stay; auto; reflexivity].
    destruct (zget_fail (hf h) (sl_arr s)) as [[a Ea]|Ea]; rewrite Ea in *; cbn [bind]; [|cbn [goon fst snd]; apply stay; auto; reflexivity].
    destruct (zset a (sl_off s + i) x) as [b|e|e] eqn:Eb; cbn [bind]; [|cbn [goon fst snd]; apply stay; auto; reflexivity..].
    pose proof (zget_range _ _ _ Ea) as Ra. pose proof (zget_range _ _ _ E) as Ra'.
    unfold zset. rewrite !(proj2 (inb_true _ _)) by lia. cbn [goon fst snd].
    destruct Hr as [[Hr _]|(Hr1 & Hr2 & Hr3)]; [lia|].
    exists r. split; [apply grows_refl|]. split; [apply put_f; auto|]. split; [apply Hk, grows_refl|].
    split; [apply put_frame_f; eapply zget_In; eauto|apply fresh_refl].
  - destruct Hp as (Hs & <- & Hx & Hk). pose proof (getS g r h h' s s' H Hs) as E. cbn [step]. unfold wrS. cbn [hits] in Hh.
    destruct Hs as [Hr (E1 & E2 & E3)]. rewrite <- E1, <- E2.
    destruct (inb i (sl_len s)); [|cbn [goon fst snd]; apply stay; auto; reflexivity].
    destruct E as [(l & l' & F1 & F2 & F3)|[F1 F2]]; rewrite F1, F2; [cbn [bind]|cbn [bind goon fst snd]; apply stay; auto; reflexivity].
    unfold zset. assert (len l = len l') as L by (unfold len; f_equal; eapply F2_length; eauto). rewrite <- L.
    pose proof (zget_range _ _ _ F1) as Ra. pose proof (zget_range _ _ _ F2) as Ra'.
    destruct (inb (sl_off s + i) (len l)); cbn [bind]; [|cbn [goon fst snd]; apply stay; auto; reflexivity].
    rewrite !(proj2 (inb_true _ _)) by lia. cbn [goon fst snd].
    destruct Hr as [[Hr _]|(Hr1 & Hr2 & Hr3)]; [lia|].
    exists r. split; [apply grows_refl|]. split; [apply put_s; auto; apply F2_upd; auto|]. split; [apply Hk, grows_refl|].
    split; [apply put_frame_s; eapply zget_In; eauto|apply fresh_refl].
  - destruct Hp as (<- & Hk). cbn [step]. unfold newF. cbn [goon fst snd].
    destruct (new_f g r h h' l H He) as (G & B1 & B2 & B3 & B4). eexists. split; [exact G|]. split; [exact B1|]. split; [apply Hk; auto|]. split; auto.
  - destruct Hp as (Hl & Hk). cbn [step]. unfold newS. cbn [goon fst snd].
    destruct (new_s g r h h' l l' H He Hl) as (G & B1 & B2 & B3 & B4). eexists. split; [exact G|]. split; [exact B1|]. split; [apply Hk; auto|]. split; auto.
  - destruct Hp as (Hd & Hk). cbn [step]. unfold appendF, newF. rewrite (cont_rel r h h' d d' H Hd). cbn [goon fst snd].
    destruct (new_f g r h h' (cont h d) H He) as (G & B1 & B2 & B3 & B4). eexists. split; [exact G|]. split; [exact B1|]. split; [apply Hk; auto|]. split; auto.
  - destruct Hp as (Hd & Hs & Hk). pose proof (getF g r h h' d d' H Hd) as E. cbn [step]. unfold gocopy. rewrite (cont_rel r h h' s s' H Hs), E.
    cbn [hits] in Hh. destruct Hd as [Hr (E1 & E2 & E3)]. destruct Hs as [_ (D1 & D2 & D3)]. rewrite <- E1, <- E2, <- D2.
    destruct (zget_fail (hf h) (sl_arr d)) as [[a Ea]|Ea]; rewrite Ea in *; cbn [goon fst snd]; [|apply stay; auto; apply Hk, grows_refl].
    pose proof (zget_range _ _ _ Ea) as Ra. destruct Hr as [[Hr _]|(Hr1 & Hr2 & Hr3)]; [lia|].
    exists r. split; [apply grows_refl|]. split; [apply put_f; auto|]. split; [apply Hk, grows_refl|].
    split; [apply put_frame_f; eapply zget_In; eauto|apply fresh_refl].
Qed.
(** What another program did changes nothing for this one. *)
Lemma other_step r h h1 h2 r' : hrel r h h1 -> frame r' h1 h2 ->
  (forall a, In a (fst r) -> ~ In a (fst r')) -> (forall a, In a (snd r) -> ~ In a (snd r')) ->
  (forall a, a < len (hf g) -> ~ In a (fst r')) -> (forall a, a < len (hs g) -> ~ In a (snd r')) ->
  len (hf g) <= len (hf h1) -> len (hs g) <= len (hs h1) -> hrel r h h2.
Proof.
  intros H Hf D1 D2 D3 D4 L1 L2. split; try apply H.
  - intros a Ha. rewrite (fr_keepf _ _ _ Hf) by (auto; lia). apply H; auto.
  - intros a Ha. rewrite (fr_keeps _ _ _ Hf) by (auto; lia). apply H; auto.
  - intros k a Hk. destruct (hr_newf _ _ _ _ H _ _ Hk) as [N1 N2]. split; auto.
    pose proof (rho_range_f g _ _ _ a H (zget_In _ _ _ Hk)). rewrite (fr_keepf _ _ _ Hf); [auto|lia|]. apply D1. eapply zget_In; eauto.
  - intros k a Hk. destruct (hr_news _ _ _ _ H _ _ Hk) as [N1 (l & l' & N2 & N3 & N4)]. split; auto.
    pose proof (rho_range_s g _ _ _ a H (zget_In _ _ _ Hk)). exists l, l'. rewrite (fr_keeps _ _ _ Hf); [auto|lia|]. apply D2. eapply zget_In; eauto.
Qed.

(** ** Goroutines *)
(** Goroutine with program [p] in memory [m], after [n] turns of what started as
    [p0]: [h] and [q] are the memory and the program it would have alone. *)
Record mate {A} (R : rho -> A -> A -> Prop) (Q : heap -> A -> Prop) (p0 : prog A) (m : heap) (n : nat) (p : prog A) (r : rho) (h : heap) (q : prog A) : Prop := {
  mt_ext : Ext g h;
  mt_safe : safe g q Q h;
  mt_run : run q h = run p0 g;
  mt_todo : todo q h = (todo p0 g - n)%nat;
  mt_heap : hrel r h m;
  mt_prog : prel R r q p
}.
Lemma old_len m r h : Ext g h -> hrel r h m -> len (hf g) <= len (hf m) /\ len (hs g) <= len (hs m).
Proof.
  intros He H. split.
  - pose proof (len_nonneg (hf g)). destruct (Z.eq_dec (len (hf g)) 0) as [->|]; [apply len_nonneg|]. destruct (zget_some (hf g) (len (hf g) - 1)) as [y Ey]; [lia|].
    pose proof (hr_oldf _ _ _ _ H (len (hf g) - 1) ltac:(lia)) as E. rewrite (ext_f _ _ He) in E by lia. rewrite Ey in E. apply zget_range in E. lia.
  - pose proof (len_nonneg (hs g)). destruct (Z.eq_dec (len (hs g)) 0) as [->|]; [apply len_nonneg|]. destruct (zget_some (hs g) (len (hs g) - 1)) as [y Ey]; [lia|].
    pose proof (hr_olds _ _ _ _ H (len (hs g) - 1) ltac:(lia)) as E. rewrite (ext_s _ _ He) in E by lia. rewrite Ey in E. apply zget_range in E. lia.
Qed.
Definition apart (r r' : rho) : Prop := (forall a, In a (fst r) -> ~ In a (fst r')) /\ (forall a, In a (snd r) -> ~ In a (snd r')).
Definition peace {A} (R : rho -> A -> A -> Prop) (Q : heap -> A -> Prop) (ps : list (prog A)) (c : nat -> nat) (w : world A) : Prop :=
  length (threads w) = length ps /\
  exists (r : nat -> rho) (h : nat -> heap) (q : nat -> prog A),
    (forall i p0, nth_error ps i = Some p0 -> exists p, nth_error (threads w) i = Some p /\ mate R Q p0 (memory w) (c i) p (r i) (h i) (q i)) /\
    (forall i j, i <> j -> (i < length ps)%nat -> (j < length ps)%nat -> apart (r i) (r j)).
Lemma move_mate {A} (R : rho -> A -> A -> Prop) (Q : heap -> A -> Prop) p0 m n p r h q : mate R Q p0 m n p r h q ->
  let (m', p') := step m p in
  exists r', mate R Q p0 m' (Datatypes.S n) p' r' (fst (step h q)) (snd (step h q)) /\ frame r' m m' /\ fresh r r' m.
Proof.
  intros [He Hs Hr Ht Hh Hp]. destruct (step_rel R r q p h m He Hh (safe_hits _ _ _ _ Hs) Hp) as (r' & G & B1 & B2 & B3 & B4).
  destruct (step_safe g q Q h He Hs) as [He' Hs']. pose proof (step_run q h) as Hr'. pose proof (step_todo q h) as Ht'.
  destruct (step m p) as [m' p']. cbn [fst snd] in *. exists r'. split; [|auto]. split; auto; [congruence|lia].
Qed.
Lemma move_peace {A} (R : rho -> A -> A -> Prop) (Q : heap -> A -> Prop) ps c w j : peace R Q ps c w ->
  peace R Q ps (fun i => (c i + (if Nat.eqb j i then 1 else 0))%nat) (move w j).
Proof.
  intros (Hl & r & h & q & Hm & Ha). unfold move. destruct (nth_error (threads w) j) as [p|] eqn:Ep.
  2:{ split; auto. exists r, h, q. split; auto. intros i p0 Ei. destruct (Hm i p0 Ei) as (p & E1 & E2). exists p. split; auto.
      destruct (Nat.eqb_spec j i) as [->|]; [congruence|]. rewrite Nat.add_0_r. auto. }
  assert (Hj : (j < length (threads w))%nat) by (apply nth_error_Some; congruence).
  destruct (nth_error ps j) as [p0|] eqn:Ep0; [|apply nth_error_None in Ep0; lia].
  destruct (Hm j p0 Ep0) as (p' & E1 & E2). assert (p' = p) by congruence. subst p'.
  pose proof (move_mate R Q p0 _ _ _ _ _ _ E2) as Hmv. destruct (step (memory w) p) as [m' p1].
  destruct Hmv as (r' & M1 & M2 & M3).
  assert (Hap : forall i, i <> j -> (i < length ps)%nat -> apart (r i) r').
  { intros i Hij Hi. destruct (Ha i j Hij Hi ltac:(lia)) as [X1 X2]. destruct M3 as [Y1 Y2].
    destruct (nth_error ps i) as [pi|] eqn:Ei; [|apply nth_error_None in Ei; lia].
    destruct (Hm i pi Ei) as (pp & _ & Mi). pose proof (mt_heap _ _ _ _ _ _ _ _ _ Mi) as Hi'.
    split; intros a Hin Hin'.
    - destruct (Y1 a Hin') as [Z1|Z1]; [exact (X1 a Hin Z1)|]. pose proof (rho_range_f g _ _ _ a Hi' Hin). lia.
    - destruct (Y2 a Hin') as [Z1|Z1]; [exact (X2 a Hin Z1)|]. pose proof (rho_range_s g _ _ _ a Hi' Hin). lia. }
  cbn [threads memory]. split; [cbn; rewrite length_put; auto|].
  exists (fun i => if Nat.eqb j i then r' else r i), (fun i => if Nat.eqb j i then fst (step (h j) (q j)) else h i),
    (fun i => if Nat.eqb j i then snd (step (h j) (q j)) else q i). cbn [threads memory]. split.
  - intros i pi Ei. rewrite nth_put by auto. destruct (Nat.eqb_spec j i) as [<-|Hn].
    + exists p1. split; auto. assert (pi = p0) by congruence. subst pi. rewrite Nat.add_1_r. exact M1.
    + destruct (Hm i pi Ei) as (pp & F1 & F2). exists pp. split; auto. rewrite Nat.add_0_r.
      destruct F2 as [He Hs Hr Ht Hh Hp]. split; auto. destruct (old_len _ _ _ He Hh) as [L1 L2].
      assert (Hi : (i < length ps)%nat) by (apply nth_error_Some; congruence).
      destruct (Hap i (fun e => Hn (eq_sym e)) Hi) as [X1 X2].
      eapply other_step; eauto; intros a Ha1 Hin.
      * pose proof (rho_range_f g _ _ _ a (mt_heap _ _ _ _ _ _ _ _ _ M1) Hin). lia.
      * pose proof (rho_range_s g _ _ _ a (mt_heap _ _ _ _ _ _ _ _ _ M1) Hin). lia.
  - intros i k Hik Hi Hk. destruct (Nat.eqb_spec j i) as [<-|Hn]; destruct (Nat.eqb_spec j k) as [<-|Hn']; try lia.
    + destruct (Hap k ltac:(lia) Hk) as [X1 X2]. split; intros a A1 A2; [exact (X1 a A2 A1)|exact (X2 a A2 A1)].
    + apply Hap; auto.
    + apply Ha; auto.
Qed.
Fixpoint turns (order : list nat) (i : nat) : nat :=
  match order with [] => 0%nat | j :: order => ((if Nat.eqb j i then 1 else 0) + turns order i)%nat end.
Lemma peace_ext {A} (R : rho -> A -> A -> Prop) (Q : heap -> A -> Prop) ps c c' w : (forall i, c i = c' i) -> peace R Q ps c w -> peace R Q ps c' w.
Proof.
  intros E (Hl & r & h & q & Hm & Ha). split; auto. exists r, h, q. split; auto. intros i p0 Ei. rewrite <- E. auto.
Qed.
Lemma moves_peace {A} (R : rho -> A -> A -> Prop) (Q : heap -> A -> Prop) ps order : forall c w, peace R Q ps c w ->
  peace R Q ps (fun i => (c i + turns order i)%nat) (moves w order).
Proof.
  induction order as [|j order IH]; intros c w H; cbn [moves turns].
  - eapply peace_ext; [|exact H]. intros. cbn. lia.
  - eapply peace_ext; [|apply IH, (move_peace R Q ps c w j H)]. intros. cbn. lia.
Qed.
Definition closed : Prop := forall a l s, zget (hs g) a = Ok l -> In s l -> sl_arr s < len (hf g).
Lemma start_peace {A} (R : rho -> A -> A -> Prop) (Q : heap -> A -> Prop) ps : closed ->
  (forall p, In p ps -> careful g g p Q) -> (forall p, In p ps -> prel R ([], []) p p) ->
  peace R Q ps (fun _ => 0%nat) (mkWorld g ps).
Proof.
  intros Hc H1 H2. split; auto. exists (fun _ => ([], [])), (fun _ => g), (fun i => nth i ps (Done (Panic ERuntime))). split.
  - intros i p0 E. exists p0. split; auto. rewrite (nth_error_nth _ _ _ E). apply nth_error_In in E. split; auto.
    + apply Ext_refl.
    + eapply safe_mono; [|apply (H1 p0 E g (Ext_refl _) (hle_refl _))]. intros h a (_ & _ & HQ); exact HQ.
    + lia.
    + split; cbn; auto; try (change (len (@nil Z)) with 0; lia).
      * intros k a Hk. apply zget_range in Hk. change (len (@nil Z)) with 0 in Hk. lia.
      * intros k a Hk. apply zget_range in Hk. change (len (@nil Z)) with 0 in Hk. lia.
      * constructor.
      * constructor.
      * intros a l s _. apply Hc.
  - intros i j _ _ _. split; intros a [].
Qed.
End Step.

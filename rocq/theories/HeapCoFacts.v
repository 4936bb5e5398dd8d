(** Programs of HeapCo.v run alone: what they compute, and when they write only
    to storage they made. *)
From Coq Require Import ZArith List Lia Bool Arith.
From Verif Require Import Base BaseLemmas Scalar Vector Matrix Heap HeapDec HeapBlkArith HeapSpec HeapFacts HeapCo.
Import ListNotations.
Open Scope Z_scope.

Section HeapCoFacts.
Context {O : Ops}.

(** ** Running alone *)
Definition carry {A X} (r : res X * heap) (k : X -> M A) : res A * heap :=
  match r with (Ok x, h) => k x h | (Err e, h) => (Err e, h) | (Panic e, h) => (Panic e, h) end.
Fixpoint run {A} (p : prog A) : M A := fun h =>
  match p with
  | Done r => (r, h)
  | RdF s i k => carry (rdF s i h) (fun x => run (k x))
  | RdS s i k => carry (rdS s i h) (fun x => run (k x))
  | WrF s i x k => carry (wrF s i x h) (fun x => run (k x))
  | WrS s i x k => carry (wrS s i x h) (fun x => run (k x))
  | NewF l k => carry (newF l h) (fun x => run (k x))
  | NewS l k => carry (newS l h) (fun x => run (k x))
  | AppF d k => carry (appendF d h) (fun x => run (k x))
  | Copy d s k => carry (gocopy d s h) (fun x => run (k x))
  end.
Definition carryn {X} (r : res X * heap) (k : X -> heap -> nat) : nat :=
  Datatypes.S (match r with (Ok x, h) => k x h | _ => 0%nat end).
(** The number of actions. *)
Fixpoint todo {A} (p : prog A) : heap -> nat := fun h =>
  match p with
  | Done r => 0%nat
  | RdF s i k => carryn (rdF s i h) (fun x => todo (k x))
  | RdS s i k => carryn (rdS s i h) (fun x => todo (k x))
  | WrF s i x k => carryn (wrF s i x h) (fun x => todo (k x))
  | WrS s i x k => carryn (wrS s i x h) (fun x => todo (k x))
  | NewF l k => carryn (newF l h) (fun x => todo (k x))
  | NewS l k => carryn (newS l h) (fun x => todo (k x))
  | AppF d k => carryn (appendF d h) (fun x => todo (k x))
  | Copy d s k => carryn (gocopy d s h) (fun x => todo (k x))
  end.
(** The next action changes one of the arrays of [g]. *)
Definition hits {A} (g : heap) (p : prog A) : Prop :=
  match p with
  | WrF s _ _ _ => 0 <= sl_arr s < len (hf g)
  | WrS s _ _ _ => 0 <= sl_arr s < len (hs g)
  | Copy d _ _ => 0 <= sl_arr d < len (hf g)
  | _ => False
  end.
(** All actions leave the arrays of [h0] alone. *)
Definition goson {X} (h0 : heap) (r : res X * heap) (k : X -> heap -> Prop) : Prop :=
  match r with (Ok x, h) => Ext h0 h /\ k x h | (_, h) => Ext h0 h end.
Fixpoint safe {A} (h0 : heap) (p : prog A) (Q : heap -> A -> Prop) : heap -> Prop := fun h =>
  ~ hits h0 p /\
  match p with
  | Done r => match r with Ok a => Q h a | _ => True end
  | RdF s i k => goson h0 (rdF s i h) (fun x => safe h0 (k x) Q)
  | RdS s i k => goson h0 (rdS s i h) (fun x => safe h0 (k x) Q)
  | WrF s i x k => goson h0 (wrF s i x h) (fun x => safe h0 (k x) Q)
  | WrS s i x k => goson h0 (wrS s i x h) (fun x => safe h0 (k x) Q)
  | NewF l k => goson h0 (newF l h) (fun x => safe h0 (k x) Q)
  | NewS l k => goson h0 (newS l h) (fun x => safe h0 (k x) Q)
  | AppF d k => goson h0 (appendF d h) (fun x => safe h0 (k x) Q)
  | Copy d s k => goson h0 (gocopy d s h) (fun x => safe h0 (k x) Q)
  end.

Lemma step_run {A} (p : prog A) h : run (snd (step h p)) (fst (step h p)) = run p h.
Proof.
  destruct p as [r|s i k|s i k|s i x k|s i x k|l k|l k|d k|d s k]; cbn [step run]; auto.
  all: unfold carry, goon; match goal with |- context [match ?m with (_, _) => _ end] => destruct m as [[y|e|e] h'] end; reflexivity.
Qed.
Lemma step_todo {A} (p : prog A) h : todo (snd (step h p)) (fst (step h p)) = pred (todo p h).
Proof.
  destruct p as [r|s i k|s i k|s i x k|s i x k|l k|l k|d k|d s k]; cbn [step todo]; auto.
  all: unfold carryn, goon; match goal with |- context [match ?m with (_, _) => _ end] => destruct m as [[y|e|e] h'] end; reflexivity.
Qed.
Lemma step_safe {A} h0 (p : prog A) Q h : Ext h0 h -> safe h0 p Q h ->
  Ext h0 (fst (step h p)) /\ safe h0 (snd (step h p)) Q (fst (step h p)).
Proof.
  intros He Hs.
  destruct p as [r|s i k|s i k|s i x k|s i x k|l k|l k|d k|d s k]; cbn [step].
  1: auto.
  all: destruct Hs as [_ Hs]; unfold goson in Hs; unfold goon.
  all: match goal with |- context [match ?m with (_, _) => _ end] => destruct m as [[y|e|e] h'] end; cbn.
  all: first [destruct Hs; split; assumption | split; [assumption|split; [intros []|exact I]]].
Qed.
Lemma todo_done {A} (p : prog A) h : todo p h = 0%nat -> exists r, p = Done r.
Proof. destruct p; cbn; unfold carryn; try discriminate. eauto. Qed.

(** ** Programs and the computations of Heap.v *)
Definition same {A} (p : prog A) (m : M A) : Prop := forall h, run p h = m h.
Lemma run_bind {A B} (p : prog A) (f : A -> prog B) h : run (pbind p f) h = mbind (run p) (fun a => run (f a)) h.
Proof.
  revert h. induction p as [r|s i k IH|s i k IH|s i x k IH|s i x k IH|l k IH|l k IH|d k IH|d s k IH]; intros h; unfold mbind in *.
  1: destruct r; reflexivity.
  all: cbn [pbind run]; unfold carry;
    match goal with |- context [match ?m with (_, _) => _ end] => destruct m as [[y|e|e] h'] end; auto; apply IH.
Qed.
Lemma zget_noerr {A} (l : list A) i e : zget l i <> Err e.
Proof. unfold zget. destruct (inb _ _); [destruct (nth_error _ _)|]; discriminate. Qed.
Lemma zset_noerr {A} (l : list A) i x e : zset l i x <> Err e.
Proof. unfold zset. destruct (inb _ _); discriminate. Qed.
Ltac noerr := cbn; repeat match goal with
  | |- context [if ?b then _ else _] => destruct b
  | |- context [zget ?l ?i] => let E := fresh in destruct (zget l i) eqn:E; cbn; try (exfalso; eapply zget_noerr; exact E)
  | |- context [zset ?l ?i ?x] => let E := fresh in destruct (zset l i x) eqn:E; cbn; try (exfalso; eapply zset_noerr; exact E)
  end; try discriminate.
Lemma rdF_noerr s i h e h' : rdF s i h <> (Err e, h').
Proof. unfold rdF. noerr. Qed.
Lemma rdS_noerr s i h e h' : rdS s i h <> (Err e, h').
Proof. unfold rdS. noerr. Qed.
Lemma wrF_noerr s i x h e h' : wrF s i x h <> (Err e, h').
Proof. unfold wrF. noerr. Qed.
Lemma wrS_noerr s i x h e h' : wrS s i x h <> (Err e, h').
Proof. unfold wrS. noerr. Qed.
Lemma copy_noerr d s h e h' : gocopy d s h <> (Err e, h').
Proof. unfold gocopy. noerr. Qed.
Lemma run_pan {A} (p : prog A) h : run (ppan p) h = mpan (run p) h.
Proof.
  revert h. induction p as [r|s i k IH|s i k IH|s i x k IH|s i x k IH|l k IH|l k IH|d k IH|d s k IH]; intros h; unfold mpan in *.
  1: destruct r; reflexivity.
  all: cbn [ppan run]; unfold carry;
    match goal with |- context [match ?m with (_, _) => _ end] => destruct m as [[y|e|e] h'] eqn:E end; auto.
  all: exfalso; revert E; first [apply rdF_noerr|apply rdS_noerr|apply wrF_noerr|apply wrS_noerr|apply copy_noerr|discriminate].
Qed.
Lemma same_bind {A B} p (m : M A) (f : A -> prog B) (k : A -> M B) :
  same p m -> (forall a, same (f a) (k a)) -> same (pbind p f) (mbind m k).
Proof. intros H1 H2 h. rewrite run_bind. unfold mbind. rewrite H1. destruct (m h) as [[a|e|e] h']; auto. apply H2. Qed.
Lemma same_pan {A} p (m : M A) : same p m -> same (ppan p) (mpan m).
Proof. intros H h. rewrite run_pan. unfold mpan. rewrite H. reflexivity. Qed.
Lemma same_ret {A} (x : A) : same (pret x) (ret x).
Proof. intros h. reflexivity. Qed.
Lemma same_panic {A} e : same (@ppanic _ A e) (mpanic e).
Proof. intros h. reflexivity. Qed.
Lemma same_err {A} e : same (@perr _ A e) (merr e).
Proof. intros h. reflexivity. Qed.
Lemma same_pure {A} (r : res A) : same (Done r) (pure r).
Proof. intros h. reflexivity. Qed.
Lemma same_up {T} n i (b : Z -> T -> prog T) (b' : Z -> T -> M T) s :
  (forall i s, same (b i s) (b' i s)) -> same (pup n i b s) (mup n i b' s).
Proof. intros H. revert i s. induction n; intros i s; cbn [pup mup]; [apply same_ret|]. apply same_bind; auto. Qed.
Lemma same_for {T} lo hi (b : Z -> T -> prog T) (b' : Z -> T -> M T) s :
  (forall i s, same (b i s) (b' i s)) -> same (pfor lo hi b s) (mfor lo hi b' s).
Proof. apply same_up. Qed.
Lemma same_down {T} lo hi (b : Z -> T -> prog T) (b' : Z -> T -> M T) s :
  (forall i s, same (b i s) (b' i s)) -> same (pdown lo hi b s) (mdown lo hi b' s).
Proof. intros H. apply same_for. intros. apply H. Qed.
Lemma same_brk {T} lo hi (b : Z -> T -> prog (bool * T)) (b' : Z -> T -> M (bool * T)) s :
  (forall i s, same (b i s) (b' i s)) -> same (pfor_brk lo hi b s) (mfor_brk lo hi b' s).
Proof.
  intros H. unfold pfor_brk, mfor_brk. generalize (Z.to_nat (hi - lo)). intros n. revert lo s.
  induction n; intros i s; cbn [pup_brk mup_brk]; [apply same_ret|]. apply same_bind; auto.
  intros bs. destruct (fst bs); [apply same_ret|apply IHn].
Qed.
Lemma same_while {T} n (c : T -> bool) (b : T -> prog T) (b' : T -> M T) s : (forall s, same (b s) (b' s)) -> same (pwhile n c b s) (mwhile n c b' s).
Proof. intros H. revert s. induction n; intros s; cbn [pwhile mwhile]; [apply same_panic|]. destruct (c s); [apply same_bind; auto|apply same_ret]. Qed.
Ltac prim := intros h; unfold prdF, prdS, pwrF, pwrS, pgocopy; cbn [run]; unfold carry;
  match goal with |- context [match ?m with (_, _) => _ end] => destruct m as [[?|?|?] ?] end; reflexivity.
Lemma same_rdF s i : same (prdF s i) (rdF s i). Proof. prim. Qed.
Lemma same_rdS s i : same (prdS s i) (rdS s i). Proof. prim. Qed.
Lemma same_wrF s i x : same (pwrF s i x) (wrF s i x). Proof. prim. Qed.
Lemma same_wrS s i x : same (pwrS s i x) (wrS s i x). Proof. prim. Qed.
Lemma same_newF l : same (pnewF l) (newF l). Proof. intros h; reflexivity. Qed.
Lemma same_newS l : same (pnewS l) (newS l). Proof. intros h; reflexivity. Qed.
Lemma same_appendF l : same (pappendF l) (appendF l). Proof. intros h; reflexivity. Qed.
Lemma same_makeF n : same (pmakeF n) (makeF n). Proof. unfold pmakeF, makeF. destruct (_ <? _); intros h; reflexivity. Qed.
Lemma same_makeS n : same (pmakeS n) (makeS n). Proof. unfold pmakeS, makeS. destruct (_ <? _); intros h; reflexivity. Qed.
Lemma same_reslice s lo hi : same (preslice s lo hi) (reslice s lo hi).
Proof. unfold preslice, reslice. destruct (_ && _); intros h; reflexivity. Qed.
Lemma same_gocopy d s : same (pgocopy d s) (gocopy d s).
Proof. prim. Qed.

(** ** Programs that only write to what they made *)
Definition careful {A} (h0 hm : heap) (p : prog A) (P : heap -> A -> Prop) : Prop :=
  forall h, Ext h0 h -> hle hm h -> safe h0 p (fun h' a => Ext h0 h' /\ hle h h' /\ P h' a) h.
Lemma safe_mono {A} h0 (p : prog A) (Q Q' : heap -> A -> Prop) h : (forall h a, Q h a -> Q' h a) -> safe h0 p Q h -> safe h0 p Q' h.
Proof.
  intros HQ. revert h. induction p as [r|s i k IH|s i k IH|s i x k IH|s i x k IH|l k IH|l k IH|d k IH|d s k IH]; intros h [H1 H2].
  1: split; [exact H1|destruct r; auto].
  all: split; [exact H1|]; cbn [safe] in *; unfold goson in *;
    match goal with |- context [match ?m with (_, _) => _ end] => destruct m as [[y|e|e] h'] end; auto;
    destruct H2; split; auto; apply IH; auto.
Qed.
Lemma safe_bind {A B} h0 (p : prog A) (f : A -> prog B) Q Q' h :
  safe h0 p Q h -> (forall h a, Q h a -> safe h0 (f a) Q' h) -> safe h0 (pbind p f) Q' h.
Proof.
  intros H Hf. revert h H. induction p as [r|s i k IH|s i k IH|s i x k IH|s i x k IH|l k IH|l k IH|d k IH|d s k IH]; intros h [H1 H2].
  1: destruct r as [a|e|e]; cbn [pbind]; [apply Hf; exact H2|split; [intros []|exact I]..].
  all: cbn [pbind]; split; [exact H1|]; cbn [safe] in *; unfold goson in *;
    match goal with |- context [match ?m with (_, _) => _ end] => destruct m as [[y|e|e] h'] end; auto;
    destruct H2; split; auto.
Qed.
Lemma safe_pan {A} h0 (p : prog A) Q h : safe h0 p Q h -> safe h0 (ppan p) Q h.
Proof.
  revert h. induction p as [r|s i k IH|s i k IH|s i x k IH|s i x k IH|l k IH|l k IH|d k IH|d s k IH]; intros h [H1 H2].
  1: destruct r; split; auto; intros [].
  all: cbn [ppan]; split; [exact H1|]; cbn [safe] in *; unfold goson in *;
    match goal with |- context [match ?m with (_, _) => _ end] => destruct m as [[y|e|e] h'] end; auto;
    destruct H2; split; auto.
Qed.
Lemma careful_any {A} h0 hm (p : prog A) P : careful h0 hm p P -> careful h0 hm p any.
Proof. intros H h He Hl. eapply safe_mono; [|apply H; auto]. intros h' a (X & Y & _). split; [auto|split; [auto|exact I]]. Qed.
Lemma careful_panic {A} h0 hm e (P : heap -> A -> Prop) : careful h0 hm (ppanic e) P.
Proof. intros h He Hl. split; [intros []|exact I]. Qed.
Lemma careful_err {A} h0 hm e (P : heap -> A -> Prop) : careful h0 hm (perr e) P.
Proof. intros h He Hl. split; [intros []|exact I]. Qed.
Lemma careful_ret {A} h0 hm (x : A) (P : heap -> A -> Prop) :
  (forall h, hle hm h -> P h x) -> careful h0 hm (pret x) P.
Proof. intros H h He Hl. split; [intros []|]. split; auto. split; auto using hle_refl. Qed.
Lemma careful_done {A} h0 hm (r : res A) : careful h0 hm (Done r) any.
Proof. intros h He Hl. split; [intros []|]. destruct r; auto. split; auto. split; [apply hle_refl|exact I]. Qed.
Lemma careful_bind {A B} h0 hm (m : prog A) (f : A -> prog B) P Q :
  careful h0 hm m P -> (forall a h1, hle hm h1 -> P h1 a -> careful h0 h1 (f a) Q) -> careful h0 hm (pbind m f) Q.
Proof.
  intros Hm Hf h He Hl. eapply safe_bind; [apply Hm; auto|]. cbn beta. intros h1 a (He1 & Hl1 & Pa).
  eapply safe_mono; [|apply (Hf a h1 (hle_trans _ _ _ Hl Hl1) Pa h1 He1 (hle_refl _))].
  cbn beta. intros h2 b (X & Y & Z). split; auto. split; auto. eapply hle_trans; eauto.
Qed.
Lemma careful_pan {A} h0 hm (m : prog A) P : careful h0 hm m P -> careful h0 hm (ppan m) P.
Proof. intros H h He Hl. apply safe_pan, H; auto. Qed.
Lemma careful_imp {A} h0 hm (m : prog A) (P Q : heap -> A -> Prop) : (forall h a, P h a -> Q h a) -> careful h0 hm m P -> careful h0 hm m Q.
Proof. intros HI H h He Hl. eapply safe_mono; [|apply H; auto]. intros h' a (X & Y & Z). auto. Qed.
Lemma careful_up {T} h0 hm n i (body : Z -> T -> prog T) (s : T) :
  (forall i s h1, hle hm h1 -> careful h0 h1 (body i s) any) -> careful h0 hm (pup n i body s) any.
Proof.
  revert hm i s. induction n; intros hm i s H; simpl.
  - apply careful_ret. intros; exact I.
  - eapply careful_bind; [apply H, hle_refl|]. intros a h1 Hl _. apply IHn.
    intros. apply H. eapply hle_trans; eauto.
Qed.
Lemma careful_for {T} h0 hm lo hi (body : Z -> T -> prog T) (s : T) :
  (forall i s h1, hle hm h1 -> careful h0 h1 (body i s) any) -> careful h0 hm (pfor lo hi body s) any.
Proof. apply careful_up. Qed.
Lemma careful_brk {T} h0 hm lo hi (body : Z -> T -> prog (bool * T)) (s : T) :
  (forall i s hm', hle hm hm' -> careful h0 hm' (body i s) any) -> careful h0 hm (pfor_brk lo hi body s) any.
Proof.
  unfold pfor_brk. generalize (Z.to_nat (hi - lo)). intros n. revert lo s hm. induction n as [|n IH]; intros i s hm Hb; cbn [pup_brk].
  - apply careful_ret. intros; exact I.
  - eapply careful_bind; [apply Hb, hle_refl|]. intros bs h1 Hl _. destruct (fst bs).
    + apply careful_ret. intros; exact I.
    + apply IH. intros i' s' hm' Hl'. apply Hb. eapply hle_trans; eauto.
Qed.
Lemma careful_while {T} h0 hm n (c : T -> bool) (body : T -> prog T) (s : T) :
  (forall s hm', hle hm hm' -> careful h0 hm' (body s) any) -> careful h0 hm (pwhile n c body s) any.
Proof.
  revert s hm. induction n as [|n IH]; intros s hm Hb; cbn [pwhile]; [apply careful_panic|]. destruct (c s); [|apply careful_ret; intros; exact I].
  eapply careful_bind; [apply Hb, hle_refl|]. intros s1 h1 Hl _. apply IH. intros s' hm' Hl'. apply Hb. eapply hle_trans; eauto.
Qed.
(** An action that [keeps] and does not hit. *)
Lemma careful_act {A} h0 hm (p : prog A) (m : M A) (P : heap -> A -> Prop) :
  ~ hits h0 p -> keeps h0 hm m P ->
  (forall h, safe h0 p (fun h' a => Ext h0 h' /\ hle h h' /\ P h' a) h <->
     (~ hits h0 p /\ goson h0 (m h) (fun x h1 => safe h0 (pret x) (fun h' a => Ext h0 h' /\ hle h h' /\ P h' a) h1))) ->
  careful h0 hm p P.
Proof.
  intros Hh Hk Hp h He Hl. apply Hp. split; [exact Hh|]. unfold goson. destruct (m h) as [[x|e|e] h'] eqn:E;
    destruct (Hk h He Hl _ _ E) as (B1 & B2 & B3); auto. split; auto. split; [intros []|]. split; auto.
Qed.
Ltac act k t := apply (careful_act _ _ _ t); [|apply k; auto|intros; split; intros X; exact X].
Lemma careful_newF h0 hm l : careful h0 hm (pnewF l) (isnewF h0).
Proof. act @keeps_newF (newF l). intros []. Qed.
Lemma careful_newS h0 hm l : (forall s, In s l -> isnewF h0 hm s) -> careful h0 hm (pnewS l) (isnewS h0).
Proof. intros H. act @keeps_newS (newS l). intros []. Qed.
Lemma careful_makeF h0 hm n : careful h0 hm (pmakeF n) (isnewF h0).
Proof. unfold pmakeF. destruct (_ <? _); [apply careful_panic|apply careful_newF]. Qed.
Lemma careful_makeS h0 hm n : careful h0 hm (pmakeS n) (isnewS h0).
Proof.
  unfold pmakeS. destruct (_ <? _); [apply careful_panic|apply careful_newS].
  intros s Hs. apply repeat_spec in Hs. subst s. right. reflexivity.
Qed.
Lemma careful_appendF h0 hm d : careful h0 hm (pappendF d) (isnewF h0).
Proof. act @keeps_appendF (appendF d). intros []. Qed.
Lemma careful_rdF h0 hm s i : careful h0 hm (prdF s i) any.
Proof. act @keeps_rdF (rdF s i). intros []. Qed.
Lemma careful_rdS_any h0 hm s i : careful h0 hm (prdS s i) any.
Proof. act @keeps_rdS_any (rdS s i). intros []. Qed.
Lemma careful_rdS h0 hm s i : isnewS h0 hm s -> careful h0 hm (prdS s i) (isnewF h0).
Proof. intros H. act @keeps_rdS (rdS s i). intros []. Qed.
Lemma careful_wrF h0 hm s i x : isnewF h0 hm s -> careful h0 hm (pwrF s i x) any.
Proof. intros H. act @keeps_wrF (wrF s i x). cbn. unfold isnewF in H. lia. Qed.
Lemma careful_wrS h0 hm s i x : isnewS h0 hm s -> isnewF h0 hm x -> careful h0 hm (pwrS s i x) any.
Proof. intros H Hx. act @keeps_wrS (wrS s i x). cbn. unfold isnewS in H. lia. Qed.
Lemma careful_reslice h0 hm s lo hi : isnewF h0 hm s -> careful h0 hm (preslice s lo hi) (isnewF h0).
Proof.
  intros H. unfold preslice. destruct (_ && _); [apply careful_ret|apply careful_panic].
  intros h Hl. exact (isnewF_mono _ _ _ _ Hl H).
Qed.
Lemma careful_reslice_any h0 hm s lo hi : careful h0 hm (preslice s lo hi) any.
Proof. unfold preslice. destruct (_ && _); [apply careful_ret; intros; exact I|apply careful_panic]. Qed.
Lemma careful_gocopy h0 hm d s : isnewF h0 hm d -> careful h0 hm (pgocopy d s) any.
Proof. intros H. act @keeps_gocopy (gocopy d s). cbn. unfold isnewF in H. lia. Qed.
Lemma nth_error_firstn_lt {A} (l : list A) i j : (j < i)%nat -> nth_error (firstn i l) j = nth_error l j.
Proof. revert l j. induction i; intros l j H; [lia|]. destruct l, j; cbn; auto. apply IHi. lia. Qed.
Lemma nth_error_skipn_eq {A} (l : list A) i j : nth_error (skipn i l) j = nth_error l (i + j).
Proof. revert l. induction i; intros l; cbn; auto. destruct l; [destruct j; reflexivity|apply IHi]. Qed.
Lemma nth_put {A} (l : list A) i x j : (i < length l)%nat -> nth_error (put l i x) j = if Nat.eqb i j then Some x else nth_error l j.
Proof.
  intros H. unfold put. destruct (Nat.eqb_spec i j) as [<-|Hn].
  - rewrite nth_error_app2; rewrite firstn_length_le by lia; [|lia]. rewrite Nat.sub_diag. reflexivity.
  - destruct (lt_dec j i).
    + rewrite nth_error_app1 by (rewrite firstn_length_le; lia). rewrite nth_error_firstn_lt; auto.
    + rewrite nth_error_app2; rewrite firstn_length_le by lia; [|lia].
      destruct (j - i)%nat as [|m] eqn:Em; [lia|]. cbn [nth_error]. rewrite nth_error_skipn_eq. f_equal. lia.
Qed.
Lemma length_put {A} (l : list A) i x : (i < length l)%nat -> length (put l i x) = length l.
Proof. intros H. unfold put. rewrite app_length. cbn [length]. rewrite firstn_length_le by lia. rewrite skipn_length. lia. Qed.
Lemma safe_hits {A} g (p : prog A) Q h : safe g p Q h -> ~ hits g p.
Proof. destruct p; intros [H _]; exact H. Qed.
End HeapCoFacts.

(** A program run alone and the same program run in a memory where others
    allocate too: the arrays it makes have other numbers. *)
From Coq Require Import ZArith List Lia Bool Arith.
From Verif Require Import Base BaseLemmas Scalar Vector Matrix Heap HeapDec HeapSpec HeapFacts HeapCo HeapCoFacts.
Import ListNotations.
Open Scope Z_scope.

Lemma zget_ex {A} (l : list A) i : 0 <= i < len l -> exists y, zget l i = Ok y.
Proof.
  intros H. destruct (zget l i) as [y|e|e] eqn:E; [eauto|exfalso..]; revert E; unfold zget; rewrite (proj2 (inb_true _ _)) by lia;
    destruct (nth_error l (Z.to_nat i)) eqn:E'; try discriminate; apply nth_error_None in E'; unfold len in H; lia.
Qed.
Lemma NoDup_app_last {A} (l : list A) x : NoDup l -> ~ In x l -> NoDup (l ++ [x]).
Proof. intros H Hx. rewrite <- (rev_involutive (l ++ [x])). apply NoDup_rev. rewrite rev_app_distr. cbn. constructor; [rewrite <- in_rev; auto|apply NoDup_rev; auto]. Qed.
Lemma F2_length {A B} (R : A -> B -> Prop) l l' : Forall2 R l l' -> length l = length l'.
Proof. induction 1; cbn; auto. Qed.
Section Rel.
Context {O : Ops}.
(** The shared memory. *)
Variable g : heap.
Notation nf := (len (hf g)).
Notation ns := (len (hs g)).
(** The numbers in the common memory of the arrays the program made. *)
Definition rho : Type := list Z * list Z.
Definition grows (r r' : rho) : Prop := exists xf xs, fst r' = fst r ++ xf /\ snd r' = snd r ++ xs.
Definition ren (n : Z) (l : list Z) (a a' : Z) : Prop := (a < n /\ a' = a) \/ (n <= a /\ 0 <= a' /\ zget l (a - n) = Ok a').
Definition shape (s s' : slice) : Prop := sl_off s = sl_off s' /\ sl_len s = sl_len s' /\ sl_cap s = sl_cap s'.
Definition relF (r : rho) (s s' : slice) : Prop := ren nf (fst r) (sl_arr s) (sl_arr s') /\ shape s s'.
Definition relS (r : rho) (s s' : slice) : Prop := ren ns (snd r) (sl_arr s) (sl_arr s') /\ shape s s'.
Lemma grows_refl r : grows r r.
Proof. exists [], []. rewrite !app_nil_r. auto. Qed.
Lemma grows_trans r1 r2 r3 : grows r1 r2 -> grows r2 r3 -> grows r1 r3.
Proof. intros (a & b & E1 & E2) (c & d & E3 & E4). exists (a ++ c), (b ++ d). rewrite E3, E4, E1, E2, !app_assoc. auto. Qed.
Lemma ren_mono n l x a a' : ren n l a a' -> ren n (l ++ x) a a'.
Proof.
  intros [H|(H1 & H2 & H3)]; [left; auto|right]. split; auto. split; auto. rewrite zget_app_l; auto.
  apply zget_range in H3. lia.
Qed.
Lemma relF_mono r r' s s' : grows r r' -> relF r s s' -> relF r' s s'.
Proof. intros (xf & xs & E & _) [H1 H2]. split; auto. rewrite E. apply ren_mono; auto. Qed.
Lemma relS_mono r r' s s' : grows r r' -> relS r s s' -> relS r' s s'.
Proof. intros (xf & xs & _ & E) [H1 H2]. split; auto. rewrite E. apply ren_mono; auto. Qed.
Lemma F2_mono r r' l l' : grows r r' -> Forall2 (relF r) l l' -> Forall2 (relF r') l l'.
Proof. intros G H. induction H; constructor; auto. eapply relF_mono; eauto. Qed.

(** Programs that differ only in the numbers. *)
Fixpoint prel {A} (R : rho -> A -> A -> Prop) (r : rho) (p p' : prog A) {struct p} : Prop :=
  match p, p' with
  | Done (Ok a), Done (Ok a') => R r a a'
  | Done (Err e), Done (Err e') => e = e'
  | Done (Panic e), Done (Panic e') => e = e'
  | RdF s i k, RdF s' i' k' => relF r s s' /\ i = i' /\ forall r', grows r r' -> forall x, prel R r' (k x) (k' x)
  | RdS s i k, RdS s' i' k' => relS r s s' /\ i = i' /\ forall r', grows r r' -> forall x x', relF r' x x' -> prel R r' (k x) (k' x')
  | WrF s i x k, WrF s' i' x' k' => relF r s s' /\ i = i' /\ x = x' /\ forall r', grows r r' -> forall u, prel R r' (k u) (k' u)
  | WrS s i x k, WrS s' i' x' k' => relS r s s' /\ i = i' /\ relF r x x' /\ forall r', grows r r' -> forall u, prel R r' (k u) (k' u)
  | NewF l k, NewF l' k' => l = l' /\ forall r', grows r r' -> forall x x', relF r' x x' -> prel R r' (k x) (k' x')
  | NewS l k, NewS l' k' => Forall2 (relF r) l l' /\ forall r', grows r r' -> forall x x', relS r' x x' -> prel R r' (k x) (k' x')
  | AppF d k, AppF d' k' => relF r d d' /\ forall r', grows r r' -> forall x x', relF r' x x' -> prel R r' (k x) (k' x')
  | Copy d s k, Copy d' s' k' => relF r d d' /\ relF r s s' /\ forall r', grows r r' -> forall u, prel R r' (k u) (k' u)
  | _, _ => False
  end.
Definition req {A} (_ : rho) (a a' : A) : Prop := a = a'.

Lemma prel_bind {A B} (R : rho -> A -> A -> Prop) (R' : rho -> B -> B -> Prop) r p p' f f' :
  prel R r p p' -> (forall r', grows r r' -> forall a a', R r' a a' -> prel R' r' (f a) (f' a')) ->
  prel R' r (pbind p f) (pbind p' f').
Proof.
  revert r p'. induction p as [q|s i k IH|s i k IH|s i x k IH|s i x k IH|l k IH|l k IH|d k IH|d s k IH]; intros r p' H Hf;
    destruct p'; cbn [prel] in H; try (destruct q; contradiction); try contradiction.
  - destruct q as [a|e|e], r0 as [a'|e'|e']; try contradiction; cbn [pbind prel]; auto. apply Hf; [apply grows_refl|auto].
  - destruct H as (H1 & H2 & H3). cbn [pbind prel]. split; [auto|]. split; [auto|]. intros r' G x. apply IH; auto.
    intros r'' G' a a' Ra. apply Hf; auto. eapply grows_trans; eauto.
  - destruct H as (H1 & H2 & H3). cbn [pbind prel]. split; [auto|]. split; [auto|]. intros r' G x x' Hx. apply IH; auto.
    intros r'' G' a a' Ra. apply Hf; auto. eapply grows_trans; eauto.
  - destruct H as (H1 & H2 & H3 & H4). cbn [pbind prel]. split; [auto|]. split; [auto|]. split; [auto|]. intros r' G u. apply IH; auto.
    intros r'' G' a a' Ra. apply Hf; auto. eapply grows_trans; eauto.
  - destruct H as (H1 & H2 & H3 & H4). cbn [pbind prel]. split; [auto|]. split; [auto|]. split; [auto|]. intros r' G u. apply IH; auto.
    intros r'' G' a a' Ra. apply Hf; auto. eapply grows_trans; eauto.
  - destruct H as (H1 & H2). cbn [pbind prel]. split; [auto|]. intros r' G x x' Hx. apply IH; auto.
    intros r'' G' a a' Ra. apply Hf; auto. eapply grows_trans; eauto.
  - destruct H as (H1 & H2). cbn [pbind prel]. split; [auto|]. intros r' G x x' Hx. apply IH; auto.
    intros r'' G' a a' Ra. apply Hf; auto. eapply grows_trans; eauto.
  - destruct H as (H1 & H2). cbn [pbind prel]. split; [auto|]. intros r' G x x' Hx. apply IH; auto.
    intros r'' G' a a' Ra. apply Hf; auto. eapply grows_trans; eauto.
  - destruct H as (H1 & H2 & H3). cbn [pbind prel]. split; [auto|]. split; [auto|]. intros r' G u. apply IH; auto.
    intros r'' G' a a' Ra. apply Hf; auto. eapply grows_trans; eauto.
Qed.
Lemma prel_pan {A} (R : rho -> A -> A -> Prop) r p p' : prel R r p p' -> prel R r (ppan p) (ppan p').
Proof.
  revert r p'. induction p as [q|s i k IH|s i k IH|s i x k IH|s i x k IH|l k IH|l k IH|d k IH|d s k IH]; intros r p' H;
    destruct p'; cbn [prel] in H; try (destruct q; contradiction); try contradiction.
  - destruct q as [a|e|e], r0 as [a'|e'|e']; try contradiction; cbn [ppan prel]; auto.
  - destruct H as (H1 & H2 & H3). cbn [ppan prel]. split; [auto|]. split; auto.
  - destruct H as (H1 & H2 & H3). cbn [ppan prel]. split; [auto|]. split; auto.
  - destruct H as (H1 & H2 & H3 & H4). cbn [ppan prel]. split; [auto|]. split; [auto|]. split; auto.
  - destruct H as (H1 & H2 & H3 & H4). cbn [ppan prel]. split; [auto|]. split; [auto|]. split; auto.
  - destruct H as (H1 & H2). cbn [ppan prel]. split; auto.
  - destruct H as (H1 & H2). cbn [ppan prel]. split; auto.
  - destruct H as (H1 & H2). cbn [ppan prel]. split; auto.
  - destruct H as (H1 & H2 & H3). cbn [ppan prel]. split; [auto|]. split; auto.
Qed.
Lemma prel_ret {A} (R : rho -> A -> A -> Prop) r a a' : R r a a' -> prel R r (pret a) (pret a').
Proof. auto. Qed.
Lemma prel_panic {A} (R : rho -> A -> A -> Prop) r e : prel R r (ppanic e) (ppanic e).
Proof. reflexivity. Qed.
Lemma prel_err {A} (R : rho -> A -> A -> Prop) r e : prel R r (perr e) (perr e).
Proof. reflexivity. Qed.
Lemma prel_done {A} r (q : res A) : prel req r (Done q) (Done q).
Proof. destruct q; reflexivity. Qed.
Lemma prel_up {T} r n i (b b' : Z -> T -> prog T) s :
  (forall r', grows r r' -> forall i s, prel req r' (b i s) (b' i s)) -> prel req r (pup n i b s) (pup n i b' s).
Proof.
  revert r i s. induction n; intros r i s H; cbn [pup]; [apply prel_ret; reflexivity|].
  eapply prel_bind; [apply H, grows_refl|]. intros r' G a a' Ea. unfold req in Ea. subst a'. apply IHn. intros r'' G' i' s'. apply H.
  eapply grows_trans; eauto.
Qed.
Lemma prel_for {T} r lo hi (b b' : Z -> T -> prog T) s :
  (forall r', grows r r' -> forall i s, prel req r' (b i s) (b' i s)) -> prel req r (pfor lo hi b s) (pfor lo hi b' s).
Proof. apply prel_up. Qed.
Lemma prel_down {T} r lo hi (b b' : Z -> T -> prog T) s :
  (forall r', grows r r' -> forall i s, prel req r' (b i s) (b' i s)) -> prel req r (pdown lo hi b s) (pdown lo hi b' s).
Proof. intros H. apply prel_for. intros. apply H; auto. Qed.
Lemma prel_brk {T} r lo hi (b b' : Z -> T -> prog (bool * T)) s :
  (forall r', grows r r' -> forall i s, prel req r' (b i s) (b' i s)) -> prel req r (pfor_brk lo hi b s) (pfor_brk lo hi b' s).
Proof.
  unfold pfor_brk. generalize (Z.to_nat (hi - lo)). intros n. revert r lo s. induction n; intros r i s H; cbn [pup_brk]; [apply prel_ret; reflexivity|].
  eapply prel_bind; [apply H, grows_refl|]. intros r' G a a' Ea. unfold req in Ea. subst a'. destruct (fst a); [apply prel_ret; reflexivity|].
  apply IHn. intros r'' G' i' s'. apply H. eapply grows_trans; eauto.
Qed.
Lemma prel_while {T} r n (c : T -> bool) (b b' : T -> prog T) s :
  (forall r', grows r r' -> forall s, prel req r' (b s) (b' s)) -> prel req r (pwhile n c b s) (pwhile n c b' s).
Proof.
  revert r s. induction n; intros r s H; cbn [pwhile]; [apply prel_panic|]. destruct (c s); [|apply prel_ret; reflexivity].
  eapply prel_bind; [apply H, grows_refl|]. intros r' G a a' Ea. unfold req in Ea. subst a'. apply IHn. intros r'' G' s'. apply H. eapply grows_trans; eauto.
Qed.
Lemma prel_rdF r s s' i : relF r s s' -> prel req r (prdF s i) (prdF s' i).
Proof. intros H. split; auto. split; auto. intros. reflexivity. Qed.
Lemma prel_rdS r s s' i : relS r s s' -> prel relF r (prdS s i) (prdS s' i).
Proof. intros H. split; auto. Qed.
Lemma prel_wrF r s s' i x : relF r s s' -> prel req r (pwrF s i x) (pwrF s' i x).
Proof. intros H. split; auto. split; auto. split; auto. intros. reflexivity. Qed.
Lemma prel_wrS r s s' i x x' : relS r s s' -> relF r x x' -> prel req r (pwrS s i x) (pwrS s' i x').
Proof. intros H Hx. split; auto. split; auto. split; auto. intros. reflexivity. Qed.
Lemma prel_newF r l : prel relF r (pnewF l) (pnewF l).
Proof. split; auto. Qed.
Lemma prel_makeF r n : prel relF r (pmakeF n) (pmakeF n).
Proof. unfold pmakeF. destruct (_ <? _); [apply prel_panic|apply prel_newF]. Qed.
Lemma rel_nil r : relF r nilsl nilsl.
Proof. split; [left|split; auto]. pose proof (len_nonneg (hf g)). cbn. lia. Qed.
Lemma rel_nilS r : relS r nilsl nilsl.
Proof. split; [left|split; auto]. pose proof (len_nonneg (hs g)). cbn. lia. Qed.
Lemma prel_makeS r n : prel relS r (pmakeS n) (pmakeS n).
Proof.
  unfold pmakeS. destruct (_ <? _); [apply prel_panic|]. split; [|auto]. induction (Z.to_nat n); constructor; auto. apply rel_nil.
Qed.
Lemma prel_appendF r s s' : relF r s s' -> prel relF r (pappendF s) (pappendF s').
Proof. intros H. split; auto. Qed.
Lemma prel_reslice r s s' lo hi : relF r s s' -> prel relF r (preslice s lo hi) (preslice s' lo hi).
Proof.
  intros [H1 (H2 & H3 & H4)]. unfold preslice. rewrite <- H4. destruct (_ && _); [|apply prel_panic].
  apply prel_ret. split; [exact H1|]. split; [|split]; cbn; congruence.
Qed.
Lemma prel_gocopy r d d' s s' : relF r d d' -> relF r s s' -> prel req r (pgocopy d s) (pgocopy d' s').
Proof. intros H1 H2. split; auto. split; auto. intros. reflexivity. Qed.

(** ** Memories *)
Record hrel (r : rho) (h h' : heap) : Prop := {
  hr_f : len (hf h) = nf + len (fst r);
  hr_s : len (hs h) = ns + len (snd r);
  hr_oldf : forall a, a < nf -> zget (hf h') a = zget (hf h) a;
  hr_olds : forall a, a < ns -> zget (hs h') a = zget (hs h) a;
  hr_newf : forall k a, zget (fst r) k = Ok a -> nf <= a /\ zget (hf h') a = zget (hf h) (nf + k);
  hr_news : forall k a, zget (snd r) k = Ok a -> ns <= a /\ exists l l', zget (hs h) (ns + k) = Ok l /\ zget (hs h') a = Ok l' /\ Forall2 (relF r) l l';
  hr_df : NoDup (fst r);
  hr_ds : NoDup (snd r);
  (** the shared tables refer to shared arrays *)
  hr_closed : forall a l s, a < ns -> zget (hs h) a = Ok l -> In s l -> sl_arr s < nf
}.
Lemma getF r h h' s s' : hrel r h h' -> relF r s s' -> zget (hf h') (sl_arr s') = zget (hf h) (sl_arr s).
Proof.
  intros H [[[H1 ->]|(H1 & H2 & H3)] _]; [apply (hr_oldf _ _ _ H); auto|].
  destruct (hr_newf _ _ _ H _ _ H3) as [_ E]. rewrite E. f_equal. lia.
Qed.
Lemma relF_old r s : sl_arr s < nf -> relF r s s.
Proof. intros H. split; [left; auto|split; auto]. Qed.
Lemma getS r h h' s s' : hrel r h h' -> relS r s s' ->
  (exists l l', zget (hs h) (sl_arr s) = Ok l /\ zget (hs h') (sl_arr s') = Ok l' /\ Forall2 (relF r) l l') \/
  (zget (hs h) (sl_arr s) = Panic ERuntime /\ zget (hs h') (sl_arr s') = Panic ERuntime).
Proof.
  intros H [[[H1 ->]|(H1 & H2 & H3)] _].
  - rewrite (hr_olds _ _ _ H _ H1). destruct (zget (hs h) (sl_arr s)) as [l|e|e] eqn:E.
    + left. exists l, l. split; auto. split; auto. pose proof (fun x => hr_closed _ _ _ H _ l x H1 E) as C.
      clear - C. induction l as [|x l IH]; constructor; [apply relF_old, C; left; auto|]. apply IH. intros s Hs. apply C. right. auto.
    + exfalso. eapply zget_noerr; exact E.
    + right. revert E. unfold zget. destruct (inb _ _); [destruct (nth_error _ _)|]; intros [=]; subst; auto.
  - destruct (hr_news _ _ _ H _ _ H3) as [_ (l & l' & E1 & E2 & E3)]. left. exists l, l'.
    replace (ns + (sl_arr s - ns)) with (sl_arr s) in E1 by lia. auto.
Qed.
(** What a program changes in the common memory. *)
Record frame (r' : rho) (h1 h2 : heap) : Prop := {
  fr_f : len (hf h1) <= len (hf h2);
  fr_s : len (hs h1) <= len (hs h2);
  fr_keepf : forall a, a < len (hf h1) -> ~ In a (fst r') -> zget (hf h2) a = zget (hf h1) a;
  fr_keeps : forall a, a < len (hs h1) -> ~ In a (snd r') -> zget (hs h2) a = zget (hs h1) a
}.
Definition fresh (r r' : rho) (h1 : heap) : Prop :=
  (forall a, In a (fst r') -> In a (fst r) \/ len (hf h1) <= a) /\ (forall a, In a (snd r') -> In a (snd r) \/ len (hs h1) <= a).
Lemma fresh_refl r h : fresh r r h.
Proof. split; auto. Qed.
Lemma frame_refl r h : frame r h h.
Proof. split; auto; lia. Qed.
Lemma F2_zget r l l' i : Forall2 (relF r) l l' ->
  (exists x x', zget l i = Ok x /\ zget l' i = Ok x' /\ relF r x x') \/ (zget l i = Panic ERuntime /\ zget l' i = Panic ERuntime).
Proof.
  intros H. unfold zget. assert (len l = len l') as -> by (unfold len; f_equal; eapply F2_length; eauto).
  destruct (inb i (len l')); [|right; auto]. generalize (Z.to_nat i). intros n. revert n.
  induction H as [|x x' l l' Hx Hl IH]; intros [|n]; cbn; auto. left. eauto 6.
Qed.
Lemma F2_upd r l l' i x x' : Forall2 (relF r) l l' -> relF r x x' -> Forall2 (relF r) (upd l i x) (upd l' i x').
Proof.
  intros H Hx. unfold upd. destruct (0 <=? i); [|exact H]. generalize (Z.to_nat i). intros n. revert n.
  induction H as [|y y' l l' Hy Hl IH]; intros [|n]; cbn; constructor; auto.
Qed.
Lemma nodup_zget (l : list Z) i j a : NoDup l -> zget l i = Ok a -> zget l j = Ok a -> i = j.
Proof.
  intros Hd Hi Hj. pose proof (zget_range _ _ _ Hi) as Ri. pose proof (zget_range _ _ _ Hj) as Rj.
  apply zget_nth in Hi. apply zget_nth in Hj. destruct Hi as [_ Hi], Hj as [_ Hj].
  assert (Z.to_nat i = Z.to_nat j); [|lia]. eapply (proj1 (NoDup_nth_error l)); auto; [|congruence].
  apply nth_error_Some. congruence.
Qed.
Lemma put_f r h h' a a' l : hrel r h h' -> nf <= a -> zget (fst r) (a - nf) = Ok a' ->
  hrel r (mkHeap (upd (hf h) a l) (hs h)) (mkHeap (upd (hf h') a' l) (hs h')).
Proof.
  intros H Ha Hz. destruct (hr_newf _ _ _ H _ _ Hz) as [N1 N2].
  assert (Hr : 0 <= a < len (hf h)) by (pose proof (zget_range _ _ _ Hz); pose proof (hr_f _ _ _ H); pose proof (len_nonneg (hf g)); lia).
  assert (Hr' : 0 <= a' < len (hf h')).
  { destruct (zget (hf h) a) as [y|e|e] eqn:Ey; [|exfalso; eapply zget_noerr; exact Ey|].
    - replace (nf + (a - nf)) with a in N2 by lia. rewrite Ey in N2. apply zget_range in N2. exact N2.
    - exfalso. destruct (zget_ex (hf h) a Hr) as [y Ey']. congruence. }
  split; cbn; rewrite ?len_upd; try apply H.
  - intros b Hb. rewrite !zget_upd. destruct (Z.eqb_spec a' b); [lia|]. destruct (Z.eqb_spec a b); [lia|]. cbn. apply H; auto.
  - intros k b Hk. destruct (hr_newf _ _ _ H _ _ Hk) as [M1 M2]. split; auto. rewrite !zget_upd.
    destruct (Z.eqb_spec a' b) as [->|Hn].
    + assert (k = a - nf) by (eapply nodup_zget; eauto; apply (hr_df _ _ _ H)). subst k. replace (nf + (a - nf)) with a by lia.
      rewrite Z.eqb_refl. rewrite !(proj2 (inb_true _ _)) by lia. reflexivity.
    + destruct (Z.eqb_spec a (nf + k)) as [->|Hn2]; [|cbn; exact M2]. exfalso. apply Hn. replace (nf + k - nf) with k in Hz by lia. congruence.
Qed.
Lemma put_s r h h' a a' l l' : hrel r h h' -> ns <= a -> zget (snd r) (a - ns) = Ok a' -> Forall2 (relF r) l l' ->
  hrel r (mkHeap (hf h) (upd (hs h) a l)) (mkHeap (hf h') (upd (hs h') a' l')).
Proof.
  intros H Ha Hz Hl. destruct (hr_news _ _ _ H _ _ Hz) as [N1 (y & y' & N2 & N3 & _)].
  replace (ns + (a - ns)) with a in N2 by lia. pose proof (zget_range _ _ _ N2) as Hr. pose proof (zget_range _ _ _ N3) as Hr'.
  split; cbn; rewrite ?len_upd; try apply H.
  - intros b Hb. rewrite !zget_upd. destruct (Z.eqb_spec a' b); [lia|]. destruct (Z.eqb_spec a b); [lia|]. cbn. apply H; auto.
  - intros k b Hk. destruct (hr_news _ _ _ H _ _ Hk) as [M1 (z & z' & M2 & M3 & M4)]. split; auto. rewrite !zget_upd.
    destruct (Z.eqb_spec a' b) as [->|Hn].
    + assert (k = a - ns) by (eapply nodup_zget; eauto; apply (hr_ds _ _ _ H)). subst k. replace (ns + (a - ns)) with a by lia.
      rewrite Z.eqb_refl. rewrite !(proj2 (inb_true _ _)) by lia. exists l, l'. auto.
    + destruct (Z.eqb_spec a (ns + k)) as [->|Hn2]; [|cbn; eauto 6]. exfalso. apply Hn. replace (ns + k - ns) with k in Hz by lia. congruence.
  - intros b x s Hb. rewrite zget_upd. destruct (Z.eqb_spec a b); [lia|]. cbn. apply H; auto.
Qed.
Lemma In_zget' (l : list Z) a : In a l -> exists k, zget l k = Ok a.
Proof. apply In_zget. Qed.
Lemma rho_range_f r h h' a : hrel r h h' -> In a (fst r) -> nf <= a < len (hf h').
Proof.
  intros H Hi. apply In_zget in Hi. destruct Hi as [k Hk]. destruct (hr_newf _ _ _ H _ _ Hk) as [N1 N2]. split; auto.
  pose proof (zget_range _ _ _ Hk). pose proof (hr_f _ _ _ H). pose proof (len_nonneg (hf g)).
  destruct (zget_ex (hf h) (nf + k)) as [y Ey]; [lia|]. rewrite Ey in N2. apply zget_range in N2. lia.
Qed.
Lemma rho_range_s r h h' a : hrel r h h' -> In a (snd r) -> ns <= a < len (hs h').
Proof.
  intros H Hi. apply In_zget in Hi. destruct Hi as [k Hk]. destruct (hr_news _ _ _ H _ _ Hk) as [N1 (l & l' & _ & N2 & _)]. split; auto.
  apply zget_range in N2. lia.
Qed.
Lemma new_f r h h' l : hrel r h h' -> Ext g h -> 
  let r' := (fst r ++ [len (hf h')], snd r) in
  grows r r' /\ hrel r' (mkHeap (hf h ++ [l]) (hs h)) (mkHeap (hf h' ++ [l]) (hs h')) /\
  relF r' (mkSl (len (hf h)) 0 (len l) (len l)) (mkSl (len (hf h')) 0 (len l) (len l)) /\
  frame r' h' (mkHeap (hf h' ++ [l]) (hs h')) /\ fresh r r' h'.
Proof.
  intros H He r'. assert (G : grows r r') by (exists [len (hf h')], []; cbn; rewrite app_nil_r; auto).
  pose proof (len_nonneg (hf g)) as G0. pose proof (hr_f _ _ _ H) as Lf. pose proof (len_nonneg (fst r)) as L0.
  assert (Hn : nf <= len (hf h')).
  { destruct (Z.eq_dec nf 0) as [->|]; [apply len_nonneg|]. destruct (zget_ex (hf g) (nf - 1)) as [y Ey]; [lia|].
    pose proof (hr_oldf _ _ _ H (nf - 1) ltac:(lia)) as E. rewrite (ext_f _ _ He) in E by lia. rewrite Ey in E. apply zget_range in E. lia. }
  split; [exact G|]. split; [|split; [|split]].
  - split; cbn [hf hs fst snd r'].
    + rewrite !len_app. change (len [l]) with 1. change (len [len (hf h')]) with 1. lia.
    + apply H.
    + intros a Ha. rewrite !zget_app_l by lia. apply H; auto.
    + apply H.
    + intros k a Hk. apply zget_app_inv in Hk. destruct Hk as [Hk|[-> ->]].
      * destruct (hr_newf _ _ _ H _ _ Hk) as [N1 N2]. split; auto. pose proof (zget_range _ _ _ Hk).
        pose proof (rho_range_f _ _ _ a H (zget_In _ _ _ Hk)). rewrite !zget_app_l by lia. exact N2.
      * split; auto. rewrite <- Lf. rewrite !zget_app_last. reflexivity.
    + intros k a Hk. destruct (hr_news _ _ _ H _ _ Hk) as [N1 (x & x' & N2 & N3 & N4)]. split; auto. exists x, x'.
      split; auto. split; auto. eapply F2_mono; eauto.
    + apply NoDup_app_last; [apply H|]. intros Hi. pose proof (rho_range_f _ _ _ _ H Hi). lia.
    + apply H.
    + apply H.
  - split; [|split; auto]. right. cbn. split; [lia|]. split; [apply len_nonneg|].
    replace (len (hf h) - nf) with (len (fst r)) by lia. apply zget_app_last.
  - split; cbn; try lia; try (rewrite len_app; change (len [l]) with 1; lia).
    + intros a Ha _. apply zget_app_l; auto.
    + auto.
  - split; cbn; intros a Hi; auto. apply in_app_iff in Hi. destruct Hi as [Hi|[<-|[]]]; auto. right. lia.
Qed.
Lemma new_s r h h' l l' : hrel r h h' -> Ext g h -> Forall2 (relF r) l l' ->
  let r' := (fst r, snd r ++ [len (hs h')]) in
  grows r r' /\ hrel r' (mkHeap (hf h) (hs h ++ [l])) (mkHeap (hf h') (hs h' ++ [l'])) /\
  relS r' (mkSl (len (hs h)) 0 (len l) (len l)) (mkSl (len (hs h')) 0 (len l') (len l')) /\
  frame r' h' (mkHeap (hf h') (hs h' ++ [l'])) /\ fresh r r' h'.
Proof.
  intros H He Hl r'. assert (G : grows r r') by (exists [], [len (hs h')]; cbn; rewrite app_nil_r; auto).
  pose proof (len_nonneg (hs g)) as G0. pose proof (hr_s _ _ _ H) as Lf. pose proof (len_nonneg (snd r)) as L0.
  assert (Ll : len l = len l') by (unfold len; f_equal; eapply F2_length; eauto).
  assert (Hn : ns <= len (hs h')).
  { destruct (Z.eq_dec ns 0) as [->|]; [apply len_nonneg|]. destruct (zget_ex (hs g) (ns - 1)) as [y Ey]; [lia|].
    pose proof (hr_olds _ _ _ H (ns - 1) ltac:(lia)) as E. rewrite (ext_s _ _ He) in E by lia. rewrite Ey in E. apply zget_range in E. lia. }
  split; [exact G|]. split; [|split; [|split]].
  - split; cbn [hf hs fst snd r'].
    + apply H.
    + rewrite !len_app. change (len [l]) with 1. change (len [len (hs h')]) with 1. lia.
    + apply H.
    + intros a Ha. rewrite !zget_app_l by lia. apply H; auto.
    + apply H.
    + intros k a Hk. apply zget_app_inv in Hk. destruct Hk as [Hk|[-> ->]].
      * destruct (hr_news _ _ _ H _ _ Hk) as [N1 (x & x' & N2 & N3 & N4)]. split; auto. pose proof (zget_range _ _ _ Hk).
        pose proof (rho_range_s _ _ _ a H (zget_In _ _ _ Hk)). rewrite !zget_app_l by lia. exists x, x'. auto.
      * split; auto. rewrite <- Lf. rewrite !zget_app_last. exists l, l'. auto.
    + apply H.
    + apply NoDup_app_last; [apply H|]. intros Hi. pose proof (rho_range_s _ _ _ _ H Hi). lia.
    + intros a x s Ha. rewrite zget_app_l by lia. apply H; auto.
  - split; [|split; cbn; auto]. right. cbn. split; [lia|]. split; [apply len_nonneg|].
    replace (len (hs h) - ns) with (len (snd r)) by lia. apply zget_app_last.
  - split; cbn; try lia; try (rewrite len_app; change (len [l']) with 1; lia).
    + auto.
    + intros a Ha _. apply zget_app_l; auto.
  - split; cbn; intros a Hi; auto. apply in_app_iff in Hi. destruct Hi as [Hi|[<-|[]]]; auto. right. lia.
Qed.
End Rel.

(** Proof rules for results, slices and loops (no model definitions here). *)
From Coq Require Import ZArith List Lia Bool.
From Verif Require Import Base.
Import ListNotations.
Open Scope Z_scope.

(** [wp m Q]: the call [m] returns a value, and the value satisfies [Q]. *)
Definition wp {A} (m : res A) (Q : A -> Prop) : Prop := exists a, m = Ok a /\ Q a.

Lemma wp_ok {A} (a : A) (Q : A -> Prop) : Q a -> wp (Ok a) Q.
Proof. intros; exists a; auto. Qed.
Lemma wp_bind {A B} (m : res A) (f : A -> res B) Q :
  wp m (fun a => wp (f a) Q) -> wp (bind m f) Q.
Proof. intros (a & -> & b & Hb & HQ). exists b. simpl. auto. Qed.
Lemma wp_conseq {A} (m : res A) (P Q : A -> Prop) :
  wp m P -> (forall a, P a -> Q a) -> wp m Q.
Proof. intros (a & -> & HP) H. exists a; auto. Qed.
Lemma wp_orpanic {A} (m : res A) Q : wp m Q -> wp (orpanic m) Q.
Proof. intros (a & -> & HP). exists a; auto. Qed.
Lemma wp_checkE b e (Q : unit -> Prop) : b = true -> Q tt -> wp (checkE b e) Q.
Proof. intros -> H; exists tt; auto. Qed.
Lemma wp_checkP b e (Q : unit -> Prop) : b = true -> Q tt -> wp (checkP b e) Q.
Proof. intros -> H; exists tt; auto. Qed.
Lemma bind_assoc {A B C} (m : res A) (f : A -> res B) (g : B -> res C) :
  bind (bind m f) g = bind m (fun a => bind (f a) g).
Proof. destruct m; reflexivity. Qed.
Lemma bind_ok_r {A} (m : res A) : bind m (fun a => Ok a) = m.
Proof. destruct m; reflexivity. Qed.
Lemma bind_ext {A B} (m : res A) (f g : A -> res B) :
  (forall a, m = Ok a -> f a = g a) -> bind m f = bind m g.
Proof. destruct m; simpl; auto. Qed.

Definition nthZ {A} `{Default A} (l : list A) (i : Z) : A := nth (Z.to_nat i) l dflt.

Lemma len_nonneg {A} (l : list A) : 0 <= len l.
Proof. unfold len; lia. Qed.
Lemma len_nil {A} : len (@nil A) = 0. Proof. reflexivity. Qed.
Lemma len_cons {A} (x : A) l : len (x :: l) = len l + 1.
Proof. unfold len; simpl length; lia. Qed.
Lemma len_app {A} (l1 l2 : list A) : len (l1 ++ l2) = len l1 + len l2.
Proof. unfold len; rewrite app_length; lia. Qed.
Lemma len_repeat {A} (x : A) n : 0 <= n -> len (repeat x (Z.to_nat n)) = n.
Proof. intros. unfold len. rewrite repeat_length. lia. Qed.
Lemma len_map {A B} (f : A -> B) l : len (map f l) = len l.
Proof. unfold len. rewrite map_length. reflexivity. Qed.

Lemma inb_true i n : inb i n = true <-> 0 <= i < n.
Proof. unfold inb. rewrite andb_true_iff, Z.leb_le, Z.ltb_lt. tauto. Qed.
Lemma inb_false i n : inb i n = false <-> ~ (0 <= i < n).
Proof. rewrite <- inb_true. destruct (inb i n); intuition congruence. Qed.

Section S.
Context {A : Type} `{D : Default A}.

Lemma nth_error_nthZ (l : list A) i : 0 <= i < len l -> nth_error l (Z.to_nat i) = Some (nthZ l i).
Proof.
  intros. unfold nthZ. apply nth_error_nth'. unfold len in *. lia.
Qed.
Lemma zget_ok (l : list A) i : 0 <= i < len l -> zget l i = Ok (nthZ l i).
Proof.
  intros Hi. unfold zget. rewrite (proj2 (inb_true _ _) Hi), nth_error_nthZ; auto.
Qed.
Lemma zget_panic (l : list A) i : ~ (0 <= i < len l) -> zget l i = Panic ERuntime.
Proof.
  intros Hi. unfold zget. rewrite (proj2 (inb_false _ _) Hi); auto.
Qed.
Lemma zget_inv (l : list A) i x : zget l i = Ok x -> 0 <= i < len l /\ x = nthZ l i.
Proof.
  destruct (inb i (len l)) eqn:E.
  - apply inb_true in E. rewrite zget_ok by auto. intros [= <-]. auto.
  - apply inb_false in E. rewrite zget_panic by auto. discriminate.
Qed.
Lemma wp_zget (l : list A) i (Q : A -> Prop) :
  0 <= i < len l -> Q (nthZ l i) -> wp (zget l i) Q.
Proof. intros. rewrite zget_ok by auto. apply wp_ok; auto. Qed.

Lemma length_upd_nat (l : list A) n v : length (upd_nat l n v) = length l.
Proof. revert n; induction l; destruct n; simpl; auto. Qed.
Lemma len_upd (l : list A) i v : len (upd l i v) = len l.
Proof. unfold len, upd. destruct (0 <=? i); auto. rewrite length_upd_nat; auto. Qed.
Lemma nth_upd_nat (l : list A) n m v d :
  nth m (upd_nat l n v) d = if Nat.eqb n m && Nat.ltb n (length l) then v else nth m l d.
Proof.
  revert n m; induction l as [|x t IH]; intros n m.
  - destruct n; simpl; rewrite andb_false_r; auto.
  - destruct n, m; simpl; auto. rewrite IH. reflexivity.
Qed.
Lemma nthZ_upd (l : list A) i j v :
  0 <= i < len l -> 0 <= j -> nthZ (upd l i v) j = if i =? j then v else nthZ l j.
Proof.
  intros Hi Hj. unfold nthZ, upd. rewrite (proj2 (Z.leb_le 0 i)) by lia.
  rewrite nth_upd_nat. unfold len in *.
  destruct (Z.eqb_spec i j).
  - subst. rewrite Nat.eqb_refl. destruct (Nat.ltb_spec (Z.to_nat j) (length l)); simpl; auto; lia.
  - destruct (Nat.eqb_spec (Z.to_nat i) (Z.to_nat j)); simpl; auto; lia.
Qed.
Lemma nthZ_upd_eq (l : list A) i v : 0 <= i < len l -> nthZ (upd l i v) i = v.
Proof. intros. rewrite nthZ_upd, Z.eqb_refl by lia. auto. Qed.
Lemma nthZ_upd_ne (l : list A) i j v : 0 <= i < len l -> 0 <= j -> i <> j ->
  nthZ (upd l i v) j = nthZ l j.
Proof. intros. rewrite nthZ_upd by lia. destruct (Z.eqb_spec i j); congruence || auto. Qed.
Lemma zset_ok (l : list A) i v : 0 <= i < len l -> zset l i v = Ok (upd l i v).
Proof. intros. unfold zset. rewrite (proj2 (inb_true _ _)); auto. Qed.
Lemma zset_panic (l : list A) i v : ~ (0 <= i < len l) -> zset l i v = Panic ERuntime.
Proof. intros. unfold zset. rewrite (proj2 (inb_false _ _)); auto. Qed.
Lemma wp_zset (l : list A) i v (Q : list A -> Prop) :
  0 <= i < len l -> Q (upd l i v) -> wp (zset l i v) Q.
Proof. intros. rewrite zset_ok by auto. apply wp_ok; auto. Qed.

Lemma make_ok (x : A) n : 0 <= n -> make x n = Ok (repeat x (Z.to_nat n)).
Proof. intros. unfold make. destruct (Z.ltb_spec n 0); auto; lia. Qed.
Lemma wp_make (x : A) n (Q : list A -> Prop) :
  0 <= n -> Q (repeat x (Z.to_nat n)) -> wp (make x n) Q.
Proof. intros. rewrite make_ok by auto. apply wp_ok; auto. Qed.
Lemma nthZ_repeat (x : A) n i : 0 <= i < n -> nthZ (repeat x (Z.to_nat n)) i = x.
Proof.
  intros. unfold nthZ. generalize (Z.to_nat n), (Z.to_nat i), (ltac:(lia) : (Z.to_nat i < Z.to_nat n)%nat).
  clear. intros n i. revert i. induction n; intros [|i] Hi; simpl; try lia; auto. apply IHn. lia.
Qed.

Lemma nthZ_app (l1 l2 : list A) i : 0 <= i ->
  nthZ (l1 ++ l2) i = if i <? len l1 then nthZ l1 i else nthZ l2 (i - len l1).
Proof.
  intros. unfold nthZ, len. destruct (Z.ltb_spec i (Z.of_nat (length l1))).
  - apply app_nth1. lia.
  - rewrite app_nth2 by lia. f_equal. lia.
Qed.
Lemma nthZ_firstn (l : list A) n i : 0 <= i < n -> nthZ (firstn (Z.to_nat n) l) i = nthZ l i.
Proof.
  intros. unfold nthZ.
  generalize (Z.to_nat n), (Z.to_nat i), (ltac:(lia) : (Z.to_nat i < Z.to_nat n)%nat).
  clear. intros n i. revert n l. induction i; destruct n, l; simpl; intros; auto; try lia.
  apply IHi. lia.
Qed.
Lemma nthZ_skipn (l : list A) n i : 0 <= i -> 0 <= n -> nthZ (skipn (Z.to_nat n) l) i = nthZ l (n + i).
Proof.
  intros. unfold nthZ. rewrite Z2Nat.inj_add by lia.
  generalize (Z.to_nat n), (Z.to_nat i). clear. intros n i. revert l.
  induction n; destruct l; simpl; auto. destruct i; auto.
Qed.
Lemma len_firstn (l : list A) n : 0 <= n -> len (firstn (Z.to_nat n) l) = Z.min n (len l).
Proof. intros. unfold len. rewrite firstn_length. lia. Qed.
Lemma len_skipn (l : list A) n : 0 <= n -> len (skipn (Z.to_nat n) l) = Z.max 0 (len l - n).
Proof. intros. unfold len. rewrite skipn_length. lia. Qed.

Lemma list_ext (l1 l2 : list A) :
  len l1 = len l2 -> (forall i, 0 <= i < len l1 -> nthZ l1 i = nthZ l2 i) -> l1 = l2.
Proof.
  unfold len, nthZ. intros Hl H. apply nth_ext with (d := dflt) (d' := dflt); [lia|].
  intros n Hn. specialize (H (Z.of_nat n)). rewrite Nat2Z.id in H. apply H. lia.
Qed.

Lemma slice_copy_ok (dst : list A) dlo dhi src slo shi :
  0 <= dlo <= dhi -> dhi <= len dst -> 0 <= slo <= shi -> shi <= len src ->
  exists r, slice_copy dst dlo dhi src slo shi = Ok r /\ len r = len dst /\
  forall i, 0 <= i < len dst ->
    nthZ r i = if (dlo <=? i) && (i <? dlo + Z.min (dhi - dlo) (shi - slo))
               then nthZ src (slo + (i - dlo)) else nthZ dst i.
Proof.
  intros. unfold slice_copy.
  rewrite !(proj2 (Z.leb_le _ _)) by lia. cbn [andb].
  set (n := Z.min (dhi - dlo) (shi - slo)).
  assert (0 <= n /\ n <= dhi - dlo /\ n <= shi - slo) by (subst n; lia).
  eexists; split; [reflexivity|]. split.
  - rewrite !len_app, len_firstn, len_firstn, !len_skipn by lia. lia.
  - intros i Hi.
    rewrite nthZ_app, len_firstn by lia.
    destruct (Z.leb_spec dlo i); cbn [andb].
    + destruct (Z.ltb_spec i (Z.min dlo (len dst))); [lia|].
      rewrite nthZ_app by lia. rewrite len_firstn, len_skipn by lia.
      destruct (Z.ltb_spec i (dlo + n)).
      * destruct (Z.ltb_spec (i - Z.min dlo (len dst)) (Z.min n (Z.max 0 (len src - slo)))); [|lia].
        rewrite nthZ_firstn, nthZ_skipn by lia. f_equal. lia.
      * destruct (Z.ltb_spec (i - Z.min dlo (len dst)) (Z.min n (Z.max 0 (len src - slo)))); [lia|].
        rewrite nthZ_skipn by lia. f_equal. lia.
    + destruct (Z.ltb_spec i (Z.min dlo (len dst))); [|lia].
      rewrite nthZ_firstn by lia. auto.
Qed.
Lemma wp_slice_copy (dst : list A) dlo dhi src slo shi (Q : list A -> Prop) :
  0 <= dlo <= dhi -> dhi <= len dst -> 0 <= slo <= shi -> shi <= len src ->
  (forall r, len r = len dst ->
    (forall i, 0 <= i < len dst ->
    nthZ r i = if (dlo <=? i) && (i <? dlo + Z.min (dhi - dlo) (shi - slo))
               then nthZ src (slo + (i - dlo)) else nthZ dst i) -> Q r) ->
  wp (slice_copy dst dlo dhi src slo shi) Q.
Proof.
  intros H1 H2 H3 H4 HQ. destruct (slice_copy_ok dst dlo dhi src slo shi H1 H2 H3 H4) as (r & -> & Hl & Hn).
  apply wp_ok; auto.
Qed.
Lemma slice_ok (l : list A) lo hi : 0 <= lo <= hi -> hi <= len l ->
  exists r, slice l lo hi = Ok r /\ len r = hi - lo /\
  forall i, 0 <= i < hi - lo -> nthZ r i = nthZ l (lo + i).
Proof.
  intros. unfold slice. rewrite !(proj2 (Z.leb_le _ _)) by lia. cbn [andb].
  eexists; split; [reflexivity|]. split.
  - rewrite len_firstn, len_skipn by lia. lia.
  - intros. rewrite nthZ_firstn, nthZ_skipn by lia. auto.
Qed.
End S.

(** ** Loop rules *)
Section LoopRules.
Context {S : Type}.

Lemma for_nil lo hi body (s : S) : hi <= lo -> for_ lo hi body s = Ok s.
Proof. intros. unfold for_. replace (Z.to_nat (hi - lo)) with O by lia. reflexivity. Qed.
Lemma for_step lo hi body (s : S) : lo < hi ->
  for_ lo hi body s = let* s' := body lo s in for_ (lo + 1) hi body s'.
Proof.
  intros. unfold for_. replace (Z.to_nat (hi - lo)) with (Datatypes.S (Z.to_nat (hi - (lo + 1)))) by lia.
  reflexivity.
Qed.
Lemma for_app lo mid hi body (s : S) : lo <= mid <= hi ->
  for_ lo hi body s = let* s' := for_ lo mid body s in for_ mid hi body s'.
Proof.
  intros. remember (Z.to_nat (mid - lo)) as n eqn:E. revert lo s H E. induction n; intros.
  - assert (lo = mid) by lia. subst. rewrite (for_nil mid mid) by lia. reflexivity.
  - rewrite for_step by lia. rewrite (for_step lo mid) by lia. rewrite bind_assoc.
    apply bind_ext. intros. apply IHn; lia.
Qed.
Lemma for_snoc lo hi body (s : S) : lo < hi ->
  for_ lo hi body s = let* s' := for_ lo (hi - 1) body s in body (hi - 1) s'.
Proof.
  intros. rewrite (for_app lo (hi - 1) hi) by lia. apply bind_ext. intros.
  rewrite for_step by lia. rewrite <- (bind_ok_r (body (hi - 1) a)) at 2. apply bind_ext. intros. apply for_nil. lia.
Qed.
Lemma wp_for (P : Z -> S -> Prop) lo hi body (s : S) (Q : S -> Prop) :
  lo <= hi -> P lo s ->
  (forall i s, lo <= i < hi -> P i s -> wp (body i s) (P (i + 1))) ->
  (forall s, P hi s -> Q s) ->
  wp (for_ lo hi body s) Q.
Proof.
  intros Hle HP Hb HQ. remember (Z.to_nat (hi - lo)) as n eqn:E.
  revert lo s Hle HP Hb E. induction n; intros.
  - rewrite for_nil by lia. apply wp_ok. apply HQ. replace hi with lo by lia. auto.
  - rewrite for_step by lia. apply wp_bind. eapply wp_conseq; [apply Hb; [lia|auto]|].
    intros s' HP'. apply IHn; auto; try lia. intros; apply Hb; auto; lia.
Qed.
(** Same without the assumption [lo <= hi]; the invariant ends at [max lo hi]. *)
Lemma wp_for' (P : Z -> S -> Prop) lo hi body (s : S) (Q : S -> Prop) :
  P lo s ->
  (forall i s, lo <= i < hi -> P i s -> wp (body i s) (P (i + 1))) ->
  (forall s, P (Z.max lo hi) s -> Q s) ->
  wp (for_ lo hi body s) Q.
Proof.
  intros HP Hb HQ. destruct (Z.le_gt_cases lo hi).
  - apply (wp_for P); auto. rewrite Z.max_r in HQ by lia. auto.
  - rewrite for_nil by lia. apply wp_ok, HQ. rewrite Z.max_l by lia. auto.
Qed.
(** A partial-correctness rule: if the loop succeeds then ... *)
Lemma for_inv (P : Z -> S -> Prop) lo hi body (s s' : S) :
  for_ lo hi body s = Ok s' -> lo <= hi -> P lo s ->
  (forall i s s', lo <= i < hi -> P i s -> body i s = Ok s' -> P (i + 1) s') ->
  P hi s'.
Proof.
  intros Hr Hle HP Hb. remember (Z.to_nat (hi - lo)) as n eqn:E.
  revert lo s Hle HP Hb E Hr. induction n; intros.
  - rewrite for_nil in Hr by lia. injection Hr as <-. replace hi with lo by lia. auto.
  - rewrite for_step in Hr by lia. destruct (body lo s) eqn:Eb; try discriminate. simpl in Hr.
    apply (IHn (lo + 1) a); auto; try lia.
    + eapply Hb; eauto. lia.
    + intros; eapply Hb; eauto. lia.
Qed.
Lemma for_ext lo hi body1 body2 (s : S) :
  (forall i s, lo <= i < hi -> body1 i s = body2 i s) ->
  for_ lo hi body1 s = for_ lo hi body2 s.
Proof.
  intros H. remember (Z.to_nat (hi - lo)) as n eqn:E. revert lo s H E. induction n; intros.
  - rewrite !for_nil by lia. auto.
  - rewrite !for_step by lia. rewrite H by lia. apply bind_ext. intros.
    apply IHn; [intros; apply H|]; lia.
Qed.
(** Extensionality under an invariant. *)
Lemma for_ext_inv (P : Z -> S -> Prop) lo hi body1 body2 (s : S) :
  P lo s ->
  (forall i s, lo <= i < hi -> P i s -> body1 i s = body2 i s) ->
  (forall i s s', lo <= i < hi -> P i s -> body2 i s = Ok s' -> P (i + 1) s') ->
  for_ lo hi body1 s = for_ lo hi body2 s.
Proof.
  intros HP H HI. remember (Z.to_nat (hi - lo)) as n eqn:E. revert lo s HP H HI E. induction n; intros.
  - rewrite !for_nil by lia. auto.
  - rewrite !for_step by lia. rewrite H by (auto || lia). apply bind_ext. intros a Ha.
    apply IHn; auto; try lia.
    + eapply HI; eauto; lia.
    + intros; apply H; auto; lia.
    + intros; eapply HI; eauto; lia.
Qed.

Lemma for_down_nil hi lo body (s : S) : hi < lo -> for_down hi lo body s = Ok s.
Proof. intros. unfold for_down. replace (Z.to_nat (hi - lo + 1)) with O by lia. reflexivity. Qed.
Lemma for_down_step hi lo body (s : S) : lo <= hi ->
  for_down hi lo body s = let* s' := body hi s in for_down (hi - 1) lo body s'.
Proof.
  intros. unfold for_down. replace (Z.to_nat (hi - lo + 1)) with (Datatypes.S (Z.to_nat (hi - 1 - lo + 1))) by lia.
  reflexivity.
Qed.
Lemma wp_for_down (P : Z -> S -> Prop) hi lo body (s : S) (Q : S -> Prop) :
  lo - 1 <= hi -> P (hi + 1) s ->
  (forall i s, lo <= i <= hi -> P (i + 1) s -> wp (body i s) (P i)) ->
  (forall s, P lo s -> Q s) ->
  wp (for_down hi lo body s) Q.
Proof.
  intros Hle HP Hb HQ. remember (Z.to_nat (hi - lo + 1)) as n eqn:E.
  revert hi s Hle HP Hb E. induction n; intros.
  - rewrite for_down_nil by lia. apply wp_ok. apply HQ. replace lo with (hi + 1) by lia. auto.
  - rewrite for_down_step by lia. apply wp_bind. eapply wp_conseq; [apply Hb; [lia|auto]|].
    intros s' HP'. apply IHn; auto; try lia.
    + replace (hi - 1 + 1) with hi by lia. auto.
    + intros; apply Hb; auto; lia.
Qed.
Lemma for_down_ext hi lo body1 body2 (s : S) :
  (forall i s, lo <= i <= hi -> body1 i s = body2 i s) ->
  for_down hi lo body1 s = for_down hi lo body2 s.
Proof.
  intros H. remember (Z.to_nat (hi - lo + 1)) as n eqn:E. revert hi s H E. induction n; intros.
  - rewrite !for_down_nil by lia. auto.
  - rewrite !for_down_step by lia. rewrite H by lia. apply bind_ext. intros.
    apply IHn; [intros; apply H|]; lia.
Qed.

Lemma for_brk_nil lo hi body (s : S) : hi <= lo -> for_brk lo hi body s = Ok (false, s).
Proof. intros. unfold for_brk. replace (Z.to_nat (hi - lo)) with O by lia. reflexivity. Qed.
Lemma for_brk_step lo hi body (s : S) : lo < hi ->
  for_brk lo hi body s = let* bs := body lo s in
    if fst bs then Ok bs else for_brk (lo + 1) hi body (snd bs).
Proof.
  intros. unfold for_brk. replace (Z.to_nat (hi - lo)) with (Datatypes.S (Z.to_nat (hi - (lo + 1)))) by lia.
  reflexivity.
Qed.
Lemma wp_for_brk (P : Z -> S -> Prop) (B : S -> Prop) lo hi body (s : S) (Q : bool * S -> Prop) :
  lo <= hi -> P lo s ->
  (forall i s, lo <= i < hi -> P i s ->
     wp (body i s) (fun bs : bool * S => if fst bs then B (snd bs) else P (i + 1) (snd bs))) ->
  (forall s, P hi s -> Q (false, s)) ->
  (forall s, B s -> Q (true, s)) ->
  wp (for_brk lo hi body s) Q.
Proof.
  intros Hle HP Hb HQ HB. remember (Z.to_nat (hi - lo)) as n eqn:E.
  revert lo s Hle HP Hb E. induction n; intros.
  - rewrite for_brk_nil by lia. apply wp_ok. apply HQ. replace hi with lo by lia. auto.
  - rewrite for_brk_step by lia. apply wp_bind. eapply wp_conseq; [apply Hb; [lia|auto]|].
    intros [b s'] HP'. simpl in *. destruct b.
    + apply wp_ok; auto.
    + apply IHn; auto; try lia. intros; apply Hb; auto; lia.
Qed.
End LoopRules.

(** A counter incremented once per iteration is determined by the index. *)
Lemma for_count {S} lo hi (body : Z -> Z -> S -> res S) (s : S) k :
  for_ lo hi (fun i (sk : S * Z) => let (s, k) := sk in let* s' := body i k s in Ok (s', k + 1)) (s, k) =
  let* s' := for_ lo hi (fun i s => body i (k + (i - lo)) s) s in Ok (s', k + Z.max 0 (hi - lo)).
Proof.
  remember (Z.to_nat (hi - lo)) as n eqn:E.
  revert lo k s E. induction n; intros.
  - rewrite !for_nil by lia. simpl. f_equal. f_equal. lia.
  - rewrite !for_step by lia. replace (k + (lo - lo)) with k by lia.
    destruct (body lo k s) as [s'|e|e]; simpl; auto.
    rewrite IHn by lia.
    rewrite (for_ext (lo + 1) hi _ (fun i s0 => body i (k + (i - lo)) s0)).
    + apply bind_ext. intros. f_equal. f_equal. lia.
    + intros. f_equal. lia.
Qed.

(** ** Filling loops *)
Lemma wp_fill {A} `{Default A} lo hi (body : Z -> list A -> res (list A)) (f : Z -> A) (l : list A) (Q : list A -> Prop) :
  0 <= lo <= hi -> hi <= len l ->
  (forall i l', lo <= i < hi -> len l' = len l ->
     (forall j, 0 <= j < len l -> nthZ l' j = if (lo <=? j) && (j <? i) then f j else nthZ l j) ->
     body i l' = zset l' i (f i)) ->
  (forall r, len r = len l ->
     (forall j, 0 <= j < len l -> nthZ r j = if (lo <=? j) && (j <? hi) then f j else nthZ l j) -> Q r) ->
  wp (for_ lo hi body l) Q.
Proof.
  intros Hlo Hhi Hb HQ.
  apply (wp_for (fun i l' => len l' = len l /\
     (forall j, 0 <= j < len l -> nthZ l' j = if (lo <=? j) && (j <? i) then f j else nthZ l j))); try lia.
  - split; auto. intros. destruct (Z.leb_spec lo j), (Z.ltb_spec j lo); auto; lia.
  - intros i s Hi [Hl Hs]. rewrite Hb by (auto || lia). apply wp_zset; [lia|]. split.
    + rewrite len_upd. auto.
    + intros j Hj. rewrite nthZ_upd by lia. destruct (Z.eqb_spec i j).
      * subst. destruct (Z.leb_spec lo j), (Z.ltb_spec j (j + 1)); auto; lia.
      * rewrite Hs by lia. destruct (Z.leb_spec lo j), (Z.ltb_spec j (i + 1)), (Z.ltb_spec j i); auto; lia.
  - intros s [Hl Hs]. apply HQ; auto.
Qed.

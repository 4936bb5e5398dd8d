(** Computations on the heap against computations on values, and tables with
    rows and diagonals of their own: tools for relating the constructors of
    HeapDec.v to those of LU.v, Cholesky.v, QR.v, ... *)
From Coq Require Import ZArith List Lia Bool.
From Verif Require Import Base BaseLemmas Scalar Matrix MatSpec MatFacts Heap HeapSpec HeapFacts HeapSim HeapDec HeapRefSpec.
Import ListNotations.
Open Scope Z_scope.

Section Ref.
Context {O : Ops}.

(** ** Rules *)
Lemma bind_assoc {A B C} (v : res A) (f : A -> res B) (g : B -> res C) : bind (bind v f) g = bind v (fun x => bind (f x) g).
Proof. destruct v; reflexivity. Qed.
Lemma sim_ret {A B} (a : A) (b : B) h (Q : heap -> A -> B -> Prop) : Q h a b -> sim (ret a) (Ok b) h Q.
Proof. auto. Qed.
Lemma sim_imp {A B} (m : M A) (v : res B) h (P Q : heap -> A -> B -> Prop) :
  sim m v h P -> (forall h' a b, P h' a b -> Q h' a b) -> sim m v h Q.
Proof. unfold sim. destruct (m h) as [[a|e|e] h'], v as [b|e'|e']; auto. Qed.
Lemma sim_bind {A B C D} (m : M A) (v : res B) h (P : heap -> A -> B -> Prop) (f : A -> M C) (g : B -> res D) Q :
  sim m v h P -> (forall h' a b, P h' a b -> sim (f a) (g b) h' Q) -> sim (mbind m f) (bind v g) h Q.
Proof.
  unfold sim at 1 3, mbind. destruct (m h) as [[a|e|e] h'], v as [b|e'|e']; cbn [bind]; try contradiction; auto. intros HP H. apply (H h' a b HP).
Qed.
Lemma sim_for {A B} (Inv : Z -> heap -> A -> B -> Prop) lo hi (hb : Z -> A -> M A) (pb : Z -> B -> res B) h a b :
  lo <= hi -> Inv lo h a b -> (forall i h a b, lo <= i < hi -> Inv i h a b -> sim (hb i a) (pb i b) h (Inv (i + 1))) ->
  sim (mfor lo hi hb a) (for_ lo hi pb b) h (Inv hi).
Proof.
  unfold mfor, for_. remember (Z.to_nat (hi - lo)) as n eqn:En. revert lo h a b En.
  induction n as [|n IH]; intros lo h a b En Hl HI Hs; cbn [mup iter_up].
  - replace hi with lo by lia. exact HI.
  - eapply sim_bind; [apply Hs; [lia|exact HI]|]. intros h' a' b' HI'. apply (IH (lo + 1)); [lia|lia|exact HI'|]. intros; apply Hs; auto; lia.
Qed.
(** The same invariant all along. *)
Lemma sim_loop {A B} (Inv : heap -> A -> B -> Prop) lo hi (hb : Z -> A -> M A) (pb : Z -> B -> res B) h a b :
  Inv h a b -> (forall i h a b, lo <= i < hi -> Inv h a b -> sim (hb i a) (pb i b) h Inv) ->
  sim (mfor lo hi hb a) (for_ lo hi pb b) h Inv.
Proof.
  intros HI Hs. destruct (Z_le_gt_dec lo hi).
  - apply (sim_for (fun _ => Inv)); auto.
  - unfold mfor, for_. replace (Z.to_nat (hi - lo)) with 0%nat by lia. exact HI.
Qed.
Lemma sim_down {A B} (Inv : heap -> A -> B -> Prop) hi lo (hb : Z -> A -> M A) (pb : Z -> B -> res B) h a b :
  Inv h a b -> (forall i h a b, lo <= i <= hi -> Inv h a b -> sim (hb i a) (pb i b) h Inv) ->
  sim (mdown hi lo hb a) (for_down hi lo pb b) h Inv.
Proof.
  unfold mdown, mfor, for_down. replace (hi - lo + 1 - 0) with (hi - lo + 1) by lia.
  intros HI Hs. assert (G : forall n k h a b, Z.of_nat n = hi - lo + 1 - k -> 0 <= k -> Inv h a b ->
    sim (mup n k (fun k => hb (hi - k)) a) (iter_dn n (hi - k) pb b) h Inv).
  { induction n as [|n IH]; intros k h1 a1 b1 En Hk H1; cbn [mup iter_dn]; [exact H1|].
    eapply sim_bind; [apply Hs; [lia|exact H1]|]. intros h' a' b' HI'. replace (hi - k - 1) with (hi - (k + 1)) by lia. apply IH; auto; lia. }
  destruct (Z_le_gt_dec 0 (hi - lo + 1)).
  - specialize (G (Z.to_nat (hi - lo + 1)) 0 h a b ltac:(lia) ltac:(lia) HI). rewrite Z.sub_0_r in G. exact G.
  - replace (Z.to_nat (hi - lo + 1)) with 0%nat by lia. exact HI.
Qed.
Lemma sim_brk {A B} (Inv : heap -> A -> B -> Prop) lo hi (hb : Z -> A -> M (bool * A)) (pb : Z -> B -> res (bool * B)) h a b :
  Inv h a b -> (forall i h a b, lo <= i < hi -> Inv h a b -> sim (hb i a) (pb i b) h (fun h' a' b' => fst a' = fst b' /\ Inv h' (snd a') (snd b'))) ->
  sim (mfor_brk lo hi hb a) (for_brk lo hi pb b) h (fun h' a' b' => fst a' = fst b' /\ Inv h' (snd a') (snd b')).
Proof.
  unfold mfor_brk, for_brk. remember (Z.to_nat (hi - lo)) as n eqn:En. revert lo h a b En.
  induction n as [|n IH]; intros lo h a b En HI Hs; cbn [mup_brk iter_brk].
  - split; auto.
  - eapply sim_bind; [apply Hs; [lia|exact HI]|]. intros h' a' b' [E HI']. rewrite <- E. destruct (fst a') eqn:Ea.
    + apply sim_ret. split; [congruence|exact HI'].
    + apply (IH (lo + 1)); auto; [lia|]. intros; apply Hs; auto; lia.
Qed.
(** Loops that only read. *)
Lemma sim_acc {A C D} lo hi (hb : Z -> A -> M A) (pb : Z -> A -> res A) h a (f : A -> M C) (g : A -> res D) Q :
  (forall i a, lo <= i < hi -> sim (hb i a) (pb i a) h (fun h' x y => h' = h /\ x = y)) -> (forall a, sim (f a) (g a) h Q) ->
  sim (mbind (mfor lo hi hb a) f) (bind (for_ lo hi pb a) g) h Q.
Proof.
  intros Hs Hf. eapply sim_bind.
  - apply (sim_loop (fun h' x y => h' = h /\ x = y)); [auto|]. intros i h1 x y Hi [-> ->]. apply Hs. exact Hi.
  - intros h1 x y [-> ->]. apply Hf.
Qed.
Lemma sim_accd {A C D} hi lo (hb : Z -> A -> M A) (pb : Z -> A -> res A) h a (f : A -> M C) (g : A -> res D) Q :
  (forall i a, lo <= i <= hi -> sim (hb i a) (pb i a) h (fun h' x y => h' = h /\ x = y)) -> (forall a, sim (f a) (g a) h Q) ->
  sim (mbind (mdown hi lo hb a) f) (bind (for_down hi lo pb a) g) h Q.
Proof.
  intros Hs Hf. eapply sim_bind.
  - apply (sim_down (fun h' x y => h' = h /\ x = y)); [auto|]. intros i h1 x y Hi [-> ->]. apply Hs. exact Hi.
  - intros h1 x y [-> ->]. apply Hf.
Qed.
Lemma sim_pure {A C D} (r : res A) h (f : A -> M C) (g : A -> res D) Q : (forall a, r = Ok a -> sim (f a) (g a) h Q) -> sim (mbind (pure r) f) (bind r g) h Q.
Proof. intros H. unfold sim, mbind, pure. destruct r as [a|e|e]; cbn [bind]; auto. exact (H a eq_refl). Qed.

(** ** A slice that is a whole array *)
Definition Who (h : heap) (s : slice) (q : list F) : Prop := s = mkSl (sl_arr s) 0 (len q) (len q) /\ zget (hf h) (sl_arr s) = Ok q.
Lemma Who_VRep h s q : Who h s q -> VRep h s q.
Proof.
  intros [E1 E2]. rewrite E1. split; [|cbn; lia]. unfold cont, window. cbn. rewrite E2. unfold len. rewrite Nat2Z.id. apply firstn_all.
Qed.
Lemma Who_rdF h s q j x : Who h s q -> zget q j = Ok x -> rdF s j h = (Ok x, h).
Proof. intros HW. apply runs_rdF, Who_VRep, HW. Qed.
Lemma Who_wrF h s q j x : Who h s q -> 0 <= j < len q -> exists h', wrF s j x h = (Ok tt, h') /\ hs h' = hs h /\ Who h' s (upd q j x) /\
  forall t p, sl_arr t <> sl_arr s -> Who h t p -> Who h' t p.
Proof.
  intros [E1 E2] Hj. pose proof (zget_range _ _ _ E2) as Hb.
  exists (mkHeap (upd (hf h) (sl_arr s) (upd q j x)) (hs h)). split; [|split; [reflexivity|split]].
  - unfold wrF. assert (EL : sl_len s = len q) by (rewrite E1; reflexivity). assert (EO : sl_off s = 0) by (rewrite E1; reflexivity).
    rewrite EL, EO, (proj2 (inb_true _ _) Hj), E2. cbn [bind]. rewrite Z.add_0_l, zset_ok by lia. cbn [bind]. rewrite zset_ok by lia. reflexivity.
  - split; [rewrite len_upd; auto|]. cbn [hf]. apply zget_upd_same. auto.
  - intros t p Hn [T1 T2]. split; [exact T1|]. cbn [hf]. rewrite zget_upd_other by auto. exact T2.
Qed.

(** ** A table with rows of its own, and slices beside it *)
Record Str (h : heap) (o : slice) (hd : list slice) (d : mat) (X : list (slice * list F)) (r c : Z) : Prop := {
  sr_o : o = mkSl (sl_arr o) 0 r r;
  sr_h : zget (hs h) (sl_arr o) = Ok hd;
  sr_l : len hd = r;
  sr_r : rect d r c;
  sr_d : forall i s q, zget hd i = Ok s -> zget d i = Ok q -> Who h s q;
  sr_x : forall k s q, nth_error X k = Some (s, q) -> Who h s q;
  sr_nd : forall i j s t, zget hd i = Ok s -> zget hd j = Ok t -> i <> j -> sl_arr s <> sl_arr t;
  sr_nx : forall i k s p, zget hd i = Ok s -> nth_error X k = Some p -> sl_arr s <> sl_arr (fst p);
  sr_xx : forall k l p p', nth_error X k = Some p -> nth_error X l = Some p' -> k <> l -> sl_arr (fst p) <> sl_arr (fst p')
}.
Lemma Str_MRep h o hd d X r c : Str h o hd d X r c -> MRep h o d.
Proof.
  intros HS. pose proof (sr_o _ _ _ _ _ _ _ HS) as Eo. pose proof (sr_r _ _ _ _ _ _ _ HS) as [Ed _]. pose proof (sr_l _ _ _ _ _ _ _ HS) as El.
  split; [|rewrite Eo; cbn; lia].
  assert (Eh : heads h o = hd).
  { unfold heads, window. rewrite (sr_h _ _ _ _ _ _ _ HS), Eo. cbn. rewrite <- El. unfold len. rewrite Nat2Z.id. apply firstn_all. }
  rewrite Eh. apply Forall2_intro; [lia|]. intros i s Hs. pose proof (zget_range _ _ _ Hs). destruct (zget_some d i ltac:(lia)) as (q & Eq). exists q. split; [exact Eq|].
  apply Who_VRep. eapply sr_d; eauto.
Qed.
Lemma Str_row h o hd d X r c i : Str h o hd d X r c -> 0 <= i < r -> exists s, rdS o i h = (Ok s, h) /\ zget hd i = Ok s.
Proof.
  intros HS Hi. pose proof (sr_l _ _ _ _ _ _ _ HS) as El. destruct (zget_some hd i ltac:(lia)) as (s & Es). exists s. split; [|exact Es].
  unfold rdS. rewrite (sr_o _ _ _ _ _ _ _ HS). cbn [sl_len sl_arr sl_off]. rewrite (proj2 (inb_true _ _) Hi), (sr_h _ _ _ _ _ _ _ HS). cbn [bind]. rewrite Z.add_0_l, Es. reflexivity.
Qed.
Lemma Str_get h o hd d X r c i j : Str h o hd d X r c -> 0 <= i < r -> 0 <= j < c -> exists x, mget d i j = Ok x.
Proof. intros HS Hi Hj. eexists. apply (mget_ok _ _ _ _ _ (sr_r _ _ _ _ _ _ _ HS) Hi Hj). Qed.
Lemma Str_rd h o hd d X r c i j s x : Str h o hd d X r c -> zget hd i = Ok s -> mget d i j = Ok x -> rdF s j h = (Ok x, h).
Proof.
  intros HS Hs Hx. unfold mget in Hx. destruct (zget d i) as [q| |] eqn:Eq; try discriminate. cbn [bind] in Hx. eapply Who_rdF; [|exact Hx]. eapply sr_d; eauto.
Qed.
Lemma Str_wr h o hd d X r c i j s x : Str h o hd d X r c -> zget hd i = Ok s -> 0 <= j < c ->
  exists h' d', wrF s j x h = (Ok tt, h') /\ mset d i j x = Ok d' /\ Str h' o hd d' X r c.
Proof.
  intros HS Hs Hj. pose proof HS as [S1 S2 S3 S4 S5 S6 S7 S8 S9]. pose proof (zget_range _ _ _ Hs) as Hi. destruct S4 as [S4 S4'].
  destruct (zget_some d i ltac:(lia)) as (q & Eq). assert (Lq : len q = c).
  { rewrite zget_ok in Eq by lia. injection Eq as <-. apply S4'. lia. }
  destruct (Who_wrF h s q j x (S5 _ _ _ Hs Eq) ltac:(lia)) as (h' & W & Eh & W1 & W2).
  exists h', (upd d i (upd q j x)). split; [exact W|]. split.
  - unfold mset. rewrite Eq. cbn [bind]. rewrite zset_ok by lia. cbn [bind]. apply zset_ok. lia.
  - split; auto; try (rewrite Eh; auto).
    + split; [rewrite len_upd; auto|]. intros k Hk. rewrite nthZ_upd by lia. destruct (Z.eqb_spec i k); rewrite ?len_upd; auto.
    + intros k t p Ht Hp. rewrite zget_upd in Hp. destruct (Z.eqb_spec i k) as [->|Nk].
      * rewrite (proj2 (inb_true k (len d))) in Hp by lia. cbn in Hp. injection Hp as <-. rewrite Hs in Ht. injection Ht as <-. exact W1.
      * cbn in Hp. apply W2; [intros Q; apply (S7 i k s t Hs Ht Nk); auto|eauto].
    + intros k t p Hk. apply W2; [intros Q; apply (S8 i k s (t, p) Hs Hk); auto|eauto].
Qed.
(** The [k]th of the slices beside the table. *)
Definition setx (X : list (slice * list F)) (k : nat) (q : list F) : list (slice * list F) :=
  match nth_error X k with Some (s, _) => upd_nat X k (s, q) | None => X end.
Lemma nth_upd_nat {A} (l : list A) k x i : nth_error (upd_nat l k x) i = if Nat.eqb k i then (match nth_error l i with Some _ => Some x | None => None end) else nth_error l i.
Proof. revert k i. induction l as [|y l IH]; intros [|k] [|i]; cbn; auto. destruct (Nat.eqb k i); reflexivity. Qed.
Lemma Str_wx h o hd d X r c k j s q x : Str h o hd d X r c -> nth_error X k = Some (s, q) -> 0 <= j < len q ->
  exists h', wrF s j x h = (Ok tt, h') /\ zset q j x = Ok (upd q j x) /\ Str h' o hd d (setx X k (upd q j x)) r c.
Proof.
  intros HS Hk Hj. pose proof HS as [S1 S2 S3 S4 S5 S6 S7 S8 S9].
  destruct (Who_wrF h s q j x (S6 _ _ _ Hk) ltac:(lia)) as (h' & W & Eh & W1 & W2).
  assert (Hx : forall l p, nth_error (setx X k (upd q j x)) l = Some p -> exists p', nth_error X l = Some p' /\ fst p' = fst p).
  { intros l p. unfold setx. rewrite Hk, nth_upd_nat. destruct (Nat.eqb_spec k l) as [<-|]; [rewrite Hk; intros [= <-]|]; eauto. }
  exists h'. split; [exact W|]. split; [apply zset_ok; lia|]. split; auto; try (rewrite Eh; auto).
  - intros i t p Ht Hp. apply W2; [apply (S8 i k t (s, q) Ht Hk)|eauto].
  - intros l t p. unfold setx. rewrite Hk, nth_upd_nat. destruct (Nat.eqb_spec k l) as [<-|Nl].
    + rewrite Hk. intros [= <- <-]. exact W1.
    + intros Hl. apply W2; [|eauto]. intros Q. apply (S9 k l (s, q) (t, p) Hk Hl Nl). auto.
  - intros i l t p Ht Hp. destruct (Hx l p Hp) as (p' & Hp' & <-). eauto.
  - intros l1 l2 p p' Hp Hp'. destruct (Hx l1 p Hp) as (p1 & H1 & <-). destruct (Hx l2 p' Hp') as (p2 & H2 & <-). eauto.
Qed.
(** A new slice beside the table. *)
Lemma Str_make h o hd d X r c n q : Str h o hd d X r c -> make fzero n = Ok q ->
  exists s h', makeF n h = (Ok s, h') /\ Str h' o hd d (X ++ [(s, q)]) r c.
Proof.
  intros HS Hm. unfold make in Hm. unfold makeF. destruct (n <? 0); [discriminate|]. injection Hm as <-. set (q := repeat fzero (Z.to_nat n)).
  eexists _, _. split; [reflexivity|]. pose proof HS as [S1 S2 S3 S4 S5 S6 S7 S8 S9].
  assert (Keep : forall t p, Who h t p -> Who (mkHeap (hf h ++ [q]) (hs h)) t p).
  { intros t p [T1 T2]. split; [exact T1|]. cbn [hf]. rewrite zget_app_l; auto. apply zget_range in T2. lia. }
  assert (Arr : forall t p, Who h t p -> sl_arr t <> len (hf h)). { intros t p [_ T]. apply zget_range in T. lia. }
  assert (New : forall l p, nth_error (X ++ [(mkSl (len (hf h)) 0 (len q) (len q), q)]) l = Some p -> nth_error X l = Some p \/ (l = length X /\ p = (mkSl (len (hf h)) 0 (len q) (len q), q))).
  { intros l p Hl. destruct (Nat.lt_ge_cases l (length X)).
    - left. rewrite nth_error_app1 in Hl; auto.
    - right. rewrite nth_error_app2 in Hl by auto. destruct (l - length X)%nat as [|u] eqn:E; cbn in Hl; [|destruct u; discriminate]. injection Hl as <-. split; [lia|auto]. }
  assert (HX : forall l p, nth_error X l = Some p -> sl_arr (fst p) <> len (hf h)). { intros l [t p] Hl. apply (Arr t p). eauto. }
  split; auto.
  - intros i t p Ht Hp. apply Keep. eauto.
  - intros l t p Hl. destruct (New _ _ Hl) as [Hl'|[_ [= -> ->]]]; [apply Keep; eauto|]. split; [reflexivity|]. cbn. apply zget_app_last.
  - intros i l t p Ht Hl. destruct (New _ _ Hl) as [Hl'|[_ ->]]; [eauto|]. cbn. pose proof (zget_range _ _ _ Ht). destruct S4 as [S4 _]. destruct (zget_some d i ltac:(lia)) as (p & Ep). apply (Arr t p). eauto.
  - intros l1 l2 p p' H1 H2 N. destruct (New _ _ H1) as [H1'|[-> ->]], (New _ _ H2) as [H2'|[-> ->]]; cbn; try lia; eauto. intros Q. apply (HX _ _ H2'). auto.
Qed.

(** ** Steps *)
Lemma s_rdS {A B} h o hd d X r c i (f : slice -> M A) (v : res B) Q : Str h o hd d X r c -> 0 <= i < r ->
  (forall s, zget hd i = Ok s -> sim (f s) v h Q) -> sim (mbind (rdS o i) f) v h Q.
Proof. intros HS Hi H. destruct (Str_row _ _ _ _ _ _ _ _ HS Hi) as (s & E & Es). unfold sim, mbind. rewrite E. apply (H s Es). Qed.
Lemma s_rdF {A B} h o hd d X r c i j s (f : F -> M A) (v : res B) Q : Str h o hd d X r c -> zget hd i = Ok s -> 0 <= j < c ->
  (forall x, mget d i j = Ok x -> sim (f x) v h Q) -> sim (mbind (rdF s j) f) v h Q.
Proof.
  intros HS Hs Hj H. pose proof (zget_range _ _ _ Hs) as Hi. rewrite (sr_l _ _ _ _ _ _ _ HS) in Hi. destruct (Str_get _ _ _ _ _ _ _ i j HS Hi Hj) as (x & Ex).
  unfold sim, mbind. rewrite (Str_rd _ _ _ _ _ _ _ _ _ _ _ HS Hs Ex). apply (H x Ex).
Qed.
Lemma s_rd2 {A B} h o hd d X r c i j (f : F -> M A) (v : res B) Q : Str h o hd d X r c -> 0 <= i < r -> 0 <= j < c ->
  (forall x, mget d i j = Ok x -> sim (f x) v h Q) -> sim (mbind (rd2 o i j) f) v h Q.
Proof.
  intros HS Hi Hj H. destruct (Str_row _ _ _ _ _ _ _ _ HS Hi) as (s & E & Es). destruct (Str_get _ _ _ _ _ _ _ i j HS Hi Hj) as (x & Ex).
  unfold sim, mbind, rd2, mbind. rewrite E, (Str_rd _ _ _ _ _ _ _ _ _ _ _ HS Es Ex). apply (H x Ex).
Qed.
Lemma s_rdX {A B} h o hd d X r c k j s q (f : F -> M A) (v : res B) Q : Str h o hd d X r c -> nth_error X k = Some (s, q) -> 0 <= j < len q ->
  (forall x, zget q j = Ok x -> sim (f x) v h Q) -> sim (mbind (rdF s j) f) v h Q.
Proof.
  intros HS Hk Hj H. destruct (zget_some q j Hj) as (x & Ex). unfold sim, mbind. rewrite (Who_rdF _ _ _ _ _ (sr_x _ _ _ _ _ _ _ HS _ _ _ Hk) Ex). apply (H x Ex).
Qed.
Lemma s_get {A B} h o hd d X r c i j (m : M A) (g : F -> res B) Q : Str h o hd d X r c -> 0 <= i < r -> 0 <= j < c ->
  (forall x, mget d i j = Ok x -> sim m (g x) h Q) -> sim m (bind (mget d i j) g) h Q.
Proof. intros HS Hi Hj H. destruct (Str_get _ _ _ _ _ _ _ i j HS Hi Hj) as (x & Ex). rewrite Ex. cbn [bind]. auto. Qed.
Lemma s_zget {A B T} h (q : list T) j (m : M A) (g : T -> res B) Q : 0 <= j < len q -> (forall x, zget q j = Ok x -> sim m (g x) h Q) -> sim m (bind (zget q j) g) h Q.
Proof. intros Hj H. destruct (zget_some q j Hj) as (x & Ex). rewrite Ex. cbn [bind]. auto. Qed.
Lemma s_wrF {A B} h o hd d X r c i j s x (f : unit -> M A) (g : mat -> res B) Q : Str h o hd d X r c -> zget hd i = Ok s -> 0 <= j < c ->
  (forall h' d', Str h' o hd d' X r c -> mset d i j x = Ok d' -> sim (f tt) (g d') h' Q) -> sim (mbind (wrF s j x) f) (bind (mset d i j x) g) h Q.
Proof.
  intros HS Hs Hj H. destruct (Str_wr _ _ _ _ _ _ _ i j s x HS Hs Hj) as (h' & d' & W & E & HS'). unfold sim, mbind. rewrite W, E. cbn [bind]. apply (H h' d' HS' E).
Qed.
Lemma s_wrF_end h o hd d X r c i j s x (Q : heap -> unit -> mat -> Prop) : Str h o hd d X r c -> zget hd i = Ok s -> 0 <= j < c ->
  (forall h' d', Str h' o hd d' X r c -> Q h' tt d') -> sim (wrF s j x) (mset d i j x) h Q.
Proof.
  intros HS Hs Hj H. destruct (Str_wr _ _ _ _ _ _ _ i j s x HS Hs Hj) as (h' & d' & W & E & HS'). unfold sim. rewrite W, E. apply (H h' d' HS').
Qed.
Lemma s_wr2_end h o hd d X r c i j x (Q : heap -> unit -> mat -> Prop) : Str h o hd d X r c -> 0 <= i < r -> 0 <= j < c ->
  (forall h' d', Str h' o hd d' X r c -> Q h' tt d') -> sim (wr2 o i j x) (mset d i j x) h Q.
Proof. intros HS Hi Hj H. unfold wr2. eapply s_rdS; eauto. intros s Hs. eapply s_wrF_end; eauto. Qed.
Lemma s_wr2 {A B} h o hd d X r c i j x (f : unit -> M A) (g : mat -> res B) Q : Str h o hd d X r c -> 0 <= i < r -> 0 <= j < c ->
  (forall h' d', Str h' o hd d' X r c -> mset d i j x = Ok d' -> sim (f tt) (g d') h' Q) -> sim (mbind (wr2 o i j x) f) (bind (mset d i j x) g) h Q.
Proof.
  intros HS Hi Hj H. destruct (Str_row _ _ _ _ _ _ _ _ HS Hi) as (s & E & Es). destruct (Str_wr _ _ _ _ _ _ _ i j s x HS Es Hj) as (h' & d' & W & E' & HS').
  unfold sim, mbind, wr2, mbind. rewrite E, W, E'. cbn [bind]. apply (H h' d' HS' E').
Qed.
Lemma s_wrX {A B} h o hd d X r c k j s q x (f : unit -> M A) (g : list F -> res B) Q : Str h o hd d X r c -> nth_error X k = Some (s, q) -> 0 <= j < len q ->
  (forall h' q', Str h' o hd d (setx X k q') r c -> len q' = len q -> zset q j x = Ok q' -> sim (f tt) (g q') h' Q) -> sim (mbind (wrF s j x) f) (bind (zset q j x) g) h Q.
Proof.
  intros HS Hk Hj H. destruct (Str_wx _ _ _ _ _ _ _ k j s q x HS Hk Hj) as (h' & W & E & HS'). unfold sim, mbind. rewrite W, E. cbn [bind]. apply (H h' _ HS'); [apply len_upd|exact E].
Qed.
Lemma s_wrX_end h o hd d X r c k j s q x (Q : heap -> unit -> list F -> Prop) : Str h o hd d X r c -> nth_error X k = Some (s, q) -> 0 <= j < len q ->
  (forall h' q', Str h' o hd d (setx X k q') r c -> len q' = len q -> Q h' tt q') -> sim (wrF s j x) (zset q j x) h Q.
Proof.
  intros HS Hk Hj H. destruct (Str_wx _ _ _ _ _ _ _ k j s q x HS Hk Hj) as (h' & W & E & HS'). unfold sim. rewrite W, E. apply (H h' _ HS'). apply len_upd.
Qed.
Lemma s_make {A B} h o hd d X r c n (f : slice -> M A) (g : list F -> res B) Q : Str h o hd d X r c -> 0 <= n ->
  (forall s h' q, Str h' o hd d (X ++ [(s, q)]) r c -> len q = n -> make fzero n = Ok q -> sim (f s) (g q) h' Q) -> sim (mbind (makeF n) f) (bind (make fzero n) g) h Q.
Proof.
  intros HS Hn H. assert (E : make fzero n = Ok (repeat fzero (Z.to_nat n))) by (unfold make; destruct (Z.ltb_spec n 0); [lia|reflexivity]).
  destruct (Str_make _ _ _ _ _ _ _ n _ HS E) as (s & h' & W & HS'). unfold sim, mbind. rewrite W, E. cbn [bind]. apply (H s h' _ HS'); auto. unfold len. rewrite repeat_length. lia.
Qed.
Lemma s_modF {A B} h o hd d X r c i j s g x y (f : unit -> M A) (k : mat -> res B) Q : Str h o hd d X r c -> zget hd i = Ok s -> 0 <= j < c -> mget d i j = Ok x -> g x = y ->
  (forall h' d', Str h' o hd d' X r c -> mset d i j y = Ok d' -> sim (f tt) (k d') h' Q) -> sim (mbind (modF s j g) f) (bind (mset d i j y) k) h Q.
Proof.
  intros HS Hs Hj Hx <- H. destruct (Str_wr _ _ _ _ _ _ _ i j s (g x) HS Hs Hj) as (h' & d' & W & E & HS'). unfold sim, modF, mbind. rewrite (Str_rd _ _ _ _ _ _ _ _ _ _ _ HS Hs Hx), W, E. cbn [bind]. apply (H h' d' HS' E).
Qed.
Lemma s_modF_end h o hd d X r c i j s g x y (Q : heap -> unit -> mat -> Prop) : Str h o hd d X r c -> zget hd i = Ok s -> 0 <= j < c -> mget d i j = Ok x -> g x = y ->
  (forall h' d', Str h' o hd d' X r c -> Q h' tt d') -> sim (modF s j g) (mset d i j y) h Q.
Proof.
  intros HS Hs Hj Hx <- H. destruct (Str_wr _ _ _ _ _ _ _ i j s (g x) HS Hs Hj) as (h' & d' & W & E & HS'). unfold sim, modF, mbind. rewrite (Str_rd _ _ _ _ _ _ _ _ _ _ _ HS Hs Hx), W, E. apply (H h' d' HS').
Qed.
Lemma s_modX {A B} h o hd d X r c k j s q g x y (f : unit -> M A) (u : list F -> res B) Q : Str h o hd d X r c -> nth_error X k = Some (s, q) -> 0 <= j < len q -> zget q j = Ok x -> g x = y ->
  (forall h' q', Str h' o hd d (setx X k q') r c -> len q' = len q -> zset q j y = Ok q' -> sim (f tt) (u q') h' Q) -> sim (mbind (modF s j g) f) (bind (zset q j y) u) h Q.
Proof.
  intros HS Hk Hj Hx <- H. destruct (Str_wx _ _ _ _ _ _ _ k j s q (g x) HS Hk Hj) as (h' & W & E & HS'). unfold sim, modF, mbind. rewrite (Who_rdF _ _ _ _ _ (sr_x _ _ _ _ _ _ _ HS _ _ _ Hk) Hx), W, E. cbn [bind].
  apply (H h' _ HS'); [apply len_upd|exact E].
Qed.
Lemma s_modX_end h o hd d X r c k j s q g x y (Q : heap -> unit -> list F -> Prop) : Str h o hd d X r c -> nth_error X k = Some (s, q) -> 0 <= j < len q -> zget q j = Ok x -> g x = y ->
  (forall h' q', Str h' o hd d (setx X k q') r c -> len q' = len q -> Q h' tt q') -> sim (modF s j g) (zset q j y) h Q.
Proof.
  intros HS Hk Hj Hx <- H. destruct (Str_wx _ _ _ _ _ _ _ k j s q (g x) HS Hk Hj) as (h' & W & E & HS'). unfold sim, modF, mbind. rewrite (Who_rdF _ _ _ _ _ (sr_x _ _ _ _ _ _ _ HS _ _ _ Hk) Hx), W, E.
  apply (H h' _ HS'). apply len_upd.
Qed.
End Ref.

(** One step on either side. *)
Ltac same := repeat match goal with H1 : ?a = Ok ?x, H2 : ?a = Ok ?y |- _ => rewrite H1 in H2; injection H2 as H2; try subst y; try (rewrite <- H2 in *; clear H2) end.
Ltac inx tac := first [tac 0%nat | tac 1%nat | tac 2%nat | tac 3%nat].
Ltac st :=
  lazymatch goal with
  | |- sim (mbind (rdS _ _) _) _ _ _ => eapply s_rdS; [eassumption|lia|let s := fresh "s" in let Hs := fresh "Hs" in intros s Hs; same]
  | |- sim (mbind (rdF ?s ?j) _) _ ?h _ =>
      let x := fresh "x" in let Ex := fresh "Ex" in
      first [match goal with Hs : zget _ ?i = Ok s |- _ => eapply s_rdF; [eassumption|exact Hs|lia|intros x Ex; same] end
            |inx ltac:(fun k => eapply (s_rdX _ _ _ _ _ _ _ k); [eassumption|reflexivity|lia|intros x Ex; same])]
  | |- sim (mbind (rd2 _ _ _) _) _ _ _ => eapply s_rd2; [eassumption|lia|lia|let x := fresh "x" in let Ex := fresh "Ex" in intros x Ex; same]
  | |- sim _ (bind (bind _ _) _) _ _ => rewrite bind_assoc
  | |- sim _ (bind (mget ?d ?i ?j) _) _ _ =>
      first [match goal with E : mget d i j = Ok _ |- _ => rewrite E; cbn [bind] end
            |eapply s_get; [eassumption|lia|lia|let x := fresh "x" in let Ex := fresh "Ex" in intros x Ex; same]]
  | |- sim _ (bind (zget ?d ?i) _) _ _ =>
      first [match goal with E : zget d i = Ok _ |- _ => rewrite E; cbn [bind] end
            |eapply s_zget; [lia|let x := fresh "x" in let Ex := fresh "Ex" in intros x Ex; same]]
  end.

(** The heap model computes the same values as the model in which slices are
    values (Vector.v, Array2D.v, Diagonal.v, BlockM.v). *)
From Coq Require Import ZArith List Lia Bool.
From Verif Require Import Base BaseLemmas Scalar Vector Matrix Array2D BlockM Diagonal Heap HeapSpec HeapFacts.
Import ListNotations.
Open Scope Z_scope.

Section Sim.
Context {O : Ops}.

Lemma window_len {A} (m : list (list A)) s l :
  window m s = l -> sl_len s = len l -> 0 < len l ->
  exists a, zget m (sl_arr s) = Ok a /\ l = firstn (Z.to_nat (sl_len s)) (skipn (Z.to_nat (sl_off s)) a).
Proof.
  unfold window. destruct (zget m (sl_arr s)) as [a| |]; intros <- H1 H2; eauto; cbn in H2; lia.
Qed.
Lemma nth_error_window {A} (a : list A) off n i : 0 <= off -> 0 <= i < n ->
  nth_error (firstn (Z.to_nat n) (skipn (Z.to_nat off) a)) (Z.to_nat i) = nth_error a (Z.to_nat (off + i)).
Proof.
  intros Ho Hi.
  assert (H1 : forall k (l : list A) m, (m < k)%nat -> nth_error (firstn k l) m = nth_error l m).
  { induction k; intros l m Hm; [lia|]. destruct l, m; simpl; auto. apply IHk. lia. }
  assert (H2 : forall k (l : list A) m, nth_error (skipn k l) m = nth_error l (k + m)).
  { induction k; intros l m; simpl; auto. destruct l; simpl; auto. destruct m; auto. }
  rewrite H1 by lia. rewrite H2. f_equal. lia.
Qed.
Lemma window_get {A} (m : list (list A)) s l i x :
  window m s = l -> sl_len s = len l -> 0 <= sl_off s -> zget l i = Ok x ->
  exists a, zget m (sl_arr s) = Ok a /\ zget a (sl_off s + i) = Ok x.
Proof.
  intros Hw Hl Ho Hg. pose proof (zget_range _ _ _ Hg) as Hr.
  destruct (window_len m s l Hw Hl) as (a & Ha & El); [lia|]. exists a. split; auto.
  apply zget_nth. split; [lia|]. apply zget_nth in Hg. destruct Hg as [_ Hg].
  rewrite El, nth_error_window in Hg by lia. auto.
Qed.

(** ** Runs *)
Definition runs {A} (m : M A) (h : heap) (a : A) (h' : heap) : Prop := m h = (Ok a, h').
Lemma runs_bind {A B} (m : M A) (f : A -> M B) h a h1 b h2 :
  runs m h a h1 -> runs (f a) h1 b h2 -> runs (mbind m f) h b h2.
Proof. unfold runs, mbind. intros -> H. auto. Qed.
Lemma runs_ret {A} (x : A) h : runs (ret x) h x h. Proof. reflexivity. Qed.
Lemma runs_mpan {A} (m : M A) h a h' : runs m h a h' -> runs (mpan m) h a h'.
Proof. unfold runs, mpan. intros ->. reflexivity. Qed.

(** A loop against a loop. *)
Lemma for_runs {P T} (Inv : Z -> P -> T -> heap -> Prop) lo hi (pb : Z -> P -> res P) (hb : Z -> T -> M T) p t h p' :
  for_ lo hi pb p = Ok p' -> Inv lo p t h ->
  (forall i p t h p1, lo <= i < hi -> Inv i p t h -> pb i p = Ok p1 ->
     exists t1 h1, runs (hb i t) h t1 h1 /\ Inv (i + 1) p1 t1 h1) ->
  exists t' h', runs (mfor lo hi hb t) h t' h' /\ Inv (Z.max lo hi) p' t' h'.
Proof.
  unfold for_, mfor. remember (Z.to_nat (hi - lo)) as n eqn:En.
  revert lo p t h En. induction n as [|n IH]; intros lo p t h En Hp Hi Hs; cbn in *.
  - injection Hp as <-. exists t, h. split; [reflexivity|]. replace (Z.max lo hi) with lo by lia. auto.
  - destruct (pb lo p) as [p1| |] eqn:Eb; cbn in Hp; try discriminate.
    destruct (Hs lo p t h p1) as (t1 & h1 & R1 & I1); auto; [lia|].
    destruct (IH (lo + 1) p1 t1 h1) as (t2 & h2 & R2 & I2); auto; [lia| |].
    { intros i p2 t2 h2 p3 Hi'. apply Hs. lia. }
    exists t2, h2. split; [eapply runs_bind; eauto|]. replace (Z.max lo hi) with (Z.max (lo + 1) hi) by lia. auto.
Qed.

(** ** Reading *)
Lemma runs_rdF h s r i x : VRep h s r -> zget r i = Ok x -> runs (rdF s i) h x h.
Proof.
  intros (Hc & Hl & Ho & _) Hg. pose proof (zget_range _ _ _ Hg) as Hr.
  destruct (window_get _ _ _ _ _ Hc Hl Ho Hg) as (a & Ha & Hx).
  unfold runs, rdF. rewrite Hl, (proj2 (inb_true _ _) Hr), Ha. cbn. rewrite Hx. reflexivity.
Qed.
Lemma Forall2_zget {A B} (R : A -> B -> Prop) l1 l2 i y :
  Forall2 R l1 l2 -> zget l2 i = Ok y -> exists x, zget l1 i = Ok x /\ R x y.
Proof.
  intros H Hg. apply zget_nth in Hg. destruct Hg as [Hi Hg].
  assert (HH : exists x, nth_error l1 (Z.to_nat i) = Some x /\ R x y).
  { revert Hg. generalize (Z.to_nat i). clear Hi. induction H; intros [|n]; cbn; intros Hg; try discriminate.
    - injection Hg as <-. eauto.
    - auto. }
  destruct HH as (x & Hx & HR). exists x. split; auto. apply zget_nth. auto.
Qed.
Lemma Forall2_len {A B} (R : A -> B -> Prop) l1 l2 : Forall2 R l1 l2 -> len l1 = len l2.
Proof. intros H. unfold len. induction H; cbn; lia. Qed.
Lemma runs_rdS h o d i r : MRep h o d -> zget d i = Ok r -> exists s, runs (rdS o i) h s h /\ VRep h s r.
Proof.
  intros (HF & Hl & Ho) Hg. pose proof (zget_range _ _ _ Hg) as Hr.
  destruct (Forall2_zget _ _ _ _ _ HF Hg) as (s & Hs & HV). exists s. split; auto.
  assert (Hl' : sl_len o = len (heads h o)) by (rewrite (Forall2_len _ _ _ HF); auto).
  destruct (window_get _ _ _ _ _ eq_refl Hl' Ho Hs) as (a & Ha & Hx).
  unfold runs, rdS. rewrite Hl, (proj2 (inb_true _ _) Hr), Ha. cbn. rewrite Hx. reflexivity.
Qed.
Lemma runs_rd2 h o d i j x : MRep h o d -> mget d i j = Ok x -> runs (rd2 o i j) h x h.
Proof.
  intros HM Hg. unfold mget in Hg. destruct (zget d i) as [r| |] eqn:Er; cbn in Hg; try discriminate.
  destruct (runs_rdS _ _ _ _ _ HM Er) as (s & Rs & HV). eapply runs_bind; [exact Rs|]. eapply runs_rdF; eauto.
Qed.
Lemma MRep_arr h o d i r : MRep h o d -> zget d i = Ok r -> isnil o = false.
Proof.
  intros (HF & Hl & Ho) Hg. pose proof (zget_range _ _ _ Hg) as Hr. unfold isnil.
  destruct (Z.eqb_spec (sl_arr o) (-1)) as [E|]; auto. exfalso.
  apply Forall2_len in HF. unfold heads, window in HF. rewrite E in HF.
  rewrite zget_panic in HF by lia. cbn in HF. lia.
Qed.
(** Old storage is the same after a call that only adds. *)
Lemma VRep_ext h0 h s r : Ext h0 h -> VRep h0 s r -> VRep h s r.
Proof.
  intros He (Hc & Hl & Ho & Hcap). repeat split; auto. unfold cont, window in *.
  destruct (Z_lt_le_dec (sl_arr s) (len (hf h0))) as [L|L].
  - rewrite (ext_f _ _ He) by auto. auto.
  - rewrite zget_panic in Hc by lia. subst r. cbn in Hl. rewrite Hl. destruct (zget (hf h) (sl_arr s)); reflexivity.
Qed.
Lemma MRep_ext h0 h o d : Ext h0 h -> MRep h0 o d -> MRep h o d.
Proof.
  intros He (HF & Hl & Ho). split; [|auto].
  assert (E : heads h o = heads h0 o).
  { unfold heads, window in *. destruct (Z_lt_le_dec (sl_arr o) (len (hs h0))) as [L|L].
    - rewrite (ext_s _ _ He) by auto. auto.
    - rewrite (zget_panic (hs h0)) in * by lia. inversion HF; subst d. cbn in Hl. rewrite Hl.
      destruct (zget (hs h) (sl_arr o)); reflexivity. }
  rewrite E. clear - He HF. revert HF. generalize (heads h0 o). intros l HF. induction HF; constructor; auto.
  eapply VRep_ext; eauto.
Qed.
(** Part of a slice. *)
Lemma firstn_skipn_firstn {A} (l : list A) n lo k : (lo + k <= n)%nat ->
  firstn k (skipn lo (firstn n l)) = firstn k (skipn lo l).
Proof.
  intros H. rewrite skipn_firstn_comm, firstn_firstn. f_equal. lia.
Qed.
Lemma skipn_skipn {A} (l : list A) n m : skipn n (skipn m l) = skipn (m + n) l.
Proof. revert l. induction m; intros l; cbn; auto. destruct l; auto. destruct n; auto. Qed.
Lemma runs_reslice h s r lo hi : VRep h s r -> 0 <= lo <= hi -> hi <= len r ->
  runs (reslice s lo hi) h (mkSl (sl_arr s) (sl_off s + lo) (hi - lo) (sl_cap s - lo)) h /\
  VRep h (mkSl (sl_arr s) (sl_off s + lo) (hi - lo) (sl_cap s - lo))
    (firstn (Z.to_nat (hi - lo)) (skipn (Z.to_nat lo) r)).
Proof.
  intros (Hc & Hl & Ho & Hcap) H1 H2. split.
  - unfold runs, reslice. rewrite (proj2 (Z.leb_le 0 lo)), (proj2 (Z.leb_le lo hi)), (proj2 (Z.leb_le hi (sl_cap s))) by lia.
    reflexivity.
  - split; [|cbn; split; [|lia]].
    + unfold cont, window in *. cbn. destruct (zget (hf h) (sl_arr s)) as [a| |].
      * rewrite <- Hc, firstn_skipn_firstn by lia. rewrite skipn_skipn. do 2 f_equal. lia.
      * subst r. rewrite skipn_nil, firstn_nil. reflexivity.
      * subst r. rewrite skipn_nil, firstn_nil. reflexivity.
    + rewrite len_firstn, len_skipn by lia. lia.
Qed.

(** ** Storage the call has made itself *)
Definition Own (h0 h : heap) (s : slice) (r : list F) : Prop :=
  len (hf h0) <= sl_arr s /\ s = mkSl (sl_arr s) 0 (len r) (len r) /\ zget (hf h) (sl_arr s) = Ok r.
Lemma Own_VRep h0 h s r : Own h0 h s r -> VRep h s r.
Proof.
  intros (Ha & Es & Hg). rewrite Es. repeat split; cbn; try lia. unfold cont, window. cbn. rewrite Hg. cbn.
  unfold len. rewrite Nat2Z.id. apply firstn_all.
Qed.
Lemma blit_app (a : list F) l1 : forall i l2, blit a i (l1 ++ l2) = blit (blit a i l1) (i + len l1) l2.
Proof.
  revert a. induction l1 as [|x t IH]; intros a i l2; cbn.
  - f_equal. change (len []) with 0. lia.
  - rewrite IH. f_equal. change (len (x :: t)) with (Z.of_nat (Datatypes.S (length t))). unfold len. lia.
Qed.
Lemma len_blit l : forall (a : list F) i, len (blit a i l) = len a.
Proof. induction l; intros b i; cbn; auto. rewrite IHl, len_upd. auto. Qed.
Lemma blit_eq l : forall (a : list F) i, 0 <= i -> i + len l <= len a ->
  blit a i l = firstn (Z.to_nat i) a ++ l ++ skipn (Z.to_nat (i + len l)) a.
Proof.
  induction l as [|x t IH]; intros a i Hi Hl; cbn [blit].
  - cbn [app]. rewrite len_nil, Z.add_0_r. symmetry. apply firstn_skipn.
  - rewrite len_cons in Hl. pose proof (len_nonneg t). rewrite IH by (rewrite ?len_upd; lia).
    rewrite len_cons. cbn [app].
    assert (E1 : firstn (Z.to_nat (i + 1)) (upd a i x) = firstn (Z.to_nat i) a ++ [x]).
    { unfold upd. rewrite (proj2 (Z.leb_le 0 i)) by lia. replace (Z.to_nat (i + 1)) with (Datatypes.S (Z.to_nat i)) by lia.
      assert (Hn : (Z.to_nat i < length a)%nat) by (unfold len in Hl; lia).
      revert Hn. generalize (Z.to_nat i). clear. induction a; intros [|n]; cbn; intros; try lia; auto.
      f_equal. rewrite <- IHa by lia. reflexivity. }
    assert (E2 : skipn (Z.to_nat (i + 1 + len t)) (upd a i x) = skipn (Z.to_nat (i + 1 + len t)) a).
    { unfold upd. rewrite (proj2 (Z.leb_le 0 i)) by lia.
      assert (Hn : (Z.to_nat i < Z.to_nat (i + 1 + len t))%nat) by lia.
      revert Hn. generalize (Z.to_nat i), (Z.to_nat (i + 1 + len t)). clear. intros n m. revert n m.
      induction a; intros [|n] [|m]; cbn; intros; try lia; auto. apply IHa. lia. }
    rewrite E1, E2, <- app_assoc. cbn [app]. do 4 f_equal. lia.
Qed.

Lemma zget_upd_same {A} (l : list A) i x : 0 <= i < len l -> zget (upd l i x) i = Ok x.
Proof. intros H. rewrite zget_upd, Z.eqb_refl, (proj2 (inb_true _ _) H). reflexivity. Qed.
Lemma zget_upd_other {A} (l : list A) i j x : i <> j -> zget (upd l i x) j = zget l j.
Proof. intros H. rewrite zget_upd. destruct (Z.eqb_spec i j); [contradiction|reflexivity]. Qed.

(** New arrays. *)
Lemma runs_newF h0 h l : Ext h0 h ->
  exists s h', runs (newF l) h s h' /\ Own h0 h' s l /\ Ext h0 h' /\ sl_arr s = len (hf h) /\
    hf h' = hf h ++ [l] /\ hs h' = hs h.
Proof.
  intros He. eexists _, _. split; [reflexivity|]. cbn. split; [|split; [apply Ext_newF; auto|auto]].
  split; [apply ext_le in He; apply He|split; [reflexivity|apply zget_app_last]].
Qed.
Lemma runs_makeF h0 h n l : Ext h0 h -> make fzero n = Ok l ->
  exists s h', runs (makeF n) h s h' /\ Own h0 h' s l /\ Ext h0 h' /\ sl_arr s = len (hf h) /\
    hf h' = hf h ++ [l] /\ hs h' = hs h.
Proof.
  intros He Hm. unfold make in Hm. unfold makeF. destruct (n <? 0); [discriminate|]. injection Hm as <-.
  apply runs_newF; auto.
Qed.
(** Writing to them. *)
Lemma runs_wrF h0 h s r i x r' : Ext h0 h -> Own h0 h s r -> zset r i x = Ok r' ->
  exists h', runs (wrF s i x) h tt h' /\ Own h0 h' s r' /\ Ext h0 h' /\
    hs h' = hs h /\ hf h' = upd (hf h) (sl_arr s) r'.
Proof.
  intros He (Ha & Es & Hg) Hz. apply zset_inv in Hz. destruct Hz as [Hr ->].
  pose proof (zget_range _ _ _ Hg) as Hra.
  exists (mkHeap (upd (hf h) (sl_arr s) (upd r i x)) (hs h)). split; [|split; [|split; [apply Ext_putF; auto|auto]]].
  - unfold runs, wrF. assert (EL : sl_len s = len r) by (rewrite Es; reflexivity).
    assert (EO : sl_off s = 0) by (rewrite Es; reflexivity).
    rewrite EL, EO, (proj2 (inb_true _ _) Hr), Hg. cbn [bind]. rewrite Z.add_0_l, zset_ok by auto. cbn [bind].
    rewrite zset_ok by auto. reflexivity.
  - split; [auto|split; [rewrite len_upd; auto|cbn; apply zget_upd_same; auto]].
Qed.
Lemma runs_copyrange h0 h d r i j s q k l r' : Ext h0 h -> Own h0 h d r -> VRep h s q ->
  slice_copy r i j q k l = Ok r' ->
  exists h', runs (copyrange d i j s k l) h tt h' /\ Own h0 h' d r' /\ Ext h0 h' /\
    hs h' = hs h /\ hf h' = upd (hf h) (sl_arr d) r'.
Proof.
  intros He HO HV Hs. unfold slice_copy in Hs.
  destruct (_ && _) eqn:E in Hs; [|discriminate]. injection Hs as <-.
  rewrite !andb_true_iff, !Z.leb_le in E. destruct E as (((((E1 & E2) & E3) & E4) & E5) & E6).
  destruct (runs_reslice h d r i j (Own_VRep _ _ _ _ HO)) as [R1 V1]; [lia..|].
  destruct (runs_reslice h s q k l HV) as [R2 V2]; [lia..|].
  pose proof HO as (Ha & Es & Hg). pose proof (zget_range _ _ _ Hg) as Hra.
  assert (EO : sl_off d = 0) by (rewrite Es; reflexivity).
  set (r' := firstn _ r ++ _).
  assert (Er : blit r (0 + i) (firstn (Z.to_nat (Z.min (j - i) (l - k))) (firstn (Z.to_nat (l - k)) (skipn (Z.to_nat k) q))) = r').
  { rewrite firstn_firstn. replace (Nat.min _ _) with (Z.to_nat (Z.min (j - i) (l - k))) by lia.
    assert (EL : len (firstn (Z.to_nat (Z.min (j - i) (l - k))) (skipn (Z.to_nat k) q)) = Z.min (j - i) (l - k)).
    { rewrite len_firstn, len_skipn by lia. lia. }
    rewrite blit_eq by (rewrite ?EL; lia). rewrite EL. subst r'. rewrite Z.add_0_l. reflexivity. }
  exists (mkHeap (upd (hf h) (sl_arr d) r') (hs h)).
  assert (Hlen : len r' = len r) by (rewrite <- Er; apply len_blit).
  split; [|split; [|split; [apply Ext_putF; auto|auto]]].
  - eapply runs_bind; [exact R1|]. eapply runs_bind; [exact R2|]. unfold runs, gocopy. cbn [sl_arr sl_len sl_off].
    rewrite Hg, EO. destruct V2 as (V2 & _). rewrite V2, Er. reflexivity.
  - split; [auto|split; [rewrite Hlen; auto|cbn; apply zget_upd_same; auto]].
Qed.
(** The whole of a slice. *)
Lemma runs_gocopy h0 h d r s q r' : Ext h0 h -> Own h0 h d r -> VRep h s q ->
  slice_copy r 0 (len r) q 0 (len q) = Ok r' ->
  exists h', runs (gocopy d s) h tt h' /\ Own h0 h' d r' /\ Ext h0 h' /\
    hs h' = hs h /\ hf h' = upd (hf h) (sl_arr d) r'.
Proof.
  intros He HO HV Hs. unfold slice_copy in Hs.
  destruct (_ && _) eqn:E in Hs; [|discriminate]. injection Hs as Er'.
  pose proof HO as (Ha & Es & Hg). pose proof (zget_range _ _ _ Hg) as Hra.
  pose proof (len_nonneg r). pose proof (len_nonneg q).
  assert (EO : sl_off d = 0) by (rewrite Es; reflexivity).
  assert (EL : sl_len d = len r) by (rewrite Es; reflexivity).
  destruct HV as (V1 & V2 & _).
  assert (Er : blit r 0 (firstn (Z.to_nat (Z.min (len r) (len q))) q) = r').
  { assert (EM : len (firstn (Z.to_nat (Z.min (len r) (len q))) q) = Z.min (len r) (len q)).
    { rewrite len_firstn by lia. lia. }
    rewrite blit_eq by (rewrite ?EM; lia). rewrite EM, <- Er'. rewrite !Z.sub_0_r. reflexivity. }
  assert (Hlen : len r' = len r) by (rewrite <- Er; apply len_blit).
  exists (mkHeap (upd (hf h) (sl_arr d) r') (hs h)).
  split; [|split; [|split; [apply Ext_putF; auto|auto]]].
  - unfold runs, gocopy. rewrite Hg, EO, EL, V2, V1, Er. reflexivity.
  - split; [auto|split; [rewrite Hlen; auto|cbn; apply zget_upd_same; auto]].
Qed.
Lemma Own_frame h0 h h' s r l : Own h0 h s r -> hf h' = hf h ++ l -> Own h0 h' s r.
Proof.
  intros (A & B & C) E. split; [auto|split; auto]. rewrite E. rewrite zget_app_l; auto.
  apply zget_range in C. lia.
Qed.

(** ** Tables the call has made itself *)
Definition Row (h0 h : heap) (s : slice) (r : list F) : Prop := (s = nilsl /\ r = []) \/ Own h0 h s r.
Record Tab (h0 h : heap) (o : slice) (hd : list slice) (d : mat) : Prop := {
  tb_e : Ext h0 h;
  tb_a : len (hs h0) <= sl_arr o;
  tb_o : o = mkSl (sl_arr o) 0 (len d) (len d);
  tb_h : zget (hs h) (sl_arr o) = Ok hd;
  tb_l : len hd = len d;
  tb_r : forall i s, zget hd i = Ok s -> exists r, zget d i = Ok r /\ Row h0 h s r;
  tb_d : forall i j s s', zget hd i = Ok s -> zget hd j = Ok s' -> sl_arr s = sl_arr s' -> i = j \/ sl_arr s = -1
}.
Lemma Row_VRep h0 h s r : Row h0 h s r -> VRep h s r.
Proof.
  intros [[-> ->]|H]; [|eapply Own_VRep; eauto]. repeat split; cbn; try lia.
Qed.
Lemma Forall2_intro {A B} (R : A -> B -> Prop) l1 l2 : len l1 = len l2 ->
  (forall i x, zget l1 i = Ok x -> exists y, zget l2 i = Ok y /\ R x y) -> Forall2 R l1 l2.
Proof.
  revert l2. induction l1 as [|x t IH]; intros [|y u] Hl H; try (unfold len in Hl; cbn in Hl; lia).
  - constructor.
  - constructor.
    + destruct (H 0 x) as (z & Hz & HR); [reflexivity|].
      assert (E : zget (y :: u) 0 = Ok y) by reflexivity. congruence.
    + apply IH; [rewrite !len_cons in Hl; lia|]. intros i z Hz.
      pose proof (zget_range _ _ _ Hz) as Hr.
      destruct (H (i + 1) z) as (w & Hw & HR).
      * apply zget_nth in Hz. apply zget_nth. split; [lia|]. replace (Z.to_nat (i + 1)) with (Datatypes.S (Z.to_nat i)) by lia.
        apply Hz.
      * exists w. split; auto. apply zget_nth in Hw. apply zget_nth. split; [lia|].
        replace (Z.to_nat (i + 1)) with (Datatypes.S (Z.to_nat i)) in Hw by lia. apply Hw.
Qed.
Lemma Tab_MRep h0 h o hd d : Tab h0 h o hd d -> MRep h o d.
Proof.
  intros HT. pose proof (tb_o _ _ _ _ _ HT) as Eo. split; [|rewrite Eo; cbn; lia].
  assert (Eh : heads h o = hd).
  { unfold heads, window. rewrite (tb_h _ _ _ _ _ HT), Eo. cbn. rewrite <- (tb_l _ _ _ _ _ HT).
    unfold len. rewrite Nat2Z.id. apply firstn_all. }
  rewrite Eh. apply Forall2_intro; [apply HT|]. intros i s Hs.
  destruct (tb_r _ _ _ _ _ HT i s Hs) as (r & Hr & HR). exists r. split; auto. eapply Row_VRep; eauto.
Qed.
Lemma runs_makeS h0 h n d : Ext h0 h -> make [] n = Ok d ->
  exists o hd h', runs (makeS n) h o h' /\ Tab h0 h' o hd d.
Proof.
  intros He Hm. unfold make in Hm. unfold makeS. destruct (n <? 0); [discriminate|]. injection Hm as <-.
  eexists _, _, _. split; [reflexivity|].
  assert (EL : len (repeat nilsl (Z.to_nat n)) = len (repeat (@nil F) (Z.to_nat n))).
  { unfold len. rewrite !repeat_length. auto. }
  assert (HN : forall s, In s (repeat nilsl (Z.to_nat n)) -> s = nilsl) by (intros s Hs; apply repeat_spec in Hs; auto).
  split; cbn.
  - apply Ext_newS; auto. intros s Hs. rewrite (HN s Hs). right. reflexivity.
  - apply ext_le in He. apply He.
  - f_equal; auto.
  - apply zget_app_last.
  - auto.
  - intros i s Hs. rewrite (HN s) by (eapply zget_In; eauto).
    destruct (zget_some (repeat (@nil F) (Z.to_nat n)) i) as (r & Hr).
    { apply zget_range in Hs. lia. }
    exists r. split; auto. left. split; auto. apply zget_In in Hr. apply repeat_spec in Hr. auto.
  - intros i j s s' Hs Hs' _. right. rewrite (HN s) by (eapply zget_In; eauto). reflexivity.
Qed.
(** A new array beside the table. *)
Record Loose (h0 h : heap) (o : slice) (hd : list slice) (d : mat) (s : slice) (r : list F) : Prop := {
  ls_t : Tab h0 h o hd d;
  ls_o : Own h0 h s r;
  ls_n : forall i s', zget hd i = Ok s' -> sl_arr s' < sl_arr s
}.
Lemma Row_frame h0 h h' s r l : Row h0 h s r -> hf h' = hf h ++ l -> Row h0 h' s r.
Proof. intros [H|H] E; [left; auto|right; eapply Own_frame; eauto]. Qed.
Lemma Row_arr h0 h s r : Row h0 h s r -> sl_arr s < len (hf h).
Proof.
  intros [[-> _]|(A & B & C)]; [cbn; pose proof (len_nonneg (hf h)); lia|]. apply zget_range in C. lia.
Qed.
Lemma Tab_newF h0 h o hd d n l : Tab h0 h o hd d -> make fzero n = Ok l ->
  exists s h', runs (makeF n) h s h' /\ Loose h0 h' o hd d s l.
Proof.
  intros HT Hm. destruct (runs_makeF h0 h n l (tb_e _ _ _ _ _ HT) Hm) as (s & h' & R & HO & He & Ha & Ef & Eh).
  exists s, h'. split; auto. split; auto.
  - destruct HT as [T1 T2 T3 T4 T5 T6 T7]. split; auto.
    + rewrite Eh. auto.
    + intros i s' Hs. destruct (T6 i s' Hs) as (r & Hr & HR). exists r. split; auto. eapply Row_frame; eauto.
  - intros i s' Hs. destruct (tb_r _ _ _ _ _ HT i s' Hs) as (r & Hr & HR). apply Row_arr in HR. lia.
Qed.
Lemma Loose_wrS h0 h o hd d s r i : Loose h0 h o hd d s r -> 0 <= i < len d ->
  exists h', runs (wrS o i s) h tt h' /\ Tab h0 h' o (upd hd i s) (upd d i r) /\ Own h0 h' s r.
Proof.
  intros [HT HO HN] Hi. destruct HT as [T1 T2 T3 T4 T5 T6 T7].
  pose proof (zget_range _ _ _ T4) as Hb. pose proof HO as (HO1 & HO2 & HO3).
  pose proof (zget_range _ _ _ HO3) as Hsr. pose proof (len_nonneg (hf h0)).
  exists (mkHeap (hf h) (upd (hs h) (sl_arr o) (upd hd i s))).
  split; [|split; [|exact HO]].
  - unfold runs, wrS. assert (EL : sl_len o = len d) by (rewrite T3; reflexivity).
    assert (EO : sl_off o = 0) by (rewrite T3; reflexivity).
    rewrite EL, EO, (proj2 (inb_true _ _) Hi), T4. cbn [bind]. rewrite Z.add_0_l, zset_ok by lia. cbn [bind].
    rewrite zset_ok by auto. reflexivity.
  - split; cbn; auto.
    + apply Ext_putS; auto. intros s' Hs'. apply In_upd in Hs'. destruct Hs' as [->|Hs'].
      * left. lia.
      * eapply ext_n; eauto.
    + rewrite len_upd. auto.
    + apply zget_upd_same. auto.
    + rewrite !len_upd. auto.
    + intros j s' Hs'. rewrite zget_upd in Hs'. destruct (Z.eqb_spec i j).
      * subst j. rewrite (proj2 (inb_true _ _)) in Hs' by lia. cbn in Hs'. injection Hs' as <-.
        exists r. split; [apply zget_upd_same; auto|right; exact HO].
      * cbn in Hs'. destruct (T6 j s' Hs') as (r' & Hr' & HR). exists r'. split; [rewrite zget_upd_other; auto|exact HR].
    + intros j k s1 s2 H1 H2 E. rewrite zget_upd in H1, H2. rewrite (proj2 (inb_true i (len hd))) in H1, H2 by lia.
      destruct (Z.eqb_spec i j), (Z.eqb_spec i k); cbn in H1, H2; try lia.
      * injection H1 as <-. apply HN in H2. lia.
      * injection H2 as <-. apply HN in H1. lia.
      * eapply T7; eauto.
Qed.
(** A row of the table. *)
Record AtRow (h0 h : heap) (o : slice) (hd : list slice) (d : mat) (i : Z) (s : slice) (r : list F) : Prop := {
  at_t : Tab h0 h o hd d;
  at_s : zget hd i = Ok s;
  at_r : zget d i = Ok r
}.
Lemma Tab_rdS h0 h o hd d i r : Tab h0 h o hd d -> zget d i = Ok r ->
  exists s, runs (rdS o i) h s h /\ AtRow h0 h o hd d i s r.
Proof.
  intros HT Hg. pose proof (zget_range _ _ _ Hg) as Hr. destruct HT as [T1 T2 T3 T4 T5 T6 T7] eqn:ET.
  destruct (zget_some hd i) as (s & Hs); [lia|]. exists s. split; [|split; auto].
  unfold runs, rdS. assert (EL : sl_len o = len d) by (rewrite T3; reflexivity).
  assert (EO : sl_off o = 0) by (rewrite T3; reflexivity).
  rewrite EL, EO, (proj2 (inb_true _ _) Hr), T4. cbn [bind]. rewrite Z.add_0_l, Hs. reflexivity.
Qed.
Lemma AtRow_Row h0 h o hd d i s r : AtRow h0 h o hd d i s r -> Row h0 h s r.
Proof. intros [HT Hs Hr]. destruct (tb_r _ _ _ _ _ HT i s Hs) as (r' & Hr' & HR). congruence. Qed.
Lemma AtRow_put h0 h o hd d i s r h' r' : AtRow h0 h o hd d i s r -> Own h0 h s r -> Own h0 h' s r' -> Ext h0 h' ->
  hs h' = hs h -> hf h' = upd (hf h) (sl_arr s) r' -> AtRow h0 h' o hd (upd d i r') i s r'.
Proof.
  intros [HT Hs Hr] HO HO' He Eh Ef. destruct HT as [T1 T2 T3 T4 T5 T6 T7].
  pose proof (zget_range _ _ _ Hr) as Hir.
  split; auto; [|apply zget_upd_same; auto]. split; auto.
  - rewrite len_upd. auto.
  - rewrite Eh. auto.
  - rewrite len_upd. auto.
  - intros j s' Hs'. destruct (Z.eq_dec i j) as [<-|n].
    + exists r'. split; [apply zget_upd_same; auto|]. rewrite Hs in Hs'. injection Hs' as <-. right. auto.
    + destruct (T6 j s' Hs') as (q & Hq & HR). exists q. split; [rewrite zget_upd_other; auto|].
      destruct HR as [HR|(A & B & C)]; [left; auto|right]. split; [auto|split; auto]. rewrite Ef, zget_upd_other; auto.
      intros E. destruct (T7 i j s s' Hs Hs' E) as [?|E']; [contradiction|].
      destruct HO as (HO1 & _). pose proof (len_nonneg (hf h0)). lia.
Qed.
Lemma zset_own h0 h s (r : list F) i x r' : Row h0 h s r -> zset r i x = Ok r' -> Own h0 h s r.
Proof. intros [[_ ->]|H] Hz; auto. apply zset_inv in Hz. cbn in Hz. destruct Hz as [Hz _]. unfold len in Hz; cbn in Hz. lia. Qed.
Lemma AtRow_wrF h0 h o hd d i s r j x r' : AtRow h0 h o hd d i s r -> zset r j x = Ok r' ->
  exists h', runs (wrF s j x) h tt h' /\ AtRow h0 h' o hd (upd d i r') i s r'.
Proof.
  intros HA Hz. pose proof (zset_own _ _ _ _ _ _ _ (AtRow_Row _ _ _ _ _ _ _ _ HA) Hz) as HO.
  destruct (runs_wrF h0 h s r j x r' (tb_e _ _ _ _ _ (at_t _ _ _ _ _ _ _ _ HA)) HO Hz) as (h' & R & HO' & He & Eh & Ef).
  exists h'. split; auto. eapply AtRow_put; eauto.
Qed.
Lemma upd_id {A} (l : list A) i x : zget l i = Ok x -> upd l i x = l.
Proof.
  intros H. apply zget_nth in H. destruct H as [Hi H]. unfold upd. rewrite (proj2 (Z.leb_le 0 i)) by lia.
  revert H. generalize (Z.to_nat i). clear. induction l; intros [|n]; cbn; intros H; try discriminate; auto.
  - congruence.
  - f_equal. auto.
Qed.
Lemma gocopy_nil h d s : sl_arr d = -1 -> runs (gocopy d s) h tt h.
Proof. intros E. unfold runs, gocopy. rewrite E, zget_panic by lia. reflexivity. Qed.
Lemma AtRow_copyrange h0 h o hd d i s r a b q k l t r' :
  AtRow h0 h o hd d i s r -> VRep h t q -> slice_copy r a b q k l = Ok r' ->
  exists h', runs (copyrange s a b t k l) h tt h' /\ AtRow h0 h' o hd (upd d i r') i s r'.
Proof.
  intros HA HV Hs. destruct (AtRow_Row _ _ _ _ _ _ _ _ HA) as [[-> ->]|HO].
  - exists h. unfold slice_copy in Hs. destruct (_ && _) eqn:E in Hs; [|discriminate].
    rewrite !andb_true_iff, !Z.leb_le in E. destruct E as (((((E1 & E2) & E3) & E4) & E5) & E6).
    rewrite len_nil in E3. assert (a = 0) by lia. assert (b = 0) by lia. subst a b.
    replace (Z.min (0 - 0) (l - k)) with 0 in Hs by lia. cbn in Hs. injection Hs as <-.
    split; [|rewrite upd_id by apply HA; auto].
    eapply runs_bind; [reflexivity|]. destruct (runs_reslice h t q k l HV) as [R2 V2]; [lia..|].
    eapply runs_bind; [exact R2|]. apply gocopy_nil. reflexivity.
  - destruct (runs_copyrange h0 h s r a b t q k l r' (tb_e _ _ _ _ _ (at_t _ _ _ _ _ _ _ _ HA)) HO HV Hs) as (h' & R & HO' & He & Eh & Ef).
    exists h'. split; auto. eapply AtRow_put; eauto.
Qed.
Lemma AtRow_gocopy h0 h o hd d i s r q t r' :
  AtRow h0 h o hd d i s r -> VRep h t q -> slice_copy r 0 (len r) q 0 (len q) = Ok r' ->
  exists h', runs (gocopy s t) h tt h' /\ AtRow h0 h' o hd (upd d i r') i s r'.
Proof.
  intros HA HV Hs. destruct (AtRow_Row _ _ _ _ _ _ _ _ HA) as [[-> ->]|HO].
  - exists h. split; [apply gocopy_nil; reflexivity|]. pose proof (len_nonneg q).
    unfold slice_copy in Hs. destruct (_ && _) eqn:E in Hs; [|discriminate].
    change (len []) with 0 in Hs. replace (Z.min (0 - 0) (len q - 0)) with 0 in Hs by lia. cbn in Hs. injection Hs as <-.
    rewrite upd_id by apply HA. auto.
  - destruct (runs_gocopy h0 h s r t q r' (tb_e _ _ _ _ _ (at_t _ _ _ _ _ _ _ _ HA)) HO HV Hs) as (h' & R & HO' & He & Eh & Ef).
    exists h'. split; auto. eapply AtRow_put; eauto.
Qed.
Lemma upd_upd {A} (m : list A) b x y : upd (upd m b x) b y = upd m b y.
Proof.
  unfold upd. destruct (0 <=? b); auto. generalize (Z.to_nat b).
  induction m; intros [|n]; simpl; auto. f_equal; auto.
Qed.
Lemma Tab_wr2 h0 h o hd d i j x d' : Tab h0 h o hd d -> mset d i j x = Ok d' ->
  exists h', runs (wr2 o i j x) h tt h' /\ Tab h0 h' o hd d'.
Proof.
  intros HT Hm. unfold mset in Hm. destruct (zget d i) as [r| |] eqn:Er; cbn in Hm; try discriminate.
  destruct (zset r j x) as [r'| |] eqn:Er'; cbn in Hm; try discriminate.
  apply zset_inv in Hm. destruct Hm as [Hi ->].
  destruct (Tab_rdS _ _ _ _ _ _ _ HT Er) as (s & Rs & HA).
  destruct (AtRow_wrF _ _ _ _ _ _ _ _ _ _ _ HA Er') as (h' & R & HA'). exists h'.
  split; [eapply runs_bind; eauto|]. apply HA'.
Qed.
(** A new row: made, put into the table and read back. *)
Lemma Tab_row h0 h o hd d n l i : Tab h0 h o hd d -> make fzero n = Ok l -> 0 <= i < len d ->
  exists s h1 h2 hd', runs (makeF n) h s h1 /\ runs (wrS o i s) h1 tt h2 /\
    runs (rdS o i) h2 s h2 /\ AtRow h0 h2 o hd' (upd d i l) i s l.
Proof.
  intros HT Hm Hi. destruct (Tab_newF _ _ _ _ _ _ _ HT Hm) as (s & h1 & R1 & HL).
  destruct (Loose_wrS _ _ _ _ _ _ _ _ HL Hi) as (h2 & R2 & HT2 & HO).
  destruct (Tab_rdS h0 h2 o (upd hd i s) (upd d i l) i l HT2) as (s' & R3 & HA); [apply zget_upd_same; auto|].
  exists s, h1, h2, (upd hd i s). assert (s' = s).
  { pose proof (at_s _ _ _ _ _ _ _ _ HA) as E. rewrite zget_upd_same in E by (rewrite (tb_l _ _ _ _ _ HT); auto). congruence. }
  subst s'. auto.
Qed.
End Sim.

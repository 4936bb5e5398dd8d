(** Vectors on the heap: what the copying methods return, and writes between
    vectors that share storage. *)
From Coq Require Import ZArith List Lia Bool.
From Verif Require Import Base BaseLemmas Scalar Matrix MatSpec MatFacts Array2DFacts Heap HeapSpec HeapFacts HeapIndep HeapSim HeapSim2 HeapSim3 HeapMain.
Import ListNotations.
Open Scope Z_scope.

Section Vec.
Context {O : Ops}.

Lemma VRep_slots h s l : VRep h s l -> (forall j x, zget l j = Ok x -> slot h (sl_arr s) (sl_off s + j) = Ok x).
Proof.
  intros (Hc & Hl & Ho & Hcap) j x Hg. destruct (window_get (hf h) s l j x Hc Hl Ho Hg) as (a & Ha & Hx).
  unfold slot. rewrite Ha. exact Hx.
Qed.
Lemma HVecIs_ext h0 h s n g : Ext h0 h -> HVecIs h0 s n g -> HVecIs h s n g.
Proof. intros He (l & HV & H). exists l. split; auto. eapply VRep_ext; eauto. Qed.
Lemma HVIs_ext h0 h v n g : Ext h0 h -> HVIs h0 v n g -> HVIs h v n g.
Proof. destruct v; cbn; auto. apply HVecIs_ext. Qed.
Lemma HVIs_dim h v n g : HVIs h v n g -> hv_dim v = n /\ 0 <= n.
Proof.
  destruct v; cbn; intros H.
  - destruct H as (l & (_ & Hl & _) & E & _). rewrite Hl, E. split; auto. rewrite <- E. apply len_nonneg.
  - destruct H as [<- _]. split; auto. apply len_nonneg.
Qed.
Lemma HVIs_At h v n g i : HVIs h v n g -> 0 <= i < n -> runs (hv_At v i) h (g i) h.
Proof.
  intros H Hi. destruct (HVIs_dim _ _ _ _ H) as [E _]. unfold hv_At, runs. rewrite E, (proj2 (inb_true _ _) Hi).
  destruct v; cbn in H.
  - destruct H as (l & HV & Hl & Hg). apply (runs_rdF h s l i (g i) HV); auto.
  - destruct H as [_ Hg]. rewrite Hg by auto. reflexivity.
Qed.

(** A new vector filled one entry at a time. *)
Lemma fill_new h0 h n (f : Z -> F) (B : slice -> Z -> unit -> M unit) (k : slice -> M slice) :
  Ext h0 h -> 0 <= n ->
  (forall s, k s = ret s) ->
  (forall s i h, sl_len s = n -> 0 <= i < n -> Ext h0 h -> B s i tt h = wrF s i (f i) h) ->
  goes (let! d := makeF n in let! _ := mfor 0 n (B d) tt in k d) h (fun s h' => HVecIs h' s n f).
Proof.
  intros He Hn Hk HB. eapply g_bind, g_imp.
  - eapply g_makeF; eauto. apply make_ok; auto.
  - cbv beta. intros s h1 HO. 
    assert (W : wp (for_ 0 n (fun i r => zset r i (f i)) (repeat fzero (Z.to_nat n))) (fun r => VTab r n f)).
    { apply (wp_fill 0 n _ f); [lia|rewrite len_repeat; lia|auto|].
      intros r E Hr. rewrite len_repeat in * by lia. split; auto. intros j Hj. rewrite Hr by lia.
      rewrite (proj2 (Z.leb_le 0 j)), (proj2 (Z.ltb_lt j n)) by lia. reflexivity. }
    destruct W as (r & Er & HV). eapply g_bind, g_imp.
    + eapply fill_for; [exact HO|exact Er|]. intros i h2 r1 r2 Hi HO2 Hz.
      destruct (g_wrF _ _ _ _ _ _ _ HO2 Hz) as ([] & h3 & R & HO3).
      assert (El : sl_len s = n).
      { destruct HO as [(_ & Es & _) _]. rewrite Es. cbn. apply len_repeat. auto. }
      exists tt, h3. split; auto. pose proof (HB s i h2 El Hi (proj2 HO2)) as R2.
      unfold runs in *. rewrite R2. exact R.
    + cbv beta. intros [] h2 HO2. rewrite Hk. apply g_ret. eapply OwnE_HVec; eauto.
Qed.
Lemma mv_NewCopy h v n g : HVIs h v n g -> returns (h_NewArrayRealVectorCopy v) h (fun h' s => HVecIs h' s n g).
Proof.
  intros H. destruct (HVIs_dim _ _ _ _ H) as [E Hn]. unfold h_NewArrayRealVectorCopy. rewrite E.
  assert (G : goes (let! d := makeF n in let! _ := mfor 0 n (fun i (_ : unit) => let! x := hv_At v i in wrF d i x) tt in ret d) h
                (fun s h' => HVecIs h' s n g)).
  { apply (fill_new h h n g (fun d i _ => let! x := hv_At v i in wrF d i x) ret (Ext_refl h)); auto.
    intros s i h1 _ Hi He. unfold mbind. pose proof (HVIs_At h1 v n g i (HVIs_ext _ _ _ _ _ He H) Hi) as R. unfold runs in R.
    rewrite R. reflexivity. }
  destruct G as (s & h' & R & HV). exists s, h'. split; auto. unfold runs in R. rewrite <- R.
  unfold mbind. unfold makeF. destruct (n <? 0); auto. unfold newF. cbn. rewrite len_repeat by auto. reflexivity.
Qed.
Lemma mv_Copy h s n g : HVecIs h s n g -> returns (h_Copy s) h (fun h' s' => HVecIs h' s' n g).
Proof. intros H. apply (mv_NewCopy h (HArr s)). exact H. Qed.
Lemma mv_FromSlice h s n g : HVecIs h s n g -> sl_arr s <> -1 ->
  returns (h_NewArrayRealVectorFromSlice s) h (fun h' s' => HVecIs h' s' n g).
Proof.
  intros H Hn. unfold h_NewArrayRealVectorFromSlice, isnil. rewrite (proj2 (Z.eqb_neq _ _) Hn). apply mv_append. auto.
Qed.
Lemma mv_Add h s v n g f : HVecIs h s n g -> HVIs h v n f -> returns (h_Add s v) h (fun h' s' => HVecIs h' s' n (fun i => (g i + f i)%f)).
Proof.
  intros Hs H. destruct (HVIs_dim _ _ _ _ H) as [E Hn]. destruct (HVIs_dim _ (HArr s) _ _ Hs) as [E' _]. cbn in E'.
  unfold h_Add. rewrite E, E', Z.eqb_refl. cbn [negb].
  destruct (fill_new h h n (fun i => (g i + f i)%f) (fun d i _ => let! x := rdF s i in let! y := hv_At v i in wrF d i (x + y)%f) ret (Ext_refl h))
    as (s' & h' & R & HV); auto; [|exists s', h'; auto].
  intros s' i h1 _ Hi He. unfold mbind. pose proof (HVIs_At h1 v n f i (HVIs_ext _ _ _ _ _ He H) Hi) as R. unfold runs in R.
  destruct (HVecIs_ext _ _ _ _ _ He Hs) as (l & HVR & Hl & Hg).
  pose proof (runs_rdF h1 s l i (g i) HVR (Hg i Hi)) as R1. unfold runs in R1. rewrite R1, R. reflexivity.
Qed.

(** copy into part of a new vector *)
Lemma own_part h0 h d r lo hi s q n : OwnE h0 d r h -> VRep h s q -> 0 <= lo <= hi -> hi <= len r -> n = len q ->
  goes (let! x := reslice d lo hi in gocopy x s) h (fun _ h' => OwnE h0 d (firstn (Z.to_nat lo) r ++
    firstn (Z.to_nat (Z.min (hi - lo) n)) q ++ skipn (Z.to_nat (lo + Z.min (hi - lo) n)) r) h').
Proof.
  intros HO HV Hlo Hhi ->. pose proof (len_nonneg q).
  assert (ES : slice_copy r lo hi q 0 (len q) = Ok (firstn (Z.to_nat lo) r ++
    firstn (Z.to_nat (Z.min (hi - lo) (len q))) q ++ skipn (Z.to_nat (lo + Z.min (hi - lo) (len q))) r)).
  { unfold slice_copy. rewrite (proj2 (Z.leb_le 0 lo)), (proj2 (Z.leb_le lo hi)), (proj2 (Z.leb_le hi (len r))),
      (proj2 (Z.leb_le 0 (len q))), !Z.leb_refl by lia. cbn [andb Z.leb]. rewrite Z.sub_0_r. reflexivity. }
  destruct (g_copyrange _ _ _ _ _ _ _ _ _ _ _ HO HV ES) as (u & h' & R & HO'). exists u, h'. split; auto.
  unfold runs in *. rewrite <- R. unfold copyrange. unfold mbind.
  assert (RR : reslice s 0 (len q) h = (Ok s, h)).
  { destruct HV as (_ & El & Ho & Hc). unfold reslice. rewrite (proj2 (Z.leb_le 0 (len q))), (proj2 (Z.leb_le (len q) (sl_cap s))) by lia.
    cbn. unfold ret. f_equal. f_equal. destruct s; cbn in *. f_equal; lia. }
  destruct (reslice d lo hi h) as [[x| |] h2] eqn:E2; auto.
  assert (h2 = h) by (unfold reslice in E2; destruct (_ && _) in E2; cbv in E2; congruence). subst h2. rewrite RR. reflexivity.
Qed.
Lemma app_split (l1 l2 : list F) (z : F) n1 n2 : len l1 = n1 -> len l2 = n2 ->
  firstn (Z.to_nat n1) (firstn (Z.to_nat 0) (repeat z (Z.to_nat (n1 + n2))) ++
    firstn (Z.to_nat n1) l1 ++ skipn (Z.to_nat n1) (repeat z (Z.to_nat (n1 + n2)))) = l1.
Proof.
  intros H1 H2. pose proof (len_nonneg l1). cbn [Z.to_nat firstn app].
  unfold len in *. rewrite <- H1, !Nat2Z.id. rewrite firstn_all. rewrite firstn_app, firstn_all, Nat.sub_diag. cbn. apply app_nil_r.
Qed.
Lemma mv_FromTwo h s1 s2 n1 n2 g1 g2 : HVecIs h s1 n1 g1 -> HVecIs h s2 n2 g2 ->
  returns (h_FromTwo s1 s2) h (fun h' s => HVecIs h' s (n1 + n2) (fun i => if i <? n1 then g1 i else g2 (i - n1))).
Proof.
  intros H1 H2. destruct (HVecIs_elim _ _ _ _ H1) as (l1 & HV1 & E1 & HT1). destruct (HVecIs_elim _ _ _ _ H2) as (l2 & HV2 & E2 & HT2).
  pose proof HV1 as (_ & L1 & _). pose proof HV2 as (_ & L2 & _). pose proof (len_nonneg l1). pose proof (len_nonneg l2).
  assert (G : goes (h_FromTwo s1 s2) h (fun s h' => exists r, OwnE h s r h' /\ r = l1 ++ l2)).
  { unfold h_FromTwo. rewrite L1, L2, E1, E2. eapply g_bind, g_imp; [eapply g_makeF; [apply Ext_refl|apply make_ok; lia]|].
    cbv beta. intros s h1 HO.
    assert (Len : len (repeat fzero (Z.to_nat (n1 + n2))) = n1 + n2) by (apply len_repeat; lia).
    destruct (own_part _ _ _ _ 0 n1 s1 l1 n1 HO (VRep_ext _ _ _ _ (proj2 HO) HV1)) as ([] & h2 & R2 & HO2); [lia..|].
    rewrite Z.sub_0_r, Z.min_id, Z.add_0_l in HO2.
    set (r1 := firstn (Z.to_nat 0) _ ++ _) in HO2.
    assert (Er1 : len r1 = n1 + n2).
    { subst r1. rewrite !len_app, !len_firstn, len_skipn, Len by lia. lia. }
    destruct (own_part _ _ _ _ n1 (n1 + n2) s2 l2 n2 HO2 (VRep_ext _ _ _ _ (proj2 HO2) HV2)) as ([] & h3 & R3 & HO3); [lia..|].
    replace (n1 + n2 - n1) with n2 in HO3 by lia. rewrite Z.min_id in HO3.
    exists s, h3. split.
    - unfold runs, mbind in *. destruct (reslice s 0 n1 h1) as [[x| |] h1'] eqn:Ex; try discriminate.
      rewrite R2. destruct (reslice s n1 (n1 + n2) h2) as [[y| |] h2'] eqn:Ey; try discriminate. rewrite R3. reflexivity.
    - eexists. split; [exact HO3|]. subst r1.
      rewrite (app_split l1 l2 fzero n1 n2 E1 E2). f_equal.
      rewrite (skipn_all2 _ (n := Z.to_nat (n1 + n2))) by (unfold len in Er1; lia). rewrite app_nil_r.
      unfold len in E2. rewrite <- E2, Nat2Z.id. apply firstn_all. }
  destruct G as (s & h' & R & r & HO & ->). exists s, h'. split; auto.
  eapply OwnE_HVec; eauto. split; [rewrite len_app; lia|].
  intros j Hj. rewrite nthZ_app by lia. rewrite E1. destruct (Z.ltb_spec j n1); [apply HT1; lia|apply HT2; lia].
Qed.
Lemma mv_Append h s n g x : HVecIs h s n g -> returns (h_Append s x) h (fun h' s' => HVecIs h' s' (n + 1) (fun i => if i <? n then g i else x)).
Proof.
  intros H. destruct (HVecIs_elim _ _ _ _ H) as (l & HV & E & HT).
  pose proof HV as (_ & L & _). pose proof (len_nonneg l).
  unfold h_Append. rewrite L, E.
  assert (Len : len (repeat fzero (Z.to_nat (n + 1))) = n + 1) by (apply len_repeat; lia).
  destruct (g_makeF h h (n + 1) _ (Ext_refl h) (make_ok fzero (n + 1) ltac:(lia))) as (s' & h1 & R1 & HO).
  destruct (own_part _ _ _ _ 0 n s l n HO (VRep_ext _ _ _ _ (proj2 HO) HV)) as ([] & h2 & R2 & HO2); [lia..|].
  rewrite Z.sub_0_r, Z.min_id, Z.add_0_l in HO2.
  set (r1 := firstn (Z.to_nat 0) _ ++ _) in HO2.
  assert (Er1 : len r1 = n + 1).
  { subst r1. rewrite !len_app, !len_firstn, len_skipn, Len by lia. lia. }
  assert (Ez : zset r1 n x = Ok (upd r1 n x)) by (apply zset_ok; lia).
  destruct (g_wrF _ _ _ _ _ _ _ HO2 Ez) as ([] & h3 & R3 & HO3).
  exists s', h3. split.
  - unfold runs, mbind in *. rewrite R1. destruct (reslice s' 0 n h1) as [[y| |] h1'] eqn:Ey; try discriminate.
    rewrite R2, R3. unfold h_NewArrayRealVector. destruct HO3 as [(A & _) _]. unfold isnil.
    rewrite (proj2 (Z.eqb_neq (sl_arr s') (-1))) by (pose proof (len_nonneg (hf h)); lia). reflexivity.
  - eapply OwnE_HVec; eauto. split; [rewrite len_upd; lia|].
    intros j Hj. rewrite nthZ_upd by lia. destruct (Z.eqb_spec n j).
    + subst j. rewrite Z.ltb_irrefl. reflexivity.
    + rewrite (proj2 (Z.ltb_lt j n)) by lia. rewrite <- HT by lia. subst r1. cbn [Z.to_nat firstn app].
      rewrite nthZ_app by lia. rewrite len_firstn by lia. rewrite Z.min_l by lia. rewrite (proj2 (Z.ltb_lt j n)) by lia.
      apply nthZ_firstn. lia.
Qed.
Lemma mv_SubVector h s n g i m : HVecIs h s n g -> 0 <= i -> 1 <= m -> i + m <= n ->
  returns (h_SubVector s i m) h (fun h' s' => HVecIs h' s' m (fun j => g (i + j))).
Proof.
  intros H Hi Hm Hin. destruct (HVecIs_elim _ _ _ _ H) as (l & HV & E & HT).
  pose proof HV as (_ & L & _). pose proof (len_nonneg l).
  unfold h_SubVector. rewrite (proj2 (Z.ltb_ge m 0)) by lia.
  assert (Len : len (repeat fzero (Z.to_nat m)) = m) by (apply len_repeat; lia).
  destruct (g_makeF h h m _ (Ext_refl h) (make_ok fzero m ltac:(lia))) as (s' & h1 & R1 & HO).
  pose proof (VRep_ext _ _ _ _ (proj2 HO) HV) as HV1.
  assert (ES : exists r, slice_copy (repeat fzero (Z.to_nat m)) 0 m l i (len l) = Ok r /\ VTab r m (fun j => g (i + j))).
  { pose proof (wp_slice_copy (repeat fzero (Z.to_nat m)) 0 m l i (len l)) as W.
    destruct (W (fun r => VTab r m (fun j => g (i + j)))) as (r & Er & Hr); [lia..| |eauto].
    intros r Hr Hv. split; [lia|]. intros j Hj. rewrite Hv by lia.
    rewrite (proj2 (Z.leb_le 0 j)), (proj2 (Z.ltb_lt j (0 + Z.min (m - 0) (len l - i)))) by lia. cbn [andb].
    rewrite HT by lia. f_equal. lia. }
  destruct ES as (r & Er & Hr).
  destruct (g_copyrange _ _ _ _ _ _ _ _ _ _ _ HO HV1 Er) as ([] & h2 & R2 & HO2).
  exists s', h2. split; [|eapply OwnE_HVec; eauto].
  unfold runs, mbind, hcheck, copyrange in *. rewrite R1.
  rewrite (proj2 (inb_true i _)), (proj2 (inb_true (i + m - 1) _)) by lia. cbn [ret].
  unfold mbind in R2. destruct (reslice s' 0 m h1) as [[x| |] h1'] eqn:Ey; try discriminate.
  rewrite L. destruct (reslice s i (len l) h1') as [[y| |] h1''] eqn:Ez; try discriminate. rewrite R2. reflexivity.
Qed.

(** ** Writes between vectors that may share storage *)
Lemma slot_put h a A k x a' k' : zget (hf h) a = Ok A -> 0 <= k < len A ->
  slot (mkHeap (upd (hf h) a (upd A k x)) (hs h)) a' k' = if (a' =? a) && (k' =? k) then Ok x else slot h a' k'.
Proof.
  intros HA Hk. unfold slot. cbn. pose proof (zget_range _ _ _ HA) as Ha. destruct (Z.eqb_spec a' a) as [->|n]; cbn.
  - rewrite zget_upd_same by auto. rewrite HA. cbn. destruct (Z.eqb_spec k' k) as [->|n].
    + apply zget_upd_same; auto.
    + apply zget_upd_other. auto.
  - rewrite zget_upd_other by auto. reflexivity.
Qed.
Lemma slot_inv h a k x : slot h a k = Ok x -> exists A, zget (hf h) a = Ok A /\ zget A k = Ok x.
Proof. unfold slot. destruct (zget (hf h) a) as [A| |]; cbn; try discriminate. eauto. Qed.
Lemma wrF_slot h s i x y : 0 <= i < sl_len s -> slot h (sl_arr s) (sl_off s + i) = Ok y ->
  exists h', runs (wrF s i x) h tt h' /\ hs h' = hs h /\
  forall a k, slot h' a k = if (a =? sl_arr s) && (k =? sl_off s + i) then Ok x else slot h a k.
Proof.
  intros Hi Hs. destruct (slot_inv _ _ _ _ Hs) as (A & HA & Hx). pose proof (zget_range _ _ _ HA). pose proof (zget_range _ _ _ Hx).
  eexists. split; [|split; [|intros; apply slot_put; eauto]].
  - unfold runs, wrF. rewrite (proj2 (inb_true _ _) Hi), HA. cbn. rewrite zset_ok by auto. cbn. rewrite zset_ok by auto. reflexivity.
  - reflexivity.
Qed.
Lemma rdF_slot h s i x : 0 <= i < sl_len s -> slot h (sl_arr s) (sl_off s + i) = Ok x -> runs (rdF s i) h x h.
Proof.
  intros Hi Hs. unfold runs, rdF. rewrite (proj2 (inb_true _ _) Hi). f_equal. exact Hs.
Qed.
Lemma zget_blit l : forall (A : list F) i k, 0 <= i -> i + len l <= len A ->
  zget (blit A i l) k = if (i <=? k) && (k <? i + len l) then zget l (k - i) else zget A k.
Proof.
  intros A i k Hi Hl. rewrite blit_eq by auto. pose proof (len_nonneg l).
  destruct (Z_lt_le_dec k 0) as [N|N].
  { rewrite (proj2 (Z.leb_gt i k)) by lia. cbn. rewrite !zget_panic by lia. reflexivity. }
  destruct (Z_lt_le_dec k (len A)) as [N2|N2].
  - rewrite zget_ok by (rewrite !len_app, len_firstn, len_skipn by lia; lia).
    rewrite !nthZ_app by lia. rewrite len_firstn by lia. rewrite Z.min_l by lia.
    destruct (Z.ltb_spec k i).
    + rewrite (proj2 (Z.leb_gt i k)) by lia. cbn. rewrite zget_ok by lia. f_equal. apply nthZ_firstn. lia.
    + rewrite (proj2 (Z.leb_le i k)) by lia. cbn. rewrite nthZ_app by lia.
      destruct (Z.ltb_spec (k - i) (len l)).
      * rewrite (proj2 (Z.ltb_lt k (i + len l))) by lia. rewrite zget_ok by lia. reflexivity.
      * rewrite (proj2 (Z.ltb_ge k (i + len l))) by lia. rewrite zget_ok by lia. rewrite nthZ_skipn by lia. f_equal. f_equal. lia.
  - rewrite (proj2 (Z.ltb_ge k (i + len l))) by lia. rewrite andb_false_r.
    rewrite !zget_panic; auto; rewrite ?len_app, ?len_firstn, ?len_skipn by lia; lia.
Qed.
Lemma cont_len h s : inheap h s -> 0 <= sl_len s -> len (cont h s) = sl_len s.
Proof.
  intros (Ho & _ & Hs) Hl. destruct (Z.eq_dec (sl_len s) 0) as [E|E].
  - unfold cont, window. rewrite E. destruct (zget _ _); reflexivity.
  - destruct (Hs (sl_len s - 1)) as (x & Hx); [lia|]. destruct (slot_inv _ _ _ _ Hx) as (A & HA & HxA).
    apply zget_range in HxA. unfold cont, window. rewrite HA, len_firstn, len_skipn by lia. lia.
Qed.
Lemma cont_get h s j : inheap h s -> 0 <= j < sl_len s -> zget (cont h s) j = slot h (sl_arr s) (sl_off s + j).
Proof.
  intros HI Hj. pose proof HI as (Ho & _ & Hs). destruct (Hs j Hj) as (x & Hx). rewrite Hx.
  destruct (slot_inv _ _ _ _ Hx) as (A & HA & HxA).
  unfold cont, window. rewrite HA. apply zget_nth. split; [lia|]. rewrite nth_error_window by lia.
  apply zget_nth in HxA. apply HxA.
Qed.
Lemma gocopy_slot h d s : inheap h d -> inheap h s -> sl_len d = sl_len s -> 1 <= sl_len d ->
  exists h', runs (gocopy d s) h tt h' /\ hs h' = hs h /\
  forall a k, slot h' a k = if (a =? sl_arr d) && ((sl_off d <=? k) && (k <? sl_off d + sl_len d))
                            then slot h (sl_arr s) (sl_off s + (k - sl_off d)) else slot h a k.
Proof.
  intros HD HS El Hl. pose proof HD as (Ho & _ & Hd). pose proof (cont_len h s HS ltac:(lia)) as LC.
  destruct (Hd (sl_len d - 1)) as (x & Hx); [lia|]. destruct (slot_inv _ _ _ _ Hx) as (A & HA & HxA).
  apply zget_range in HxA. unfold runs, gocopy. rewrite HA, El, Z.min_id.
  rewrite firstn_all2 by (unfold len in LC; lia).
  eexists. split; [reflexivity|]. split; [reflexivity|]. intros a k. unfold slot at 1. cbn. pose proof (zget_range _ _ _ HA).
  destruct (Z.eqb_spec a (sl_arr d)) as [->|n]; cbn.
  - rewrite zget_upd_same by auto. cbn. rewrite zget_blit by lia. rewrite LC.
    destruct (Z.leb_spec (sl_off d) k), (Z.ltb_spec k (sl_off d + sl_len s)); cbn; try (unfold slot; rewrite HA; reflexivity).
    apply cont_get; auto. lia.
  - rewrite zget_upd_other by auto. reflexivity.
Qed.

(** One by one from a RealVector: [fin k] is what place [p + k] ends with. *)
Definition vsrc (v : HVec) (j : Z) (h : heap) : res F := vval h v j.
Definition moved (s : slice) (p n : Z) (h : heap) (fin : Z -> res F) (a k : Z) : res F :=
  if (a =? sl_arr s) && ((p <=? k) && (k <? p + n)) then fin (k - p) else slot h a k.
Lemma At_vsrc h v j x : vok h v -> 0 <= j < hv_dim v -> vsrc v j h = Ok x -> runs (hv_At v j) h x h.
Proof.
  intros HO Hj Hx. unfold hv_At. rewrite (proj2 (inb_true _ _) Hj). destruct v; cbn in *.
  - apply rdF_slot; auto.
  - unfold runs. rewrite Hx. reflexivity.
Qed.
Lemma mfor_inv (Inv : Z -> heap -> Prop) lo hi (B : Z -> unit -> M unit) h : lo <= hi -> Inv lo h ->
  (forall i h, lo <= i < hi -> Inv i h -> goes (B i tt) h (fun _ => Inv (i + 1))) ->
  goes (mfor lo hi B tt) h (fun _ => Inv hi).
Proof.
  intros Hl H0 HB.
  destruct (wp_for (fun _ _ => True) lo hi (fun _ (u : unit) => Ok u) tt (fun _ => True)) as (u & E & _); auto.
  { intros. exists s. auto. }
  eapply g_imp; [apply (g_for (fun i (_ : unit) (_ : unit) => Inv i) lo hi _ B tt tt h u E); auto|].
  - intros i [] [] h1 p1 Hi HI _. apply HB; auto.
  - cbn. intros [] h1. rewrite Z.max_r by lia. auto.
Qed.
Lemma copy_loop h s i0 v n fin : inheap h s -> vok h v -> 0 <= i0 -> hv_dim v = n -> 0 <= n -> i0 + n <= sl_len s ->
  (forall k, 0 <= k < n -> (exists x, fin k = Ok x) /\
     fin k = vsrc v k h \/
     exists sv d, v = HArr sv /\ sl_arr sv = sl_arr s /\ d = sl_off sv - (sl_off s + i0) /\ d < 0 /\ 0 <= k + d /\ fin k = fin (k + d) /\ exists x, fin k = Ok x) ->
  (forall k, 0 <= k < n -> fin k = vsrc v k h -> forall sv, v = HArr sv -> sl_arr sv = sl_arr s ->
     let d := sl_off sv - (sl_off s + i0) in k + d < 0 \/ 0 <= d \/ fin (k + d) = fin k) ->
  goes (mfor i0 (i0 + n) (fun i (_ : unit) => let! x := hv_At v (i - i0) in wrF s i x) tt) h
    (fun _ h' => hs h' = hs h /\ forall a k, slot h' a k = moved s (sl_off s + i0) n h fin a k).
Proof.
  intros HS HV Hi0 En Hn Hle Hfin Hfin2.
  assert (Hok : forall k, 0 <= k < n -> exists x, fin k = Ok x).
  { intros k Hk. destruct (Hfin k Hk) as [[X _]|(sv & d & _ & _ & _ & _ & _ & _ & X)]; auto. }
  set (p := sl_off s + i0).
  eapply g_imp; [apply (mfor_inv (fun i h' => hs h' = hs h /\ forall a k, slot h' a k = moved s p (i - i0) h fin a k))|].
  - lia.
  - split; auto. intros a k. unfold moved. rewrite Z.sub_diag.
    destruct (Z.leb_spec p k), (Z.ltb_spec k (p + 0)); try lia; cbn; rewrite ?andb_false_r; reflexivity.
  - intros i h1 Hi [Eh Hs1]. destruct (Hok (i - i0)) as (x & Hx); [lia|].
    assert (Slot : forall t, inheap h t -> inheap h1 t).
    { intros t (T1 & T2 & T3). split; [auto|split; auto]. intros j Hj. rewrite Hs1. unfold moved.
      destruct (_ && _) eqn:EE; [|apply T3; auto].
      rewrite !andb_true_iff, Z.leb_le, Z.ltb_lt in EE. apply Hok. lia. }
    assert (HX : vsrc v (i - i0) h1 = Ok x).
    { destruct v as [sv|d]; cbn.
      - rewrite Hs1. unfold moved. destruct (Z.eqb_spec (sl_arr sv) (sl_arr s)) as [Ea|Ea]; cbn [andb].
        + set (dd := sl_off sv - (sl_off s + i0)).
          replace (sl_off sv + (i - i0)) with (p + (i - i0 + dd)) by (subst p dd; lia).
          replace (p + (i - i0 + dd) - p) with (i - i0 + dd) by lia.
          destruct (Hfin (i - i0)) as [[_ E]|(sv' & d & E & _ & Ed & Hd & Hkd & Ef & _)]; [lia| |].
          * destruct (Z.leb_spec p (p + (i - i0 + dd))), (Z.ltb_spec (p + (i - i0 + dd)) (p + (i - i0))); cbn [andb].
            -- destruct (Hfin2 (i - i0) ltac:(lia) E sv eq_refl Ea) as [Q|[Q|Q]]; cbv zeta in Q; fold dd in Q; try lia. congruence.
            -- rewrite <- Hx, E. cbn. f_equal. subst p dd. lia.
            -- rewrite <- Hx, E. cbn. f_equal. subst p dd. lia.
            -- rewrite <- Hx, E. cbn. f_equal. subst p dd. lia.
          * injection E as <-. fold dd in Ed. subst d.
            rewrite (proj2 (Z.leb_le p (p + (i - i0 + dd)))), (proj2 (Z.ltb_lt (p + (i - i0 + dd)) (p + (i - i0)))) by lia.
            cbn [andb]. congruence.
        + destruct (Hfin (i - i0)) as [[_ E]|(sv' & d & E & Ea' & _)]; [lia| |].
          * rewrite <- Hx, E. reflexivity.
          * injection E as <-. contradiction.
      - destruct (Hfin (i - i0)) as [[_ E]|(sv' & d' & E & _)]; [lia| |discriminate]. rewrite <- Hx, E. reflexivity. }
    eapply g_step; [apply At_vsrc; [destruct v; cbn in *; auto|lia|exact HX]|].
    destruct (HS) as (Ho & Hc & Hss). destruct (Slot s HS) as (_ & _ & Hy). destruct (Hy i) as (y & Hy'); [lia|].
    destruct (wrF_slot h1 s i x y ltac:(lia) Hy') as (h2 & R & E2 & H2). eapply g_runs; [exact R|].
    split; [congruence|]. intros a k. rewrite H2, Hs1. unfold moved. destruct (Z.eqb_spec a (sl_arr s)); cbn [andb]; auto.
    destruct (Z.eqb_spec k (sl_off s + i)) as [->|Nk]; cbn [andb].
    + rewrite (proj2 (Z.leb_le p (sl_off s + i))), (proj2 (Z.ltb_lt (sl_off s + i) (p + (i + 1 - i0)))) by (subst p; lia).
      cbn [andb]. rewrite <- Hx. f_equal. subst p. lia.
    + destruct (Z.leb_spec p k), (Z.ltb_spec k (p + (i - i0))), (Z.ltb_spec k (p + (i + 1 - i0))); cbn [andb]; auto; subst p; lia.
  - cbv beta. intros _ h1 [E1 E2]. split; auto. intros a k. rewrite E2. f_equal. lia.
Qed.

Lemma copy_loop' h s i0 v n fin : inheap h s -> vok h v -> 0 <= i0 -> hv_dim v = n -> 0 <= n -> i0 + n <= sl_len s ->
  (forall k, 0 <= k < n -> (exists x, fin k = Ok x) /\
     fin k = vsrc v k h \/
     exists sv d, v = HArr sv /\ sl_arr sv = sl_arr s /\ d = sl_off sv - (sl_off s + i0) /\ d < 0 /\ 0 <= k + d /\ fin k = fin (k + d) /\ exists x, fin k = Ok x) ->
  (forall k, 0 <= k < n -> fin k = vsrc v k h -> forall sv, v = HArr sv -> sl_arr sv = sl_arr s ->
     let d := sl_off sv - (sl_off s + i0) in k + d < 0 \/ 0 <= d \/ fin (k + d) = fin k) ->
  goes (mfor i0 (i0 + n) (fun i (_ : unit) => let! x := hv_At v (i - i0) in wrF s i x) tt) h
    (fun _ h' => stored h h' s i0 n fin).
Proof. exact (copy_loop h s i0 v n fin). Qed.

Lemma sub_slice h s i n : inheap h s -> 0 <= i -> 0 <= n -> i + n <= sl_len s ->
  inheap h (mkSl (sl_arr s) (sl_off s + i) (i + n - i) (sl_cap s - i)).
Proof.
  intros (A & B & C) H1 H2 H3. split; [cbn; lia|split; [cbn; lia|]]. cbn. intros j Hj.
  rewrite <- Z.add_assoc. apply C. lia.
Qed.
Lemma mv_SetSubVectorWithSlice h s i v : inheap h s -> inheap h v -> 0 <= i -> 1 <= sl_len v -> i + sl_len v <= sl_len s ->
  goes (h_SetSubVectorWithSlice s i v) h (fun _ h' => stored h h' s i (sl_len v) (vval h (HArr v))).
Proof.
  intros HS HV Hi Hl Hle. unfold h_SetSubVectorWithSlice, hcheck.
  rewrite (proj2 (inb_true i _)), (proj2 (inb_true (i + sl_len v - 1) _)) by lia.
  eapply g_step; [apply runs_ret|]. eapply g_step; [apply runs_ret|]. cbv beta.
  set (d := mkSl (sl_arr s) (sl_off s + i) (i + sl_len v - i) (sl_cap s - i)).
  assert (R : runs (reslice s i (i + sl_len v)) h d h).
  { destruct HS as (_ & Hc & _). unfold runs, reslice.
    rewrite (proj2 (Z.leb_le 0 i)), (proj2 (Z.leb_le i (i + sl_len v))), (proj2 (Z.leb_le (i + sl_len v) (sl_cap s))) by lia. reflexivity. }
  eapply g_step; [exact R|]. cbv beta.
  destruct (gocopy_slot h d v) as (h' & R' & E & H'); auto; [apply sub_slice; auto; lia|subst d; cbn; lia|subst d; cbn; lia|].
  eapply g_runs; [exact R'|]. split; auto. intros a k. rewrite H'. subst d. cbn.
  replace (i + sl_len v - i) with (sl_len v) by lia. reflexivity.
Qed.
Lemma stored_inheap h h' s i n val t : stored h h' s i n val -> (forall k, 0 <= k < n -> exists x, val k = Ok x) -> inheap h t -> inheap h' t.
Proof.
  intros [_ Hs] Hv (A & B & C). split; [auto|split; auto]. intros j Hj. rewrite Hs.
  destruct (_ && _) eqn:E; [|auto]. rewrite !andb_true_iff, Z.leb_le, Z.ltb_lt in E. apply Hv. lia.
Qed.
Lemma stored_stored h h1 h2 s i n f g : stored h h1 s i n f -> stored h1 h2 s i n g -> stored h h2 s i n g.
Proof.
  intros [E1 H1] [E2 H2]. split; [congruence|]. intros a k. rewrite H2, H1. destruct (_ && _); reflexivity.
Qed.
Lemma vval_ok h v n k : vok h v -> hv_dim v = n -> 0 <= k < n -> exists x, vval h v k = Ok x.
Proof.
  intros HV En Hk. destruct v; cbn in *.
  - destruct HV as (_ & _ & H). apply H. lia.
  - apply zget_some. lia.
Qed.
(** What the code does in every case. *)
Definition endsub (h : heap) (s : slice) (i n : Z) (v : HVec) (k : Z) : res F :=
  match v with
  | HOther _ => vval h v k
  | HArr t =>
    let d := sl_off t - (sl_off s + i) in
    if negb (sl_arr t =? sl_arr s) || (n <=? Z.abs d) || (d =? 0) then vval h v k
    else if 0 <? d then vval h v (if k + d <? n then k + d else k)
    else vval h v (k mod (- d))
  end.
Lemma mv_SetSubVector h s i v n : inheap h s -> vok h v -> hv_dim v = n -> 0 <= i -> 1 <= n -> i + n <= sl_len s ->
  goes (h_SetSubVector s i v) h (fun _ h' => stored h h' s i n (endsub h s i n v)).
Proof.
  intros HS HV En Hi Hl Hle. unfold h_SetSubVector, hcheck. rewrite En.
  rewrite (proj2 (inb_true i _)), (proj2 (inb_true (i + n - 1) _)) by lia.
  eapply g_step; [apply runs_ret|]. eapply g_step; [apply runs_ret|]. cbv beta.
  destruct v as [t|dd].
  - cbn in HV, En. eapply g_bind, g_imp; [apply mv_SetSubVectorWithSlice; auto; lia|]. cbv beta. intros _ h1 H1.
    rewrite En in H1.
    assert (OKv : forall k, 0 <= k < n -> exists x, vval h (HArr t) k = Ok x) by (intros; eapply vval_ok; eauto).
    assert (W : goes (mfor i (i + n) (fun i0 (_ : unit) => let! x := hv_At (HArr t) (i0 - i) in wrF s i0 x) tt) h1
             (fun _ h' => stored h1 h' s i n (endsub h s i n (HArr t)))).
    { assert (OKe : forall k, 0 <= k < n -> exists x, endsub h s i n (HArr t) k = Ok x).
      { intros k Hk. unfold endsub. destruct (_ || _) eqn:E; [apply OKv; auto|].
        rewrite !orb_false_iff, negb_false_iff, Z.eqb_eq, Z.leb_gt, Z.eqb_neq in E.
        destruct (Z.ltb_spec 0 (sl_off t - (sl_off s + i))); [apply OKv; destruct (Z.ltb_spec (k + (sl_off t - (sl_off s + i))) n); lia|].
        pose proof (Z.mod_pos_bound k (- (sl_off t - (sl_off s + i)))). apply OKv. lia. }
      assert (SRC : forall k, 0 <= k < n -> vsrc (HArr t) k h1 =
        let d := sl_off t - (sl_off s + i) in
        if (sl_arr t =? sl_arr s) && ((0 <=? k + d) && (k + d <? n)) then vval h (HArr t) (k + d) else vval h (HArr t) k).
      { intros k Hk. unfold vsrc, vval. destruct H1 as [_ H1]. rewrite H1. cbv zeta.
        set (d := sl_off t - (sl_off s + i)).
        replace (sl_off s + i <=? sl_off t + k) with (0 <=? k + d) by (subst d; destruct (Z.leb_spec 0 (k + (sl_off t - (sl_off s + i)))), (Z.leb_spec (sl_off s + i) (sl_off t + k)); auto; lia).
        replace (sl_off t + k <? sl_off s + i + n) with (k + d <? n) by (subst d; destruct (Z.ltb_spec (k + (sl_off t - (sl_off s + i))) n), (Z.ltb_spec (sl_off t + k) (sl_off s + i + n)); auto; lia).
        destruct (_ && _); auto. unfold vval. f_equal. subst d. lia. }
      apply copy_loop'; auto; try lia.
      - eapply stored_inheap; eauto.
      - eapply stored_inheap; eauto.
      - intros k Hk. rewrite SRC by auto. cbv zeta. specialize (OKe k Hk). unfold endsub in *. 
        set (d := sl_off t - (sl_off s + i)) in *.
        destruct (Z.eqb_spec (sl_arr t) (sl_arr s)) as [Ea|Ea]; cbn [negb orb andb] in *; [|auto].
        destruct (Z.leb_spec n (Z.abs d)); cbn [orb] in *.
        { left. split; auto. destruct (Z.leb_spec 0 (k + d)), (Z.ltb_spec (k + d) n); cbn [andb]; auto; lia. }
        destruct (Z.eqb_spec d 0) as [Ed|Ed].
        { left. split; auto. rewrite Ed, Z.add_0_r. destruct (_ && _); auto. }
        destruct (Z.ltb_spec 0 d).
        { left. split; auto. rewrite (proj2 (Z.leb_le 0 (k + d))) by lia. cbn [andb]. destruct (Z.ltb_spec (k + d) n); auto. }
        destruct (Z_lt_le_dec (k + d) 0).
        { left. split; auto. rewrite (proj2 (Z.leb_gt 0 (k + d))) by lia. cbn [andb]. rewrite Z.mod_small by lia. auto. }
        right. exists t, d. split; auto. split; auto. split; auto. split; [lia|]. split; auto. split; auto.
        f_equal. rewrite <- (Z_mod_plus_full (k + d) 1 (- d)). f_equal. lia.
      - intros k Hk _ sv E Ea. injection E as <-. cbv zeta. unfold endsub. set (d := sl_off t - (sl_off s + i)).
        destruct (Z_lt_le_dec (k + d) 0); [auto|]. destruct (Z_le_gt_dec 0 d); [auto|]. right. right.
        rewrite Ea, Z.eqb_refl, (proj2 (Z.leb_gt n (Z.abs d))), (proj2 (Z.eqb_neq d 0)), (proj2 (Z.ltb_ge 0 d)) by lia. cbn [negb orb].
        f_equal. rewrite <- (Z_mod_plus_full (k + d) 1 (- d)). f_equal. lia. }
    eapply g_imp; [exact W|]. cbv beta. intros _ h2 H2. eapply stored_stored; eauto.
  - eapply g_step; [apply runs_ret|]. cbv beta. apply copy_loop'; auto; try lia.
    + intros k Hk. left. split; [|reflexivity]. eapply vval_ok; eauto.
    + intros. discriminate.
Qed.
Lemma endsub_apart h s i n v k : apart_from s i n v -> 0 <= k < n -> endsub h s i n v k = vval h v k.
Proof.
  destruct v as [t|]; cbn [apart_from endsub]; auto. intros H Hk. cbv zeta.
  destruct (_ || _) eqn:E; auto. rewrite !orb_false_iff, negb_false_iff, Z.eqb_eq, Z.leb_gt, Z.eqb_neq in E. lia.
Qed.

Lemma mup_ext n : forall i (B1 B2 : Z -> unit -> M unit) t h, (forall i t h, B1 i t h = B2 i t h) -> mup n i B1 t h = mup n i B2 t h.
Proof.
  induction n; intros i B1 B2 t h H; cbn; auto. unfold mbind. rewrite H. destruct (B2 i t h) as [[| |] h1]; auto.
Qed.
Definition endcopy (h : heap) (s : slice) (n : Z) (v : HVec) (k : Z) : res F :=
  match v with
  | HOther _ => vval h v k
  | HArr t =>
    let d := sl_off t - sl_off s in
    if negb (sl_arr t =? sl_arr s) || (n <=? Z.abs d) || (0 <=? d) then vval h v k
    else vval h v (k mod (- d))
  end.
Lemma mv_CopyFrom h s v n : inheap h s -> vok h v -> hv_dim v = n -> 0 <= n -> sl_len s = n ->
  goes (h_CopyFrom s v) h (fun _ h' => stored h h' s 0 n (endcopy h s n v)).
Proof.
  intros HS HV En Hn Es. unfold h_CopyFrom. rewrite Es, En, Z.eqb_refl. cbn [negb].
  assert (OKv : forall k, 0 <= k < n -> exists x, vval h v k = Ok x) by (intros; eapply vval_ok; eauto).
  assert (OKe : forall k, 0 <= k < n -> exists x, endcopy h s n v k = Ok x).
  { intros k Hk. unfold endcopy. destruct v as [t|]; [|auto]. cbv zeta. destruct (_ || _) eqn:E; [auto|].
    rewrite !orb_false_iff, negb_false_iff, Z.eqb_eq, !Z.leb_gt in E.
    pose proof (Z.mod_pos_bound k (- (sl_off t - sl_off s))). apply OKv. lia. }
  assert (G : goes (mfor 0 (0 + n) (fun i (_ : unit) => let! x := hv_At v (i - 0) in wrF s i x) tt) h
    (fun _ h' => stored h h' s 0 n (endcopy h s n v))).
  { apply copy_loop'; auto; try lia.
    - intros k Hk. specialize (OKe k Hk). specialize (OKv k Hk). destruct v as [t|]; cbn [endcopy] in *; [|auto]. 
      set (d := sl_off t - sl_off s) in *.
      destruct (Z.eqb_spec (sl_arr t) (sl_arr s)) as [Ea|Ea]; cbn [negb orb] in *; [|auto].
      destruct (Z.leb_spec n (Z.abs d)); cbn [orb] in *; [auto|].
      destruct (Z.leb_spec 0 d); [auto|].
      destruct (Z_lt_le_dec (k + d) 0); [rewrite Z.mod_small in * by lia; auto|].
      right. exists t, d. split; auto. split; auto. split; [subst d; lia|]. split; [lia|]. split; auto. split; auto.
      f_equal. rewrite <- (Z_mod_plus_full (k + d) 1 (- d)). f_equal. lia.
    - intros k Hk _ t -> Ea. cbv zeta. cbn [endcopy]. rewrite !Z.add_0_r. set (d := sl_off t - sl_off s).
      destruct (Z_lt_le_dec (k + d) 0); [auto|]. destruct (Z_le_gt_dec 0 d); [auto|]. right. right.
      rewrite Ea, Z.eqb_refl, (proj2 (Z.leb_gt n (Z.abs d))), (proj2 (Z.leb_gt 0 d)) by lia. cbn [negb orb].
      f_equal. rewrite <- (Z_mod_plus_full (k + d) 1 (- d)). f_equal. lia. }
  destruct G as (u & h' & R & H). exists u, h'. split; auto. unfold runs in *. rewrite <- R. unfold mfor.
  replace (0 + n - 0) with (n - 0) by lia. apply mup_ext. intros. rewrite Z.sub_0_r. reflexivity.
Qed.
End Vec.

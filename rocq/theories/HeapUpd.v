(** What the writers of single entries and the in-place operations of vectors
    leave in memory. *)
From Coq Require Import ZArith List Lia Bool.
From Verif Require Import Base BaseLemmas Scalar Matrix MatSpec MatFacts BlockFacts2 Heap HeapBlk HeapSpec HeapPutSpec HeapAtomSpec HeapFacts HeapSim HeapSim2 HeapSim4 HeapVec HeapMain HeapProps HeapAtom HeapAtomBlk HeapPut HeapPutBlk HeapUpdSpec.
Import ListNotations.
Open Scope Z_scope.

Section Upd.
Context {O : Ops}.
(** ** One place *)
Lemma one_wrF h s i x : inheap h s -> 0 <= i < sl_len s -> exists h', wrF s i x h = (Ok tt, h') /\ stored h h' s i 1 (fun _ => Ok x).
Proof.
  intros (_ & _ & H) Hi. destruct (H i Hi) as (y & Ey). destruct (wrF_slot h s i x y Hi Ey) as (h' & W & Es & H'). exists h'. split; [exact W|]. split; [exact Es|].
  intros a k. rewrite H'. destruct (a =? sl_arr s); cbn [andb]; auto. destruct (Z.eqb_spec k (sl_off s + i)), (Z.leb_spec (sl_off s + i) k), (Z.ltb_spec k (sl_off s + i + 1)); cbn; auto; lia.
Qed.
Lemma one_modF h s i g y : inheap h s -> 0 <= i < sl_len s -> vval h (HArr s) i = Ok y -> exists h', modF s i g h = (Ok tt, h') /\ stored h h' s i 1 (fun _ => Ok (g y)).
Proof.
  intros HS Hi Ey. destruct (one_wrF h s i (g y) HS Hi) as (h' & W & H). exists h'. split; [|exact H]. unfold modF, mbind. rewrite (rdF_slot h s i y Hi Ey). exact W.
Qed.
Lemma hcheck_ok (s : slice) i h : 0 <= i < sl_len s -> hcheck s i h = (Ok tt, h).
Proof. intros Hi. unfold hcheck. rewrite (proj2 (inb_true _ _) Hi). reflexivity. Qed.

(** ** Loops over a vector *)
Lemma upd_loop h s n (B : Z -> unit -> M unit) (J : heap -> Z -> F -> Prop) : inheap h s -> sl_len s = n -> 0 <= n ->
  (forall h1 h2 k x, (forall q, 0 <= q <= k -> slot h1 (sl_arr s) (sl_off s + q) = slot h2 (sl_arr s) (sl_off s + q)) -> J h1 k x -> J h2 k x) ->
  (forall i h1, 0 <= i < n -> inplace h h1 s i J -> exists x, B i tt h1 = wrF s i x h1 /\ (forall h2, (forall q, 0 <= q < i -> slot h2 (sl_arr s) (sl_off s + q) = slot h1 (sl_arr s) (sl_off s + q)) -> J h2 i x)) ->
  goes (mfor 0 n B tt) h (fun _ h' => inplace h h' s n J).
Proof.
  intros HS En Hn HJ HB. apply (mfor_inv (fun i h' => inplace h h' s i J)); [lia| |].
  - split; [auto|]. split; [|intros; lia]. auto.
  - intros i h1 Hi HI. destruct (HB i h1 Hi HI) as (x & E & Hx). destruct HI as (I1 & I2 & I3).
    assert (Hy : exists y, slot h1 (sl_arr s) (sl_off s + i) = Ok y).
    { rewrite I2 by (intros [_ Q]; lia). apply HS. lia. }
    destruct Hy as (y & Ey). destruct (wrF_slot h1 s i x y ltac:(lia) Ey) as (h' & W & Es & H'). exists tt, h'. split; [unfold runs; rewrite E; exact W|].
    assert (Keep : forall q, 0 <= q < i -> slot h' (sl_arr s) (sl_off s + q) = slot h1 (sl_arr s) (sl_off s + q)).
    { intros q Hq. rewrite H', Z.eqb_refl. cbn [andb]. destruct (Z.eqb_spec (sl_off s + q) (sl_off s + i)); [lia|reflexivity]. }
    split; [congruence|]. split.
    + intros a k Hout. rewrite H'. destruct (Z.eqb_spec a (sl_arr s)) as [->|Na]; cbn [andb]; [|apply I2; intros [? _]; contradiction].
      destruct (Z.eqb_spec k (sl_off s + i)) as [->|Nk]; [exfalso; apply Hout; split; [auto|lia]|]. apply I2. intros [_ Q]. apply Hout. split; [auto|lia].
    + intros k Hk. destruct (Z.eq_dec k i) as [->|Nk].
      * exists x. split; [rewrite H', !Z.eqb_refl; reflexivity|]. apply Hx. exact Keep.
      * destruct (I3 k ltac:(lia)) as (z & Ez & Hz). exists z. split; [rewrite Keep by lia; exact Ez|]. eapply HJ; [|exact Hz]. intros q Hq. symmetry. apply Keep. lia.
Qed.
Lemma inplace_stored h h' s n (f : Z -> res F) : inplace h h' s n (fun _ k x => f k = Ok x) -> stored h h' s 0 n f.
Proof.
  intros (I1 & I2 & I3). split; [auto|]. intros a k. rewrite Z.add_0_r. destruct (Z.eqb_spec a (sl_arr s)) as [->|Na]; cbn [andb].
  - destruct (Z.leb_spec (sl_off s) k), (Z.ltb_spec k (sl_off s + n)); cbn [andb]; try (apply I2; intros [_ Q]; lia).
    destruct (I3 (k - sl_off s) ltac:(lia)) as (x & Ex & Fx). replace (sl_off s + (k - sl_off s)) with k in Ex by lia. congruence.
  - apply I2. intros [Q _]. contradiction.
Qed.
Lemma inplace_old h h1 s i J k : inplace h h1 s i J -> i <= k -> slot h1 (sl_arr s) (sl_off s + k) = slot h (sl_arr s) (sl_off s + k).
Proof. intros (_ & I2 & _) Hk. apply I2. intros [_ Q]. lia. Qed.
Lemma mv_Set h s x : inheap h s -> 0 <= sl_len s -> exists h', h_Set s x h = (Ok tt, h') /\ stored h h' s 0 (sl_len s) (fun _ => Ok x).
Proof.
  intros HS Hn. destruct (upd_loop h s (sl_len s) (fun i _ => wrF s i x) (fun _ k y => Ok x = Ok y) HS eq_refl Hn) as ([] & h' & R & HI).
  - auto.
  - intros i h1 Hi _. exists x. auto.
  - exists h'. split; [exact R|]. apply inplace_stored. exact HI.
Qed.
Lemma mv_Map h s g : inheap h s -> 0 <= sl_len s -> exists h', h_Map s g h = (Ok tt, h') /\ stored h h' s 0 (sl_len s) (fun k => let* y := vval h (HArr s) k in Ok (g y)).
Proof.
  intros HS Hn. destruct (upd_loop h s (sl_len s) (fun i _ => modF s i g) (fun _ k y => (let* y := vval h (HArr s) k in Ok (g y)) = Ok y) HS eq_refl Hn) as ([] & h' & R & HI).
  - auto.
  - intros i h1 Hi HI. destruct HS as (_ & _ & HS). destruct (HS i Hi) as (y & Ey). exists (g y). split.
    + unfold modF, mbind. rewrite (rdF_slot h1 s i y Hi); [reflexivity|]. rewrite (inplace_old _ _ _ _ _ i HI) by lia. exact Ey.
    + intros h2 _. cbn [vval]. rewrite Ey. reflexivity.
  - exists h'. split; [exact R|]. apply inplace_stored. exact HI.
Qed.
Lemma mv_Combine h s v n a b : inheap h s -> vok h v -> hv_dim v = n -> 0 <= n -> sl_len s = n ->
  exists h', h_Combine s a b v h = (Ok tt, h') /\ inplace h h' s n (fun h' k x => (let* y := vval h (HArr s) k in let* z := seen h h' s v k in Ok (a * y + b * z)%f) = Ok x).
Proof.
  intros HS HV Ev Hn Es. unfold h_Combine. rewrite Es, Ev, Z.eqb_refl. cbn [negb].
  destruct (upd_loop h s n (fun i (_ : unit) => let! x := rdF s i in let! z := hv_At v i in wrF s i (a * x + b * z)%f)
    (fun h' k x => (let* y := vval h (HArr s) k in let* z := seen h h' s v k in Ok (a * y + b * z)%f) = Ok x) HS Es Hn) as ([] & h' & R & HI).
  - intros h1 h2 k x Hq Hx. rewrite <- Hx. destruct (vval h (HArr s) k) as [y|e|e]; cbn [bind]; auto. replace (seen h h2 s v k) with (seen h h1 s v k); [auto|].
    unfold seen. destruct v as [t|l]; [|reflexivity]. destruct (_ && _) eqn:E; [|reflexivity]. rewrite !andb_true_iff, Z.eqb_eq, Z.leb_le, Z.ltb_lt in E.
    destruct E as [Ea E]. cbn [vval]. rewrite Ea. replace (sl_off t + k) with (sl_off s + (sl_off t + k - sl_off s)) by lia. apply Hq. lia.
  - intros i h1 Hi HI. pose proof HS as (_ & _ & HS'). destruct (HS' i ltac:(lia)) as (y & Ey).
    assert (Hz : exists z, vval h1 v i = Ok z /\ seen h h1 s v i = Ok z).
    { unfold seen. destruct v as [t|l]; cbn [vval].
      - cbn in Ev. destruct HV as (_ & _ & HT). destruct (HT i ltac:(lia)) as (z & Ez). destruct (_ && _) eqn:E.
        + rewrite !andb_true_iff, Z.eqb_eq, Z.leb_le, Z.ltb_lt in E. destruct E as [Ea E]. destruct HI as (_ & _ & I3). destruct (I3 (sl_off t + i - sl_off s) ltac:(lia)) as (x & Ex & _).
          replace (sl_off s + (sl_off t + i - sl_off s)) with (sl_off t + i) in Ex by lia. exists x. rewrite Ea. auto.
        + exists z. split; [|exact Ez]. rewrite <- Ez. destruct HI as (_ & I2 & _). apply I2. intros [Ea Q]. rewrite Ea, Z.eqb_refl, (proj2 (Z.leb_le _ _)), (proj2 (Z.ltb_lt _ _)) in E by lia. discriminate E.
      - cbn in Ev. destruct (zget_some l i ltac:(lia)) as (z & Ez). eauto. }
    destruct Hz as (z & Ez & Sz). exists (a * y + b * z)%f. split.
    + unfold mbind at 1. rewrite (rdF_slot h1 s i y ltac:(lia)) by (rewrite (inplace_old _ _ _ _ _ i HI) by lia; exact Ey). unfold mbind.
      replace (hv_At v i h1) with (Ok z, h1); [reflexivity|]. symmetry. unfold hv_At. rewrite (proj2 (inb_true i (hv_dim v))) by lia. destruct v as [t|l]; cbn [vval] in Ez; [apply rdF_slot; [cbn in Ev; lia|exact Ez]|rewrite Ez; reflexivity].
    + intros h2 Hq. cbn [vval]. rewrite Ey. cbn [bind]. replace (seen h h2 s v i) with (seen h h1 s v i); [rewrite Sz; reflexivity|].
      unfold seen. destruct v as [t|l]; [|reflexivity]. destruct (_ && _) eqn:E; [|reflexivity]. rewrite !andb_true_iff, Z.eqb_eq, Z.leb_le, Z.ltb_lt in E.
      destruct E as [Ea E]. cbn [vval]. rewrite Ea. replace (sl_off t + i) with (sl_off s + (sl_off t + i - sl_off s)) by lia. symmetry. apply Hq. lia.
  - exists h'. auto.
Qed.
Lemma cb_apart h s v n a b : inheap h s -> vok h v -> hv_dim v = n -> 0 <= n -> sl_len s = n ->
  apart_from s 0 n v \/ (exists t, v = HArr t /\ sl_arr t = sl_arr s /\ sl_off s <= sl_off t) ->
  exists h', h_Combine s a b v h = (Ok tt, h') /\ stored h h' s 0 n (fun k => let* x := vval h (HArr s) k in let* z := vval h v k in Ok (a * x + b * z)%f).
Proof.
  intros HS HV Ev Hn Es H. destruct (mv_Combine h s v n a b HS HV Ev Hn Es) as (h' & R & I1 & I2 & I3). exists h'. split; [exact R|]. apply inplace_stored. split; [auto|]. split; [auto|].
  intros k Hk. destruct (I3 k Hk) as (x & Ex & Hx). exists x. split; [auto|]. rewrite <- Hx. destruct (vval h (HArr s) k); cbn [bind]; auto. replace (seen h h' s v k) with (vval h v k); [reflexivity|].
  unfold seen. destruct v as [t|l]; [|reflexivity]. destruct (_ && _) eqn:E; [|reflexivity]. rewrite !andb_true_iff, Z.eqb_eq, Z.leb_le, Z.ltb_lt in E. exfalso. destruct E as [Ea E].
  destruct H as [[Q|Q]|(t' & Et & _ & Q)]; [contradiction|lia|]. injection Et as <-. lia.
Qed.
Lemma cb_overlap h s t n a b : inheap h s -> inheap h t -> sl_len t = n -> sl_len s = n -> sl_arr t = sl_arr s -> 0 < sl_off s - sl_off t < n ->
  exists h', h_Combine s a b (HArr t) h = (Ok tt, h') /\ only_places h h' s 0 n /\
    forall k, 0 <= k < n -> slot h' (sl_arr s) (sl_off s + k) =
      (let* x := vval h (HArr s) k in let* z := (if k <? sl_off s - sl_off t then vval h (HArr t) k else slot h' (sl_arr s) (sl_off s + (k - (sl_off s - sl_off t)))) in Ok (a * x + b * z)%f).
Proof.
  intros HS HT Et Es Ea Hd. destruct (mv_Combine h s (HArr t) n a b HS HT Et ltac:(lia) Es) as (h' & R & I1 & I2 & I3). exists h'. split; [exact R|]. split.
  - split; [auto|]. intros a' k Hout. apply I2. rewrite Z.add_0_r in Hout. exact Hout.
  - intros k Hk. destruct (I3 k Hk) as (x & Ex & Hx). rewrite Ex, <- Hx. destruct (vval h (HArr s) k); cbn [bind]; auto. unfold seen. rewrite Ea, Z.eqb_refl. cbn [andb vval].
    rewrite (proj2 (Z.ltb_lt (sl_off t + k) (sl_off s + k))) by lia. rewrite andb_true_r. destruct (Z.leb_spec (sl_off s) (sl_off t + k)), (Z.ltb_spec k (sl_off s - sl_off t)); try lia; [|reflexivity].
    replace (sl_off s + (k - (sl_off s - sl_off t))) with (sl_off t + k) by lia. rewrite Ea. reflexivity.
Qed.
(** ** Entries of matrices *)
Definition at1 (i j : Z) : Z -> Z -> bool := fun k q => (k =? i) && (q =? j).
Lemma put_one C v h i j d x : cinj C -> inr C i j -> inheap h d -> 0 <= x < sl_len d -> cA C i j = sl_arr d -> cK C i j = sl_off d + x ->
  goes (wrF d x (v i j)) h (fun _ => put C v h (at1 i j)).
Proof.
  intros Inj Hr Hd Hx Ca Ck. eapply (put_wrF C v h _ (at1 i j) h i j); eauto; [apply put_refl|]. intros i' j' _. unfold at1. rewrite andb_true_iff, !Z.eqb_eq. split; [auto|intros [Q|Q]; [discriminate|auto]].
Qed.
Lemma ck2 h a r c f i j : HTab h a r c f -> 0 <= i < r -> 0 <= j < c -> runs (h2_ck a i j) h tt h.
Proof.
  intros H Hi Hj. destruct (HTab_dims _ _ _ _ _ H) as [Er Ec]. unfold runs, h2_ck, h2_ckrow, mbind. rewrite Er, (proj2 (inb_true _ _) Hi). unfold ret, h2_ckcol.
  destruct (Z.ltb_spec j 0); [lia|]. unfold mbind. rewrite Ec. destruct (Z.leb_spec c j); [lia|reflexivity].
Qed.
Lemma wr2_put h a r c f i j x : HTab h a r c f -> own_rows h a -> 0 <= i < r -> 0 <= j < c -> goes (wr2 a i j x) h (fun _ => put (dcells h a r c) (fun _ _ => x) h (at1 i j)).
Proof.
  intros H Hown Hi Hj. pose proof (dcells_inj _ _ _ _ _ H Hown) as Inj. pose proof (HTab_rows _ _ _ _ _ H) as (_ & _ & _ & Hr & Hc & Hrow & Hv). destruct (Hrow i Hi) as (E & I1 & El).
  unfold wr2. eapply g_step; [exact E|]. apply (put_one (dcells h a r c) (fun _ _ => x) h i j); auto; [split; cbn; lia|lia].
Qed.
Lemma put1_tab h h' a r c f x i j : HTab h a r c f -> own_rows h a -> put (dcells h a r c) (fun _ _ => x) h (at1 i j) h' ->
  HTab h' a r c (fun k q => if (k =? i) && (q =? j) then x else f k q) /\ only_in h h' a.
Proof. intros H Hown Hp. exact (put_done _ _ _ _ _ _ _ _ H Hown Hp). Qed.
Lemma rd2_tab h a r c f i j : HTab h a r c f -> 0 <= i < r -> 0 <= j < c -> runs (rd2 a i j) h (f i j) h.
Proof.
  intros H Hi Hj. pose proof (m2_At h a r c f i j H Hi Hj) as E. unfold h2_At, mbind in E. rewrite (ck2 h a r c f i j H Hi Hj) in E. exact E.
Qed.
Lemma set2_entry h a r c f i j x : HTab h a r c f -> own_rows h a -> 0 <= i < r -> 0 <= j < c ->
  returns (h2_SetEntry a i j x) h (fun h' _ => HTab h' a r c (fun k q => if (k =? i) && (q =? j) then x else f k q) /\ only_in h h' a).
Proof.
  intros H Hown Hi Hj. eapply goes_ret.
  - unfold h2_SetEntry. eapply g_step; [eapply ck2; eauto|]. apply (wr2_put h a r c f i j x H Hown Hi Hj).
  - intros u h' Hp. apply put1_tab; auto.
Qed.
Lemma mod2_entry h a r c f i j g : HTab h a r c f -> own_rows h a -> 0 <= i < r -> 0 <= j < c ->
  returns (h2_modEntry a i j g) h (fun h' _ => HTab h' a r c (fun k q => if (k =? i) && (q =? j) then g (f i j) else f k q) /\ only_in h h' a).
Proof.
  intros H Hown Hi Hj. eapply goes_ret.
  - unfold h2_modEntry. eapply g_step; [eapply ck2; eauto|]. eapply g_step; [eapply rd2_tab; eauto|]. apply (wr2_put h a r c f i j _ H Hown Hi Hj).
  - intros u h' Hp. apply put1_tab; auto.
Qed.
(** Blocks. *)
Lemma wrb_put h b r c f i j x : HBlkIs h b r c f -> own_rows h (hb_blocks b) -> 0 <= i < r -> 0 <= j < c ->
  goes (wr2 (hb_blocks b) (fst (hb_pos b i j)) (snd (hb_pos b i j)) x) h (fun _ => put (bcells h b r c) (fun _ _ => x) h (at1 i j)).
Proof.
  intros H Hown Hi Hj. pose proof (bcells_inj _ _ _ _ _ H Hown) as Inj. destruct (HBlkIs_blk _ _ _ _ _ H) as (Hr & Hc & Er & Ec & Ebr & Ebc & Hh & Hw & Hb).
  destruct (block_of r i Hr Hi) as [HI Hx]. destruct (block_of c j Hc Hj) as [HJ Hy]. destruct (Hb _ _ HI HJ) as (Es & I1 & Ls). unfold hb_pos. cbn [fst snd]. change BLOCK_SIZE with 52. rewrite Ebc, (Hw _ HJ).
  unfold wr2. eapply g_step; [exact Es|]. apply (put_one (bcells h b r c) (fun _ _ => x) h i j); auto; [split; cbn; lia|]. rewrite Ls. apply lin_range; auto.
Qed.
Lemma ckb h b r c f i j {A} (m : M A) Q : HBlkIs h b r c f -> 0 <= i < r -> 0 <= j < c -> goes m h Q -> goes (let! _ := hb_ckrow b i in let! _ := hb_ckcol b j in m) h Q.
Proof.
  intros H Hi Hj G. destruct (HBlkIs_blk _ _ _ _ _ H) as (Hr & Hc & Er & Ec & _). eapply g_step; [unfold runs, hb_ckrow; rewrite Er, (proj2 (inb_true _ _) Hi); reflexivity|].
  eapply g_step; [unfold runs, hb_ckcol; rewrite Ec, (proj2 (inb_true _ _) Hj); reflexivity|]. exact G.
Qed.
Lemma rdb h b r c f i j : HBlkIs h b r c f -> 0 <= i < r -> 0 <= j < c -> runs (rd2 (hb_blocks b) (fst (hb_pos b i j)) (snd (hb_pos b i j))) h (f i j) h.
Proof.
  intros H Hi Hj. pose proof (mb_At h b r c f i j H Hi Hj) as E. destruct (HBlkIs_blk _ _ _ _ _ H) as (Hr & Hc & Er & Ec & _). unfold hb_At, mbind, hb_ckrow, hb_ckcol in E.
  rewrite Er, Ec, (proj2 (inb_true _ _) Hi), (proj2 (inb_true _ _) Hj) in E. exact E.
Qed.
Lemma setb_entry h b r c f i j x : HBlkIs h b r c f -> own_rows h (hb_blocks b) -> 0 <= i < r -> 0 <= j < c ->
  returns (hb_SetEntry b i j x) h (fun h' _ => HBlkIs h' b r c (fun k q => if (k =? i) && (q =? j) then x else f k q) /\ only_in h h' (hb_blocks b)).
Proof.
  intros H Hown Hi Hj. eapply goes_ret; [unfold hb_SetEntry; eapply ckb; eauto; eapply wrb_put; eauto|]. intros u h' Hp. exact (putb_done _ _ _ _ _ _ _ _ H Hown Hp).
Qed.
Lemma modb_entry h b r c f i j g : HBlkIs h b r c f -> own_rows h (hb_blocks b) -> 0 <= i < r -> 0 <= j < c ->
  returns (hb_modEntry b i j g) h (fun h' _ => HBlkIs h' b r c (fun k q => if (k =? i) && (q =? j) then g (f i j) else f k q) /\ only_in h h' (hb_blocks b)).
Proof.
  intros H Hown Hi Hj. eapply goes_ret; [unfold hb_modEntry; eapply ckb; eauto; eapply g_step; [eapply rdb; eauto|]; eapply wrb_put; eauto|]. intros u h' Hp. exact (putb_done _ _ _ _ _ _ _ _ H Hown Hp).
Qed.
(** ** Together *)
Lemma upd_vector h s n g : HVecIs h s n g ->
  (forall i x, 0 <= i < n -> exists h', h_SetEntry s i x h = (Ok tt, h') /\ stored h h' s i 1 (fun _ => Ok x)) /\
  (forall i x, 0 <= i < n -> exists h', h_AddToEntry s i x h = (Ok tt, h') /\ stored h h' s i 1 (fun _ => Ok (g i + x)%f)) /\
  (forall x, exists h', h_Set s x h = (Ok tt, h') /\ stored h h' s 0 n (fun _ => Ok x)) /\
  (forall F, exists h', h_Map s F h = (Ok tt, h') /\ stored h h' s 0 n (fun k => Ok (F (g k)))).
Proof.
  intros H. destruct (HVec_slots _ _ _ _ H) as (HS & El & Hg). assert (Hn : 0 <= n) by (destruct (HVIs_dim h (HArr s) n g H); auto). repeat split.
  - intros i x Hi. unfold h_SetEntry, mbind. rewrite hcheck_ok by lia. apply one_wrF; auto. lia.
  - intros i x Hi. unfold h_AddToEntry, mbind. rewrite hcheck_ok by lia. apply (one_modF h s i (fun y => (y + x)%f)); auto; [lia|]. apply Hg. auto.
  - intros x. rewrite <- El. apply mv_Set; auto. lia.
  - intros G. destruct (mv_Map h s G HS ltac:(lia)) as (h' & R & S). rewrite El in S. exists h'. split; [exact R|]. eapply stored_ext; [|exact S]. intros k Hk. cbn [vval]. rewrite Hg by auto. reflexivity.
Qed.
Lemma upd_array h a r c f : HTab h a r c f -> own_rows h a -> forall i j x, 0 <= i < r -> 0 <= j < c ->
  returns (h2_SetEntry a i j x) h (fun h' _ => HTab h' a r c (fun k q => if (k =? i) && (q =? j) then x else f k q) /\ only_in h h' a) /\
  returns (h2_AddToEntry a i j x) h (fun h' _ => HTab h' a r c (fun k q => if (k =? i) && (q =? j) then (f i j + x)%f else f k q) /\ only_in h h' a) /\
  returns (h2_MultiplyEntry a i j x) h (fun h' _ => HTab h' a r c (fun k q => if (k =? i) && (q =? j) then (f i j * x)%f else f k q) /\ only_in h h' a).
Proof.
  intros H Hown i j x Hi Hj. split; [apply set2_entry; auto|]. split; [apply (mod2_entry h a r c f i j (fun y => (y + x)%f))|apply (mod2_entry h a r c f i j (fun y => (y * x)%f))]; auto.
Qed.
Lemma upd_block h b r c f : HBlkIs h b r c f -> own_rows h (hb_blocks b) -> forall i j x, 0 <= i < r -> 0 <= j < c ->
  returns (hb_SetEntry b i j x) h (fun h' _ => HBlkIs h' b r c (fun k q => if (k =? i) && (q =? j) then x else f k q) /\ only_in h h' (hb_blocks b)) /\
  returns (hb_AddToEntry b i j x) h (fun h' _ => HBlkIs h' b r c (fun k q => if (k =? i) && (q =? j) then (f i j + x)%f else f k q) /\ only_in h h' (hb_blocks b)) /\
  returns (hb_MultiplyEntry b i j x) h (fun h' _ => HBlkIs h' b r c (fun k q => if (k =? i) && (q =? j) then (f i j * x)%f else f k q) /\ only_in h h' (hb_blocks b)).
Proof.
  intros H Hown i j x Hi Hj. split; [apply setb_entry; auto|]. split; [apply (modb_entry h b r c f i j (fun y => (y + x)%f))|apply (modb_entry h b r c f i j (fun y => (y * x)%f))]; auto.
Qed.
Lemma upd_diagonal h s n g : HVecIs h s n g -> forall i x, 0 <= i < n ->
  (exists h', hd_SetEntry s i i x h = (Ok tt, h') /\ stored h h' s i 1 (fun _ => Ok x)) /\
  (exists h', hd_AddToEntry s i i x h = (Ok tt, h') /\ stored h h' s i 1 (fun _ => Ok (g i + x)%f)) /\
  (exists h', hd_MultiplyEntry s i i x h = (Ok tt, h') /\ stored h h' s i 1 (fun _ => Ok (g i * x)%f)).
Proof.
  intros H i x Hi. destruct (HVec_slots _ _ _ _ H) as (HS & El & Hg). unfold hd_SetEntry, hd_AddToEntry, hd_MultiplyEntry. rewrite Z.eqb_refl. unfold mbind. rewrite !hcheck_ok by lia. split; [|split].
  - apply one_wrF; auto. lia.
  - apply (one_modF h s i (fun y => (y + x)%f)); auto; [lia|]. apply Hg. auto.
  - apply (one_modF h s i (fun y => (y * x)%f)); auto; [lia|]. apply Hg. auto.
Qed.
End Upd.

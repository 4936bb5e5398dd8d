(** What writes of many entries of a block matrix leave in memory; new matrices
    have rows of their own. *)
From Coq Require Import ZArith List Lia Bool.
From Verif Require Import Base BaseLemmas Scalar Matrix MatSpec MatFacts Array2DFacts BlockM BlockFacts BlockFacts2 Heap HeapBlk HeapSpec HeapPutSpec HeapAtomSpec HeapFacts HeapIndep HeapSim HeapSim2 HeapSim3 HeapSim4 HeapVec HeapMain HeapProps HeapAtom HeapAtomBlk HeapPut.
Import ListNotations.
Open Scope Z_scope.

Section PutBlk.
Context {O : Ops}.
#[local] Arguments rowh : simpl never.
Lemma mfor_invS {A} (Inv : Z -> A -> heap -> Prop) lo hi (B : Z -> A -> M A) a h : lo <= hi -> Inv lo a h ->
  (forall i a h, lo <= i < hi -> Inv i a h -> goes (B i a) h (Inv (i + 1))) -> goes (mfor lo hi B a) h (Inv hi).
Proof.
  intros Hl Ha HB. unfold mfor. remember (Z.to_nat (hi - lo)) as n eqn:En. revert lo a h Hl Ha HB En.
  induction n; intros lo a h Hl Ha HB En; cbn [mup].
  - apply g_ret. replace hi with lo by lia. auto.
  - apply g_bind. eapply g_imp; [apply HB; auto; lia|]. intros a' h' Ha'. apply IHn; auto; try lia. intros. apply HB; auto; lia.
Qed.
Definition bcells (h : heap) (b : HBlk) (r c : Z) : cells := mkCells r c
  (fun i j => sl_arr (rowh h (hb_blocks b) (i / 52 * nblk c + j / 52)))
  (fun i j => sl_off (rowh h (hb_blocks b) (i / 52 * nblk c + j / 52)) + ((i - i / 52 * 52) * bw c (j / 52) + (j - j / 52 * 52))).
Lemma HBlkIs_blk h b r c f : HBlkIs h b r c f ->
  1 <= r /\ 1 <= c /\ hb_rows b = r /\ hb_columns b = c /\ hb_blockRows b = nblk r /\ hb_blockColumns b = nblk c /\
  (forall I, 0 <= I < nblk r -> hb_height b I = bw r I) /\ (forall J, 0 <= J < nblk c -> hb_width b J = bw c J) /\
  forall I J, 0 <= I < nblk r -> 0 <= J < nblk c -> let s := rowh h (hb_blocks b) (I * nblk c + J) in
    rdS (hb_blocks b) (I * nblk c + J) h = (Ok s, h) /\ inheap h s /\ sl_len s = bw r I * bw c J.
Proof.
  intros H. destruct (HBlkIs_block _ _ _ _ _ H) as (Hr & Hc & Er & Ec & Ebr & Ebc & Hh & Hw & Hb). repeat (split; [assumption|]).
  intros I J HI HJ. destruct (Hb I J HI HJ) as (s & E & Hi & Hl). cbv zeta. assert (Es : rowh h (hb_blocks b) (I * nblk c + J) = s) by (unfold rowh; rewrite E; reflexivity). rewrite Es. auto.
Qed.
Lemma bcells_val h b r c f : HBlkIs h b r c f -> cval (bcells h b r c) h f.
Proof.
  intros H i j [Hi Hj]. cbn in Hi, Hj. destruct (HBlkIs_blk _ _ _ _ _ H) as (Hr & Hc & Er & Ec & Ebr & Ebc & Hh & Hw & Hb).
  destruct (block_of r i Hr Hi) as [HI Hx]. destruct (block_of c j Hc Hj) as [HJ Hy]. pose proof (mb_At h b r c f i j H Hi Hj) as E. unfold hb_At, hb_ckrow, hb_ckcol, mbind in E.
  rewrite Er, Ec, (proj2 (inb_true _ _) Hi), (proj2 (inb_true _ _) Hj) in E. cbn [ret] in E. unfold hb_pos in E. cbn [fst snd] in E. change BLOCK_SIZE with 52 in E. rewrite Ebc, (Hw _ HJ) in E.
  destruct (Hb _ _ HI HJ) as (Es & _ & _). unfold ret, rd2, mbind in E. rewrite Es in E. unfold rdF in E. destruct (inb _ _); [|discriminate]. injection E as E. exact E.
Qed.
Lemma bcells_inj h b r c f : HBlkIs h b r c f -> own_rows h (hb_blocks b) -> cinj (bcells h b r c).
Proof.
  intros H Hown i j i' j' [Hi Hj] [Hi' Hj'] Ea Ek. cbn in *. destruct (HBlkIs_blk _ _ _ _ _ H) as (Hr & Hc & Er & Ec & Ebr & Ebc & Hh & Hw & Hb).
  destruct (block_of r i Hr Hi) as [HI Hx]. destruct (block_of c j Hc Hj) as [HJ Hy]. destruct (block_of r i' Hr Hi') as [HI' Hx']. destruct (block_of c j' Hc Hj') as [HJ' Hy'].
  destruct (Hb _ _ HI HJ) as (E & I1 & El). destruct (Hb _ _ HI' HJ') as (E' & I1' & El').
  destruct (Z.eq_dec (i / 52 * nblk c + j / 52) (i' / 52 * nblk c + j' / 52)) as [EQ|N].
  - destruct (lin_inj _ _ _ _ _ HJ HJ' EQ) as [E1 E2]. rewrite EQ, E1, E2 in Ek. rewrite E1 in Hx. rewrite E2 in Hy.
    destruct (lin_inj (i - i' / 52 * 52) (j - j' / 52 * 52) (i' - i' / 52 * 52) (j' - j' / 52 * 52) (bw c (j' / 52)) Hy Hy' ltac:(lia)) as [F1 F2]. split; lia.
  - exfalso. pose proof (lin_range _ _ _ _ Hx Hy). pose proof (lin_range _ _ _ _ Hx' Hy'). destruct (Hown _ _ _ _ N E E') as [Q|[Q|Q]]; [contradiction|lia|lia].
Qed.
Lemma clear_bcells h b r c f t : HBlkIs h b r c f -> clear h (hb_blocks b) t -> cfree (bcells h b r c) t.
Proof.
  intros H Hcl i j k [Hi Hj] Hk [Ea Ek]. cbn in *. destruct (HBlkIs_blk _ _ _ _ _ H) as (Hr & Hc & Er & Ec & Ebr & Ebc & Hh & Hw & Hb).
  destruct (block_of r i Hr Hi) as [HI Hx]. destruct (block_of c j Hc Hj) as [HJ Hy]. destruct (Hb _ _ HI HJ) as (E & I1 & El). pose proof (lin_range _ _ _ _ Hx Hy).
  destruct (Hcl _ _ E) as [Q|[Q|Q]]; [congruence|lia|lia].
Qed.
Lemma HBlkIs_of h0 h b r c f g : HBlkIs h0 b r c f -> live h0 h -> cval (bcells h0 b r c) h g -> HBlkIs h b r c g.
Proof.
  intros H L Hg. destruct (HBlkIs_blk _ _ _ _ _ H) as (Hr & Hc & Er & Ec & Ebr & Ebc & Hh & Hw & Hb). pose proof H as (bl & HM & _ & _ & _ & _ & HI).
  pose proof (MRep_of _ _ _ _ HM L) as HM'. set (bl' := map (cont h) (heads h (hb_blocks b))) in *.
  assert (Ll : len bl' = nblk r * nblk c).
  { apply MatIs_blk_inv in HI. destruct HI as (bl2 & E & _ & _ & [[E2 _] _]). injection E as ->. destruct HM as (_ & E3 & _). destruct HM' as (_ & E4 & _). lia. }
  assert (W : forall I J, 0 <= I < nblk r -> 0 <= J < nblk c -> nthZ bl' (I * nblk c + J) = cont h (rowh h0 (hb_blocks b) (I * nblk c + J))).
  { intros I J HI1 HJ1. destruct (Hb I J HI1 HJ1) as (E & _ & _). pose proof (MRep_of_get _ _ _ _ _ _ HM L E) as Q. fold bl' in Q. rewrite zget_ok in Q by (rewrite Ll; apply lin_range; auto). congruence. }
  eapply (HBlkIs_intro h b (mkBlock bl' r c (nblk r) (nblk c))); [split; [exact HM'|repeat split; auto]|].
  exists bl'. split; [reflexivity|]. split; [auto|]. split; [auto|]. split; [split; [exact Ll|]|].
  - intros I J HI1 HJ1. rewrite (W I J HI1 HJ1). destruct (Hb I J HI1 HJ1) as (E & I1 & El). rewrite <- El. apply cont_len; [exact (live_inheap _ _ _ L I1)|].
    rewrite El. pose proof (bw_bounds r I Hr HI1). pose proof (bw_bounds c J Hc HJ1). nia.
  - intros I J x y HI1 HJ1 Hx Hy. rewrite (W I J HI1 HJ1). destruct (Hb I J HI1 HJ1) as (E & I1 & El). pose proof (bw_bounds r I Hr HI1). pose proof (bw_bounds c J Hc HJ1).
    assert (Q : slot h (cA (bcells h0 b r c) (I * 52 + x) (J * 52 + y)) (cK (bcells h0 b r c) (I * 52 + x) (J * 52 + y)) = Ok (g (I * 52 + x) (J * 52 + y))) by (apply Hg; split; cbn; lia).
    cbn in Q. rewrite !div52 in Q by lia. replace (I * 52 + x - I * 52) with x in Q by lia. replace (J * 52 + y - J * 52) with y in Q by lia.
    pose proof (lin_range _ _ _ _ Hx Hy) as Hlin. rewrite <- El in Hlin.
    pose proof (slot_cont h _ _ _ (live_inheap _ _ _ L I1) Hlin Q) as Q2. rewrite zget_ok in Q2 by (rewrite cont_len; [lia|exact (live_inheap _ _ _ L I1)|lia]). congruence.
Qed.
Lemma putb_done h0 h b r c f v P : HBlkIs h0 b r c f -> own_rows h0 (hb_blocks b) -> put (bcells h0 b r c) v h0 P h ->
  HBlkIs h b r c (fun i j => if P i j then v i j else f i j) /\ only_in h0 h (hb_blocks b).
Proof.
  intros H Hown Hp. pose proof (bcells_inj _ _ _ _ _ H Hown) as Inj. split.
  - eapply HBlkIs_of; [exact H|apply Hp|]. apply (put_val _ _ _ _ _ _ (bcells_val _ _ _ _ _ H) Inj Hp).
  - eapply put_only; [exact Hp|]. intros t Ht. eapply clear_bcells; eauto.
Qed.
Lemma HBlkIs_ext h b r c f g : (forall i j, 0 <= i < r -> 0 <= j < c -> f i j = g i j) -> HBlkIs h b r c f -> HBlkIs h b r c g.
Proof.
  intros E H. eapply HBlkIs_of; [exact H|apply live_refl|]. intros i j Hr. rewrite (bcells_val _ _ _ _ _ H i j Hr). f_equal. apply E; apply Hr.
Qed.
(** The part of row [I * 52 + x] that is in block [J]. *)
Lemma bcells_row h b r c I J x y t : 1 <= c -> 0 <= J < nblk c -> 0 <= x < 52 -> 0 <= y -> 0 <= t -> y + t < bw c J ->
  let s := rowh h (hb_blocks b) (I * nblk c + J) in
  cA (bcells h b r c) (I * 52 + x) (J * 52 + y + t) = sl_arr s /\ cK (bcells h b r c) (I * 52 + x) (J * 52 + y + t) = sl_off s + (x * bw c J + y + t).
Proof.
  intros Hc HJ Hx Hy Ht Hyt. pose proof (bw_bounds c J Hc HJ). cbn. replace (J * 52 + y + t) with (J * 52 + (y + t)) by lia. rewrite !div52 by lia. split; [reflexivity|]. ring.
Qed.

Lemma setb_row h b r c f i d g : HBlkIs h b r c f -> own_rows h (hb_blocks b) -> HVecIs h d c g -> clear h (hb_blocks b) d -> 0 <= i < r ->
  returns (hb_SetRow b i d) h (fun h' _ => HBlkIs h' b r c (fun k j => if k =? i then g j else f k j) /\ only_in h h' (hb_blocks b)).
Proof.
  intros H Hown Hd Hcl Hi. pose proof (bcells_inj _ _ _ _ _ H Hown) as Inj. destruct (HBlkIs_blk _ _ _ _ _ H) as (Hr & Hc & Er & Ec & Ebr & Ebc & Hh & Hw & Hb).
  destruct (HVec_slots _ _ _ _ Hd) as (Di & Dl & Ds). pose proof (clear_bcells _ _ _ _ _ _ H Hcl) as Hf. set (C := bcells h b r c) in *. set (v := fun (k j : Z) => g j).
  destruct (block_of r i Hr Hi) as [HI Hx]. pose proof (nblk_pos c Hc). pose proof (nblk_spec c Hc).
  assert (G : goes (hb_SetRow b i d) h (fun _ => put C v h (fun k j => (k =? i) && (j <? nblk c * 52)))).
  { unfold hb_SetRow. eapply g_step; [unfold runs, hb_ckrow; rewrite Er, (proj2 (inb_true _ _) Hi); reflexivity|]. rewrite Ec, Ebc, Dl, Z.eqb_refl. cbn [negb]. change BLOCK_SIZE with 52.
    apply g_bind. eapply (g_imp _ _ (fun a => fun h' => a = Z.min (nblk c * 52) c /\ put C v h (fun k j => (k =? i) && (j <? nblk c * 52)) h')); [|intros a h' [_ Hp]; apply g_ret; exact Hp].
    apply (mfor_invS (fun J a h' => a = Z.min (J * 52) c /\ put C v h (fun k j => (k =? i) && (j <? J * 52)) h')); [lia| |].
    - split; [lia|]. eapply put_ext; [|apply put_refl]. intros k j [_ Hj]. cbn in Hj. destruct (Z.ltb_spec j (0 * 52)); [lia|]. rewrite andb_false_r. reflexivity.
    - intros J a h1 HJ [-> Hp]. pose proof Hp as (L & _). rewrite (Hw J HJ). destruct (bw_next c J Hc HJ) as [N1 N2]. pose proof (bw_bounds c J Hc HJ) as [B1 B2]. rewrite N1.
      destruct (Hb _ J HI HJ) as (Es & I1 & Ls). eapply g_step; [exact (live_head _ _ _ _ _ L Es)|]. destruct (in_block (bw c J) (bw r (i / 52)) _ 0 Hx ltac:(lia)) as [P1 P2]. pose proof (bw_bounds r _ Hr HI) as [B3 B4].
      apply g_bind. eapply (g_imp _ _ (fun _ => put C v h (fun k j => (k =? i) && (j <? (J + 1) * 52)))); [|intros u h2 Hp2; apply g_ret; split; [lia|exact Hp2]].
      eapply (put_copyrange C v h _ _ h1 i (J * 52) (bw c J)); [exact Inj|exact Hp|lia|exact Hi|lia|cbn; lia|exact I1|lia|lia| |exact Di|lia|lia| |].
      + intros t Ht. destruct (bcells_row h b r c (i / 52) J (i - i / 52 * 52) 0 t Hc HJ ltac:(lia) ltac:(lia) ltac:(lia) ltac:(lia)) as [Q1 Q2].
        replace (i / 52 * 52 + (i - i / 52 * 52)) with i in Q1, Q2 by lia. replace (J * 52 + 0 + t) with (J * 52 + t) in Q1, Q2 by lia. split; [exact Q1|]. unfold C. rewrite Q2. ring.
      + intros t Ht. rewrite (put_free _ _ _ _ _ d (J * 52 + t) Hp Hf) by lia. apply Ds. lia.
      + intros k j [_ Hj]. cbn in Hj. rewrite !andb_true_iff, Z.eqb_eq, !Z.ltb_lt. lia. }
  eapply goes_ret; [exact G|]. intros y h' Hp. destruct (putb_done _ _ _ _ _ _ _ _ H Hown Hp) as [K1 K2]. split; [|exact K2].
  eapply HBlkIs_ext; [|exact K1]. intros k j Hk Hj. cbv beta. destruct (Z.ltb_spec j (nblk c * 52)); [|lia]. rewrite andb_true_r. reflexivity.
Qed.
Lemma setb_column h b r c f j d g : HBlkIs h b r c f -> own_rows h (hb_blocks b) -> HVecIs h d r g -> clear h (hb_blocks b) d -> 0 <= j < c ->
  returns (hb_SetColumn b j d) h (fun h' _ => HBlkIs h' b r c (fun i k => if k =? j then g i else f i k) /\ only_in h h' (hb_blocks b)).
Proof.
  intros H Hown Hd Hcl Hj. pose proof (bcells_inj _ _ _ _ _ H Hown) as Inj. destruct (HBlkIs_blk _ _ _ _ _ H) as (Hr & Hc & Er & Ec & Ebr & Ebc & Hh & Hw & Hb).
  destruct (HVec_slots _ _ _ _ Hd) as (Di & Dl & Ds). pose proof (clear_bcells _ _ _ _ _ _ H Hcl) as Hf. set (C := bcells h b r c) in *. set (v := fun (i k : Z) => g i).
  destruct (block_of c j Hc Hj) as [HJ Hy]. pose proof (nblk_pos r Hr). pose proof (nblk_spec r Hr).
  assert (G : goes (hb_SetColumn b j d) h (fun _ => put C v h (fun i k => (k =? j) && (i <? nblk r * 52)))).
  { unfold hb_SetColumn. eapply g_step; [unfold runs, hb_ckcol; rewrite Ec, (proj2 (inb_true _ _) Hj); reflexivity|]. rewrite Er, Ebr, Ebc, Dl, Z.eqb_refl. cbn [negb]. change BLOCK_SIZE with 52. rewrite (Hw _ HJ).
    apply g_bind. eapply (g_imp _ _ (fun a => fun h' => a = Z.min (nblk r * 52) r /\ put C v h (fun i k => (k =? j) && (i <? nblk r * 52)) h')); [|intros a h' [_ Hp]; apply g_ret; exact Hp].
    apply (mfor_invS (fun I a h' => a = Z.min (I * 52) r /\ put C v h (fun i k => (k =? j) && (i <? I * 52)) h')); [lia| |].
    - split; [lia|]. eapply put_ext; [|apply put_refl]. intros i k [Hi _]. cbn in Hi. destruct (Z.ltb_spec i (0 * 52)); [lia|]. rewrite andb_false_r. reflexivity.
    - intros I a h1 HI [-> Hp]. rewrite (Hh I HI). destruct (bw_next r I Hr HI) as [N1 N2]. pose proof (bw_bounds r I Hr HI) as [B1 B2]. rewrite N1. destruct (Hb I _ HI HJ) as (Es & I1 & Ls).
      eapply (g_imp _ _ (fun a h' => a = I * 52 + bw r I /\ put C v h (fun i k => (k =? j) && (i <? I * 52 + bw r I)) h')).
      + apply (mfor_invS (fun x a h' => a = I * 52 + x /\ put C v h (fun i k => (k =? j) && (i <? I * 52 + x)) h')); [lia| |].
        * split; [lia|]. eapply put_ext; [|exact Hp]. intros i k _. cbv beta. rewrite Z.add_0_r. reflexivity.
        * intros x a h2 Hx [-> Hp2]. pose proof Hp2 as (L & _). destruct (in_block (bw c (j / 52)) (bw r I) _ _ Hx Hy) as [P1 P2].
          eapply g_step; [apply (rdF_slot h2 d (I * 52 + x) (g (I * 52 + x))); [lia|]; rewrite (put_free _ _ _ _ _ d (I * 52 + x) Hp2 Hf) by lia; apply Ds; lia|].
          unfold wr2. apply g_bind. apply g_bind. eapply (g_imp _ _ (fun s h' => s = rowh h (hb_blocks b) (I * nblk c + j / 52) /\ h' = h2)); [exists (rowh h (hb_blocks b) (I * nblk c + j / 52)), h2; split; [exact (live_head _ _ _ _ _ L Es)|auto]|].
          intros s h3 [-> ->]. change (g (I * 52 + x)) with (v (I * 52 + x) j).
          destruct (bcells_row h b r c I (j / 52) x (j - j / 52 * 52) 0 Hc HJ ltac:(lia) ltac:(lia) ltac:(lia) ltac:(lia)) as [Q1 Q2].
          replace (j / 52 * 52 + (j - j / 52 * 52) + 0) with j in Q1, Q2 by lia.
          eapply (g_imp _ _ (fun _ => put C v h (fun i k => (k =? j) && (i <? I * 52 + (x + 1))))); [|intros u h4 Hp4; apply g_ret; split; [lia|exact Hp4]].
          eapply (put_wrF C v h _ _ h2 (I * 52 + x) j); [exact Inj|exact Hp2|split; cbn; lia|exact I1|lia|exact Q1|unfold C; rewrite Q2; ring|].
          intros i' k' _. rewrite !andb_true_iff, !Z.eqb_eq, !Z.ltb_lt. lia.
      + intros a h2 [-> Hp2]. split; [lia|]. eapply put_ext; [|exact Hp2]. intros i k [Hi _]. cbn in Hi. cbv beta. f_equal. apply eq_true_iff_eq. rewrite !Z.ltb_lt. lia. }
  eapply goes_ret; [exact G|]. intros y h' Hp. destruct (putb_done _ _ _ _ _ _ _ _ H Hown Hp) as [K1 K2]. split; [|exact K2].
  eapply HBlkIs_ext; [|exact K1]. intros i k Hi Hk. cbv beta. destruct (Z.ltb_spec i (nblk r * 52)); [|lia]. rewrite andb_true_r. reflexivity.
Qed.
Lemma setb_sub h b r c f sub p q e row column : HBlkIs h b r c f -> own_rows h (hb_blocks b) -> HTab h sub p q e -> clear_rows h (hb_blocks b) sub ->
  0 <= row -> row + p <= r -> 0 <= column -> column + q <= c ->
  returns (hb_SetSubMatrix b sub row column) h (fun h' _ =>
    HBlkIs h' b r c (fun i j => if ((row <=? i) && (i <? row + p)) && ((column <=? j) && (j <? column + q)) then e (i - row) (j - column) else f i j) /\ only_in h h' (hb_blocks b)).
Proof.
  intros H Hown Hs Hcl R1 R2 C1 C2. pose proof (bcells_inj _ _ _ _ _ H Hown) as Inj. destruct (HBlkIs_blk _ _ _ _ _ H) as (Hr & Hc & Er & Ec & Ebr & Ebc & Hh & Hw & Hb).
  pose proof (HTab_rows _ _ _ _ _ Hs) as (Hn' & Ls & _ & Hp & Hq & Hrow' & Hv'). set (C := bcells h b r c) in *. set (v := fun i j => e (i - row) (j - column)).
  assert (Hf : forall k, 0 <= k < p -> cfree C (rowh h sub k)). { intros k Hk. eapply clear_bcells; [exact H|]. apply (Hcl k). apply Hrow'; auto. }
  assert (BR : forall n lo hi I, 0 <= lo <= hi -> hi < n -> lo / 52 <= I < (hi + 52) / 52 -> 0 <= I < nblk n /\ Z.max lo (I * 52) < Z.min (hi + 1) (I * 52 + bw n I)).
  { intros n lo hi I Hl Hn HI. pose proof (Z.div_mod lo 52 ltac:(lia)). pose proof (Z.mod_pos_bound lo 52 ltac:(lia)).
    pose proof (Z.div_mod (hi + 52) 52 ltac:(lia)). pose proof (Z.mod_pos_bound (hi + 52) 52 ltac:(lia)). pose proof (nblk_spec n ltac:(lia)). unfold bw. lia. }
  assert (LO : forall lo, 0 <= lo -> lo / 52 * 52 <= lo) by (intros lo Hlo; pose proof (Z.div_mod lo 52 ltac:(lia)); pose proof (Z.mod_pos_bound lo 52 ltac:(lia)); lia).
  assert (HIg : forall hi, 0 <= hi -> hi < (hi + 52) / 52 * 52) by (intros hi Hlo; pose proof (Z.div_mod (hi + 52) 52 ltac:(lia)); pose proof (Z.mod_pos_bound (hi + 52) 52 ltac:(lia)); lia).
  assert (Ord : forall lo hi, 0 <= lo <= hi -> lo / 52 <= (hi + 52) / 52) by (intros lo hi Hlo; apply Z.div_le_mono; lia).
  set (ins := fun i j => ((row <=? i) && (i <? row + p)) && ((column <=? j) && (j <? column + q))).
  assert (Ins : forall i j, ins i j = true <-> row <= i < row + p /\ column <= j < column + q) by (intros i j; unfold ins; rewrite !andb_true_iff, !Z.leb_le, !Z.ltb_lt; lia).
  assert (G : goes (hb_SetSubMatrix b sub row column) h (fun _ => put C v h (fun i j => ins i j && (i <? (row + p - 1 + 52) / 52 * 52)))).
  { unfold hb_SetSubMatrix, isnil. rewrite (proj2 (Z.eqb_neq _ _) Hn'), Ls. destruct (Hrow' 0 ltac:(lia)) as (E0 & _ & El0). eapply g_step; [exact E0|]. rewrite El0. destruct (Z.eqb_spec q 0); [lia|].
    assert (CkR : forall i, 0 <= i < r -> runs (hb_ckrow b i) h tt h). { intros i Hi. unfold runs, hb_ckrow. rewrite Er, (proj2 (inb_true _ _) Hi). reflexivity. }
    assert (CkC : forall j, 0 <= j < c -> runs (hb_ckcol b j) h tt h). { intros j Hj. unfold runs, hb_ckcol. rewrite Ec, (proj2 (inb_true _ _) Hj). reflexivity. }
    eapply g_step; [apply CkR; lia|]. eapply g_step; [apply CkR; lia|]. destruct (Z.ltb_spec (row + p - 1) row); [lia|].
    eapply g_step; [apply CkC; lia|]. eapply g_step; [apply CkC; lia|]. destruct (Z.ltb_spec (column + q - 1) column); [lia|].
    eapply g_step with (h1 := h) (a := tt).
    { destruct (mfor_inv (fun _ h' => h' = h) 0 p (fun (r : Z) (_ : unit) => let! sr := rdS sub r in if negb (sl_len sr =? q) then mpanic EDimMismatch else ret tt) h ltac:(lia) eq_refl) as ([] & h' & R & ->); [|exact R].
      intros k h1 Hk ->. destruct (Hrow' k ltac:(lia)) as (Ek & _ & Elk). eapply g_step; [exact Ek|]. rewrite Elk, Z.eqb_refl. apply g_ret. reflexivity. }
    change BLOCK_SIZE with 52. rewrite Ebc.
    apply (mfor_inv (fun I => put C v h (fun i j => ins i j && (i <? I * 52)))); [apply Ord; lia| |].
    { eapply put_ext; [|apply put_refl]. intros i j _. symmetry. apply not_true_iff_false. rewrite andb_true_iff, Ins, Z.ltb_lt. pose proof (LO row R1). lia. }
    intros I h1 HI Hp1. destruct (BR r row (row + p - 1) I ltac:(lia) ltac:(lia) HI) as [HI' HIr]. rewrite (Hh I HI'). pose proof (bw_bounds r I Hr HI') as [B1 B2]. destruct (bw_next r I Hr HI') as [N1 N2].
    eapply (g_imp _ _ (fun _ => put C v h (fun i j => ins i j && ((i <? I * 52) || ((i <? I * 52 + 52) && (j <? (column + q - 1 + 52) / 52 * 52)))))).
    2:{ intros u h2 Hp2. eapply put_ext; [|exact Hp2]. intros i j _. cbv beta. apply eq_true_iff_eq. rewrite !andb_true_iff, !orb_true_iff, !andb_true_iff, Ins, !Z.ltb_lt. pose proof (HIg (column + q - 1) ltac:(lia)). lia. }
    apply (mfor_inv (fun J => put C v h (fun i j => ins i j && ((i <? I * 52) || ((i <? I * 52 + 52) && (j <? J * 52)))))); [apply Ord; lia| |].
    { eapply put_ext; [|exact Hp1]. intros i j _. cbv beta. apply eq_true_iff_eq. rewrite !andb_true_iff, !orb_true_iff, !andb_true_iff, Ins, !Z.ltb_lt. pose proof (LO column C1). lia. }
    intros J h2 HJ Hp2. destruct (BR c column (column + q - 1) J ltac:(lia) ltac:(lia) HJ) as [HJ' HJr]. rewrite (Hw J HJ'). pose proof (bw_bounds c J Hc HJ') as [B3 B4]. destruct (bw_next c J Hc HJ') as [N3 N4].
    eapply (g_imp _ _ (fun _ => put C v h (fun i j => ins i j && ((i <? I * 52) || ((i <? I * 52 + 52) && (j <? J * 52)) || ((i <? Z.min (row + p - 1 + 1) (I * 52 + bw r I)) && (j <? J * 52 + 52)))))).
    2:{ intros u h3 Hp3. eapply put_ext; [|exact Hp3]. intros i j [Hi Hj]. cbn in Hi, Hj. cbv beta. apply eq_true_iff_eq. rewrite !andb_true_iff, !orb_true_iff, !andb_true_iff, Ins, !Z.ltb_lt. lia. }
    apply (mfor_inv (fun x => put C v h (fun i j => ins i j && ((i <? I * 52) || ((i <? I * 52 + 52) && (j <? J * 52)) || ((i <? x) && (j <? J * 52 + 52)))))); [lia| |].
    { eapply put_ext; [|exact Hp2]. intros i j _. cbv beta. apply eq_true_iff_eq. rewrite !andb_true_iff, !orb_true_iff, !andb_true_iff, Ins, !Z.ltb_lt. lia. }
    intros i h3 Hi Hp3. pose proof Hp3 as (L & _). destruct (Hb I J HI' HJ') as (Es & I1 & Lb). eapply g_step; [exact (live_head _ _ _ _ _ L Es)|].
    destruct (Hrow' (i - row) ltac:(lia)) as (Et & I2 & Lt). eapply g_step; [exact (live_head _ _ _ _ _ L Et)|].
    assert (Hx : 0 <= i - I * 52 < bw r I) by lia. destruct (in_block (bw c J) (bw r I) _ 0 Hx ltac:(lia)) as [P1 P2].
    eapply (put_copyrange C v h _ _ h3 i (Z.max column (J * 52)) (Z.min (column + q - 1 + 1) (J * 52 + bw c J) - Z.max column (J * 52))); [exact Inj|exact Hp3|lia|cbn; lia|lia|cbn; lia|exact I1|lia|lia| |exact I2|lia|lia| |].
    - intros t Ht. destruct (bcells_row h b r c I J (i - I * 52) (Z.max column (J * 52) - J * 52) t Hc HJ' ltac:(lia) ltac:(lia) ltac:(lia) ltac:(lia)) as [Q1 Q2].
      replace (I * 52 + (i - I * 52)) with i in Q1, Q2 by lia. replace (J * 52 + (Z.max column (J * 52) - J * 52) + t) with (Z.max column (J * 52) + t) in Q1, Q2 by lia.
      split; [exact Q1|]. unfold C. rewrite Q2. ring.
    - intros t Ht. rewrite (put_free _ _ _ _ _ _ (Z.max column (J * 52) - column + t) Hp3 (Hf (i - row) ltac:(lia))) by lia.
      unfold v. replace (Z.max column (J * 52) + t - column) with (Z.max column (J * 52) - column + t) by lia. apply (Hv' (i - row)). split; cbn; lia.
    - intros i' j' [Hi' Hj']. cbn in Hi', Hj'. rewrite !andb_true_iff, !orb_true_iff, !andb_true_iff, Ins, !Z.ltb_lt. lia. }
  eapply goes_ret; [exact G|]. intros y h' Hput. destruct (putb_done _ _ _ _ _ _ _ _ H Hown Hput) as [K1 K2]. split; [|exact K2].
  eapply HBlkIs_ext; [|exact K1]. intros i j Hi Hj. cbv beta. fold (ins i j). unfold v. destruct (ins i j) eqn:Ei; [|reflexivity]. apply Ins in Ei. pose proof (HIg (row + p - 1) ltac:(lia)). destruct (Z.ltb_spec i ((row + p - 1 + 52) / 52 * 52)); [reflexivity|lia].
Qed.

(** ** The block writers are writes a holder of the matrix can do *)
Lemma ab_SetRow K b i d : kS K (sl_arr (hb_blocks b)) -> acts K (hb_SetRow b i d) anyk.
Proof. intros. unfold hb_SetRow, copyrange. repeat (ac1 || apply ab_ckrow). Qed.
Lemma ab_SetColumn K b i d : kS K (sl_arr (hb_blocks b)) -> acts K (hb_SetColumn b i d) anyk.
Proof. intros. unfold hb_SetColumn. repeat (ac1 || apply ab_ckcol || (apply a_wr2; auto)). Qed.
Lemma ab_SetSubMatrix K b d i j : kS K (sl_arr (hb_blocks b)) -> acts K (hb_SetSubMatrix b d i j) anyk.
Proof. intros. unfold hb_SetSubMatrix, copyrange. repeat (ac1 || apply ab_ckrow || apply ab_ckcol || apply acts_rdS_any). Qed.
Lemma block_writers b : (forall i d, writes (OM (hb_blocks b)) (hb_SetRow b i d) /\ writes (OM (hb_blocks b)) (hb_SetColumn b i d)) /\
  (forall sub i j, writes (OM (hb_blocks b)) (hb_SetSubMatrix b sub i j)).
Proof.
  split; intros; [split|]; apply wS; intros K HK; [apply ab_SetRow|apply ab_SetColumn|apply ab_SetSubMatrix]; auto.
Qed.

(** ** New matrices have rows of their own *)
Lemma TabE_own h0 o d h : TabE h0 o d h -> own_new h0 h o.
Proof.
  intros (hd & HT). assert (R : forall i s, row_of h o i s -> zget hd i = Ok s).
  { intros i s E. unfold row_of, rdS in E. destruct (inb i (sl_len o)); [|discriminate]. rewrite (tb_h _ _ _ _ _ HT) in E. cbn in E. pose proof (tb_o _ _ _ _ _ HT) as Eo. rewrite Eo in E. cbn in E.
    change (0 + i) with i in E. congruence. }
  split.
  - intros i i' s s' N Hs Hs'. apply R in Hs, Hs'. destruct (Z.eq_dec (sl_arr s) (sl_arr s')) as [Ea|Na]; [|left; auto].
    destruct (tb_d _ _ _ _ _ HT _ _ _ _ Hs Hs' Ea) as [E|E]; [contradiction|]. right. left.
    destruct (tb_r _ _ _ _ _ HT _ _ Hs) as (w & _ & [[-> _]|Ho]); [|pose proof (len_nonneg (hf h0)); destruct Ho as (Ho & _); lia].
    destruct (tb_r _ _ _ _ _ HT _ _ Hs') as (w' & _ & [[-> _]|Ho]); [cbn; lia|pose proof (len_nonneg (hf h0)); destruct Ho as (Ho & _); rewrite <- Ea in Ho; cbn in Ho; lia].
  - intros t (T1 & T2 & T3) Hl i s Hs. apply R in Hs. left. destruct (T3 0 ltac:(lia)) as (x & Ex). destruct (slot_inv _ _ _ _ Ex) as (A & HA & _). apply zget_range in HA.
    destruct (tb_r _ _ _ _ _ HT _ _ Hs) as (w & _ & [[-> _]|(Ho & _)]); cbn; lia.
Qed.
Lemma Ext_inheap h0 h t : Ext h0 h -> inheap h0 t -> inheap h t.
Proof.
  intros He (T1 & T2 & T3). split; [auto|]. split; [auto|]. intros j Hj. destruct (T3 j Hj) as (x & Ex). exists x. destruct (slot_inv _ _ _ _ Ex) as (A & HA & HxA). pose proof (zget_range _ _ _ HA).
  unfold slot. rewrite (ext_f _ _ He) by lia. rewrite HA. exact HxA.
Qed.
Lemma own_new_ext h0 h1 h o : Ext h0 h1 -> own_new h1 h o -> own_new h0 h o.
Proof. intros He [H1 H2]. split; [auto|]. intros t Ht Hl. apply H2; auto. eapply Ext_inheap; eauto. Qed.
Lemma own_copyIn h o d r c f : isnil o = false -> MRep h o d -> 1 <= r -> 1 <= c -> RTab d r c f -> goes (h2_copyIn o) h (fun o' h' => own_new h h' o').
Proof.
  intros Hn HM Hr Hc HT. destruct (a2_copyIn_spec d r c f Hr Hc HT) as (A & E & _). destruct (s2_copyIn_some _ _ E) as (d' & ->).
  eapply g_imp; [eapply s2_copyIn; eauto|]. intros o' h' HTb. exact (TabE_own _ _ _ _ HTb).
Qed.
Lemma returns_and {A} (m : M A) h (R1 R2 : heap -> A -> Prop) : returns m h R1 -> returns m h R2 -> returns m h (fun h' y => R1 h' y /\ R2 h' y).
Proof. intros (y & h' & E & H) (y2 & h2 & E2 & H2). rewrite E in E2. injection E2 as <- <-. exists y, h'. auto. Qed.
Lemma own_array h a r c f : HTab h a r c f ->
  returns (h2_Copy a) h (fun h' o => HTab h' o r c f /\ own_new h h' o) /\ returns (h2_FromSlices a true) h (fun h' o => HTab h' o r c f /\ own_new h h' o).
Proof.
  intros H. destruct (HTab_elim _ _ _ _ _ H) as (d & HA & HM & HT). pose proof H as (_ & Hr & Hc & _). split; (apply returns_and; [try (apply m2_Copy; auto); apply m2_FromSlices; auto|]).
  - destruct (a2_copyOut_spec _ _ _ _ HM) as (out & E & HTo). eapply goes_ret; [|intros y h' Q; exact Q]. unfold h2_Copy. apply g_bind. eapply g_imp; [eapply s2_copyOut; eauto|]. cbv beta.
    intros o h1 HT1. cbv beta. destruct (TabE_MRep _ _ _ _ HT1) as [Hn1 HM1]. eapply g_imp; [exact (own_copyIn _ _ _ _ _ _ Hn1 HM1 Hr Hc HTo)|]. intros o' h' Q. eapply own_new_ext; [eapply TabE_e; eauto|exact Q].
  - destruct HA as [Hn HMR]. eapply goes_ret; [|intros y h' Q; exact Q]. unfold h2_FromSlices. exact (own_copyIn _ _ _ _ _ _ Hn HMR Hr Hc HT).
Qed.
Lemma own_blkcopy h b r c f : HBlkIs h b r c f -> returns (hb_Copy b) h (fun h' b' => HBlkIs h' b' r c f /\ own_new h h' (hb_blocks b')).
Proof.
  intros H. apply returns_and; [apply mb_Copy; auto|]. destruct (HBlkIs_elim _ _ _ _ _ H) as (v & (HM & S1 & S2 & S3 & S4) & HI). destruct (b_Copy_spec _ _ _ _ HI) as (v' & E & _).
  eapply goes_ret; [|intros y h' Q; exact Q]. unfold b_Copy in E. unfold hb_Copy. rewrite S1, S2, (MRep_len _ _ _ HM).
  binv E d Hd. apply g_bind. eapply g_imp; [eapply sb_create; eauto; apply Ext_refl|]. nx o h1 HT.
  binv E d1 Hl. injection E as <-. apply g_bind. eapply g_imp; [eapply tab_for; [exact HT|exact Hl|]|].
  - intros i h2 d2 d3 Hi HT2 HP. binv HP ci Hci. binv HP bi Hbi. binv HP w Hw. apply zset_inv in HP. destruct HP as [Hi' ->].
    destruct (TabE_rd _ _ _ _ _ _ HT2 Hci) as (s & HR). eapply g_step; [eapply RowE_rd; eauto|].
    destruct (src_row _ _ _ _ _ HM Hbi) as (t & Ht). destruct (Ht h2 (TabE_e _ _ _ _ HT2)) as (Rt & HVt).
    eapply g_step; [exact Rt|]. eapply g_imp; [eapply RowE_gocopy; eauto|]. nxu h3 HR3. eapply RowE_T; eauto.
  - nxu h2 HT2. apply g_ret. cbn. eapply TabE_own; eauto.
Qed.
Lemma own_blkfrom h o r c f : HTab h o r c f -> returns (hb_FromSlices o) h (fun h' b => HBlkIs h' b r c f /\ own_new h h' (hb_blocks b)).
Proof.
  intros H. apply returns_and; [apply mb_FromSlices; auto|]. destruct (HTab_elim _ _ _ _ _ H) as (d & [Hn HM] & _ & HT). pose proof H as (_ & Hr & Hc & _).
  destruct (NewBlockRealMatrixFromSlices_spec _ _ _ _ Hr Hc HT) as (v & E & _). eapply goes_ret; [|intros y h' Q; exact Q]. unfold NewBlockRealMatrixFromSlices in E. unfold hb_FromSlices.
  binv E raw0 H0. destruct (src_row _ _ _ _ _ HM H0) as (s0 & Hs0). destruct (Hs0 h (Ext_refl _)) as (R0 & (_ & E0 & _)).
  eapply g_step; [exact R0|]. rewrite E0, (MRep_len _ _ _ HM). binv E bl Hbl.
  apply g_bind. eapply g_imp; [eapply sb_toBlocks; eauto|]. nx o' h1 HT'.
  eapply g_imp; [eapply sb_FromBlockData; [apply (TabE_MRep _ _ _ _ HT')|eauto]|]. intros hb h2 (-> & -> & HB). eapply TabE_own; eauto.
Qed.
Lemma put_array h a r c f : HTab h a r c f -> own_rows h a ->
  (forall i d g s, HVecIs h d c g -> row_of h a i s -> i + c <= sl_cap s -> 0 <= i < r ->
     returns (h2_SetRow a i d) h (fun h' _ => HTab h' a r c (fun k j => if k =? i then g j else f k j) /\ only_in h h' a)) /\
  (forall j d g, HVecIs h d r g -> clear h a d -> 0 <= j < c ->
     returns (h2_SetColumn a j d) h (fun h' _ => HTab h' a r c (fun i k => if k =? j then g i else f i k) /\ only_in h h' a)) /\
  (forall sub p q e row column, HTab h sub p q e -> clear_rows h a sub -> 0 <= row -> row + p <= r -> 0 <= column -> column + q <= c ->
     returns (h2_SetSubMatrix a sub row column) h (fun h' a' => a' = a /\
       HTab h' a r c (fun i j => if ((row <=? i) && (i <? row + p)) && ((column <=? j) && (j <? column + q)) then e (i - row) (j - column) else f i j) /\ only_in h h' a)).
Proof. intros H Ho. split; [|split]; intros; [eapply set2_row|eapply set2_column|eapply set2_sub]; eauto. Qed.
Lemma put_block h b r c f : HBlkIs h b r c f -> own_rows h (hb_blocks b) ->
  (forall i d g, HVecIs h d c g -> clear h (hb_blocks b) d -> 0 <= i < r ->
     returns (hb_SetRow b i d) h (fun h' _ => HBlkIs h' b r c (fun k j => if k =? i then g j else f k j) /\ only_in h h' (hb_blocks b))) /\
  (forall j d g, HVecIs h d r g -> clear h (hb_blocks b) d -> 0 <= j < c ->
     returns (hb_SetColumn b j d) h (fun h' _ => HBlkIs h' b r c (fun i k => if k =? j then g i else f i k) /\ only_in h h' (hb_blocks b))) /\
  (forall sub p q e row column, HTab h sub p q e -> clear_rows h (hb_blocks b) sub -> 0 <= row -> row + p <= r -> 0 <= column -> column + q <= c ->
     returns (hb_SetSubMatrix b sub row column) h (fun h' _ =>
       HBlkIs h' b r c (fun i j => if ((row <=? i) && (i <? row + p)) && ((column <=? j) && (j <? column + q)) then e (i - row) (j - column) else f i j) /\ only_in h h' (hb_blocks b))).
Proof. intros H Ho. split; [|split]; intros; [eapply setb_row|eapply setb_column|eapply setb_sub]; eauto. Qed.
Lemma put_fresh h : (forall a r c f, HTab h a r c f ->
     returns (h2_Copy a) h (fun h' o => HTab h' o r c f /\ own_new h h' o) /\
     returns (h2_FromSlices a true) h (fun h' o => HTab h' o r c f /\ own_new h h' o) /\
     returns (hb_FromSlices a) h (fun h' b => HBlkIs h' b r c f /\ own_new h h' (hb_blocks b))) /\
  (forall b r c f, HBlkIs h b r c f -> returns (hb_Copy b) h (fun h' b' => HBlkIs h' b' r c f /\ own_new h h' (hb_blocks b'))).
Proof. split; intros; [|apply own_blkcopy; auto]. destruct (own_array _ _ _ _ _ H). split; [auto|split; [auto|]]. apply own_blkfrom. auto. Qed.
End PutBlk.

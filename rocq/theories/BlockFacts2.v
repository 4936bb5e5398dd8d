(** Proofs about the BlockRealMatrix model: rows, columns, raw data. *)
From Coq Require Import ZArith List Lia Bool.
From Verif Require Import Base BaseLemmas Scalar Vector VecSpec VectorFacts Matrix BlockM MatSpec MatFacts Array2DFacts BlockLoops BlockFacts.
Import ListNotations.
Open Scope Z_scope.

Section BlockFacts2.
Context {O : Ops}.

Lemma bw_next n J : 1 <= n -> 0 <= J < nblk n -> Z.min (J * 52) n = J * 52 /\ J * 52 + bw n J = Z.min ((J + 1) * 52) n.
Proof. intros Hn HJ. pose proof (nblk_spec n Hn). unfold bw. lia. Qed.
Lemma nblk_end n : 1 <= n -> Z.min (nblk n * 52) n = n.
Proof. intros Hn. pose proof (nblk_spec n Hn). lia. Qed.

Lemma b_RowAt_spec b r c f p : BIs b r c f -> 0 <= p < r -> wp (b_RowAt b p) (fun v => VTab v c (f p)).
Proof.
  intros Hb Hp. pose proof (MatIs_blk _ _ _ _ Hb) as Hm. unfold b_RowAt.
  rewrite checkRowIndex_ok by (rewrite (MatIs_rows _ _ _ _ Hm); auto).
  destruct Hb as (bl & -> & Hr & Hc & HT). bsimp. b52. wpb. apply wp_make; [lia|].
  destruct (blk_of r p Hr Hp) as [HI Hx]. set (I := p / 52) in *. set (x := p - I * 52) in *. wpb.
  pose proof (nblk_pos c Hc).
  apply (wp_for (fun J s => snd s = Z.min (J * 52) c /\ len (fst s) = c /\
     forall q, 0 <= q < Z.min (J * 52) c -> nthZ (fst s) q = f p q)); try lia.
  - cbn [fst snd]. split; [lia|]. split; [apply len_repeat; lia|]. intros; lia.
  - intros J [out k] HJ (Hk & Hl & Hn). cbn [fst snd] in *. subst k.
    rewrite blockWidth_bw by auto. destruct (bw_next c J Hc HJ) as [E1 E2]. rewrite E1 in *.
    pose proof (bw_bounds c J Hc HJ). pose proof (bw_bounds r I Hr HI).
    destruct (BTab_BlkTab _ _ _ _ I J HT HI HJ) as (blk & -> & HB). simp. pose proof (proj1 HB). wpb.
    apply wp_slice_copy; try nia. intros out' Hl' Hn'. apply wp_ok. cbn [fst snd]. split; [lia|]. split; [lia|].
    intros q Hq. rewrite Hn' by lia. zb.
    + replace (x * bw c J + (q - J * 52)) with (x * bw c J + (q - J * 52)) by lia.
      rewrite (proj2 HB) by lia. f_equal; lia.
    + apply Hn; lia.
  - intros [out k] (Hk & Hl & Hn). cbn [fst snd] in *. apply wp_ok. rewrite nblk_end in Hn by auto. split; auto.
Qed.
Lemma b_ColumnAt_spec b r c f q : BIs b r c f -> 0 <= q < c -> wp (b_ColumnAt b q) (fun v => VTab v r (fun i => f i q)).
Proof.
  intros Hb Hq. pose proof (MatIs_blk _ _ _ _ Hb) as Hm. unfold b_ColumnAt.
  rewrite (checkColumnIndex_ok _ c) by (auto; apply (MatIs_cols _ _ _ _ Hm)).
  destruct Hb as (bl & -> & Hr & Hc & HT). bsimp. b52. wpb. apply wp_make; [lia|].
  destruct (blk_of c q Hc Hq) as [HJ Hy]. set (J := q / 52) in *. set (y := q - J * 52) in *. wpb.
  pose proof (nblk_pos r Hr).
  apply (wp_for (fun I s => snd s = Z.min (I * 52) r /\ len (fst s) = r /\
     forall p, 0 <= p < snd s -> nthZ (fst s) p = f p q)); try lia.
  - cbn [fst snd]. split; [lia|]. split; [apply len_repeat; lia|]. intros; lia.
  - intros I [out k] HI (Hk & Hl & Hn). cbn [fst snd] in *. subst k.
    rewrite blockHeight_bw by auto. destruct (bw_next r I Hr HI) as [E1 E2]. rewrite E1 in *.
    pose proof (bw_bounds c J Hc HJ). pose proof (bw_bounds r I Hr HI).
    apply (wp_for (fun x s => snd s = I * 52 + x /\ len (fst s) = r /\
      forall p, 0 <= p < snd s -> nthZ (fst s) p = f p q)); try lia.
    + cbn [fst snd]. split; [lia|]. split; auto.
    + intros x [out' k] Hx (Hk & Hl' & Hn'). cbn [fst snd] in *. subst k.
      rewrite blockWidth_bw by auto. rewrite (BTab_get bl r c f) by auto. simp. wpb. apply wp_zset; [lia|].
      apply wp_ok. cbn [fst snd]. rewrite len_upd. split; [lia|]. split; auto.
      intros p Hp. rewrite nthZ_upd by lia. zb.
      * f_equal; lia.
      * apply Hn'; lia.
    + intros [out' k] (Hk & Hl' & Hn'). cbn [fst snd] in *. subst k. split; [lia|]. split; auto.
  - intros [out k] (Hk & Hl & Hn). cbn [fst snd] in *. apply wp_ok. rewrite nblk_end in Hk by auto. subst k. split; auto.
Qed.

(** Writing one row. *)
Lemma b_SetRow_spec b r c f p v g : BIs b r c f -> 0 <= p < r -> VTab v c g ->
  wp (b_SetRow b p v) (fun b' => BIs b' r c (rowset f p g)).
Proof.
  intros Hb Hp [Hlv Hv]. pose proof (MatIs_blk _ _ _ _ Hb) as Hm. unfold b_SetRow.
  rewrite checkRowIndex_ok by (rewrite (MatIs_rows _ _ _ _ Hm); auto).
  destruct Hb as (bl & -> & Hr & Hc & HT). bsimp. b52. rewrite Hlv, Z.eqb_refl. cbn [negb].
  destruct (blk_of r p Hr Hp) as [HI Hx]. set (I := p / 52) in *. set (x := p - I * 52) in *. wpb.
  pose proof (nblk_pos c Hc).
  apply (wp_for (fun J s => snd s = Z.min (J * 52) c /\
     BTab (fst s) r c (fun i j => if (i =? p) && (j <? Z.min (J * 52) c) then g j else f i j))); try lia.
  - cbn [fst snd]. split; [lia|]. eapply BTab_ext; eauto. intros i j Hi Hj. cbn beta. zb.
  - intros J [bl' k] HJ (Hk & HT'). cbn [fst snd] in *. subst k.
    rewrite blockWidth_bw by auto. destruct (bw_next c J Hc HJ) as [E1 E2]. rewrite E1 in *.
    pose proof (bw_bounds c J Hc HJ). pose proof (bw_bounds r I Hr HI).
    destruct (BTab_BlkTab _ _ _ _ I J HT' HI HJ) as (blk & -> & HB). simp. wpb.
    replace (x * bw c J) with (x * bw c J + 0) by lia.
    eapply row_copy; try apply (proj1 HB); try lia. intros blk' Hl' Hn'.
    destruct (BTab_put bl' r c _ I J blk' (fun i j => if i =? p then g j else f i j) HT' HI HJ) as (bl2 & -> & HT2).
    { split; [lia|]. intros x' y' Hx' Hy'. rewrite Hn' by lia. rewrite (proj2 HB) by lia.
      destruct (Z.eqb_spec x' x), (Z.eqb_spec (I * 52 + x') p); try lia; cbn [andb]; zb.
      rewrite Hv by lia. f_equal; lia. }
    simp. apply wp_ok. cbn [fst snd]. split; [lia|]. rewrite <- E2. eapply BTab_ext; eauto.
    intros i j Hi Hj. unfold blkset. cbn beta.
    pose proof (Z.div_mod i 52). pose proof (Z.mod_pos_bound i 52). pose proof (Z.div_mod j 52). pose proof (Z.mod_pos_bound j 52).
    assert (p / 52 = I) by reflexivity.
    destruct (Z.eqb_spec (i / 52) I), (Z.eqb_spec (j / 52) J), (Z.eqb_spec i p); cbn [andb]; auto; zb; try (subst; lia).
    all: pose proof (bw_last c J Hc HJ); destruct (Z.eqb_spec J (nblk c - 1)); try lia.
  - intros [bl' k] (Hk & HT'). cbn [fst snd] in *. apply wp_ok. exists bl'. split; auto. split; auto. split; auto.
    eapply BTab_ext; eauto. rewrite nblk_end by auto. intros i j Hi Hj. unfold rowset. cbn beta. zb.
Qed.
(** Writing one column. *)
Lemma b_SetColumn_spec b r c f q v g : BIs b r c f -> 0 <= q < c -> VTab v r g ->
  wp (b_SetColumn b q v) (fun b' => BIs b' r c (colset f q g)).
Proof.
  intros Hb Hq Hv. pose proof (MatIs_blk _ _ _ _ Hb) as Hm. unfold b_SetColumn.
  rewrite (checkColumnIndex_ok _ c) by (auto; apply (MatIs_cols _ _ _ _ Hm)).
  destruct Hb as (bl & -> & Hr & Hc & HT). bsimp. b52. rewrite (proj1 Hv), Z.eqb_refl. cbn [negb].
  destruct (blk_of c q Hc Hq) as [HJ Hy]. set (J := q / 52) in *. set (y := q - J * 52) in *. wpb.
  pose proof (nblk_pos r Hr).
  apply (wp_for (fun I s => snd s = Z.min (I * 52) r /\
     BTab (fst s) r c (fun i j => if (j =? q) && (i <? snd s) then g i else f i j))); try lia.
  - cbn [fst snd]. split; [lia|]. eapply BTab_ext; eauto. intros i j Hi Hj. cbn beta. zb.
  - intros I [bl' k] HI (Hk & HT'). cbn [fst snd] in *. subst k.
    rewrite blockHeight_bw by auto. destruct (bw_next r I Hr HI) as [E1 E2]. rewrite E1 in *.
    pose proof (bw_bounds c J Hc HJ). pose proof (bw_bounds r I Hr HI).
    apply (wp_for (fun x s => snd s = I * 52 + x /\
      BTab (fst s) r c (fun i j => if (j =? q) && (i <? snd s) then g i else f i j))); try lia.
    + cbn [fst snd]. split; [lia|]. auto.
    + intros x [bl2 k] Hx (Hk & HT2). cbn [fst snd] in *. subst k.
      rewrite (VTab_get _ _ _ _ Hv) by lia. simp. rewrite blockWidth_bw by auto.
      destruct (BTab_set _ _ _ _ I J x y (g (I * 52 + x)) HT2) as (bl3 & -> & HT3); auto. simp.
      apply wp_ok. cbn [fst snd]. split; [lia|]. eapply BTab_ext; eauto. intros i j Hi Hj. unfold tset. cbn beta.
      zb. congruence.
    + intros [bl2 k] (Hk & HT2). cbn [fst snd] in *. subst k. split; [lia|]. auto.
  - intros [bl' k] (Hk & HT'). cbn [fst snd] in *. apply wp_ok. rewrite nblk_end in Hk by auto. subst k.
    exists bl'. split; auto. split; auto. split; auto.
    eapply BTab_ext; eauto. intros i j Hi Hj. unfold colset. cbn beta. zb.
Qed.

Lemma b_Data_spec b r c f : BIs b r c f -> wp (b_Data b) (fun d => RTab d r c f).
Proof.
  intros (bl & -> & Hr & Hc & HT). unfold b_Data. bsimp. b52. wpb. apply wp_make; [lia|].
  pose proof (nblk_pos c Hc). pose proof (nblk_pos r Hr).
  apply (wp_for (fun I data => len data = r /\ forall p, 0 <= p < Z.min (I * 52) r -> VTab (nthZ data p) c (f p))); try lia.
  - split; [apply len_repeat; lia|]. intros; lia.
  - intros I data HI [Hl Hd]. destruct (bw_next r I Hr HI) as [E1 E2]. rewrite E1 in *.
    pose proof (bw_bounds r I Hr HI).
    replace (Z.min (I * 52 + 52) r) with (I * 52 + bw r I) by (unfold bw; lia). wpb.
    set (lc := c - (nblk c - 1) * 52).
    assert (Elc : bw c (nblk c - 1) = lc). { rewrite bw_last by (auto; lia). rewrite Z.eqb_refl. reflexivity. }
    pose proof (bw_bounds c (nblk c - 1) Hc ltac:(lia)).
    apply (wp_for (fun p s => snd (fst s) = (p - I * 52) * 52 /\ snd s = (p - I * 52) * lc /\
       len (fst (fst s)) = r /\ forall p', 0 <= p' < p -> VTab (nthZ (fst (fst s)) p') c (f p'))); try lia.
    + cbn [fst snd]. split; [lia|]. split; [lia|]. auto.
    + intros p [[data' rp] lp] Hp (Hrp & Hlp & Hl' & Hd'). cbn [fst snd] in *. subst rp lp.
      remember (p - I * 52) as x eqn:Ex. assert (Ep : p = I * 52 + x) by lia.
      wpb. apply wp_make; [lia|]. wpb.
      apply (wp_for (fun J s => snd (fst s) = I * nblk c + J /\ snd s = J * 52 /\ len (fst (fst s)) = c /\
        forall q, 0 <= q < J * 52 -> nthZ (fst (fst s)) q = f p q)); try lia.
      * cbn [fst snd]. split; [lia|]. split; [lia|]. split; [apply len_repeat; lia|]. intros; lia.
      * intros J [[dp bi] dpos] HJ (Hbi & Hdpos & Hldp & Hndp). cbn [fst snd] in *. subst bi dpos.
        pose proof (bw_full c J Hc HJ) as Ew. pose proof (bw_bounds c J Hc ltac:(lia)).
        destruct (BTab_BlkTab _ _ _ _ I J HT HI ltac:(lia)) as (blk & -> & HB). simp. pose proof (proj1 HB) as Hlb. wpb.
        rewrite Ew in Hlb. apply wp_slice_copy; try nia. intros dp' Hl2 Hn2. apply wp_ok. cbn [fst snd].
        split; [lia|]. split; [lia|]. split; [lia|]. intros q Hq. rewrite Hn2 by lia. zb.
        -- pose proof (proj2 HB x (q - J * 52) ltac:(lia) ltac:(lia)) as E. rewrite Ew in E. rewrite E. f_equal; lia.
        -- apply Hndp; lia.
      * intros [[dp bi] dpos] (Hbi & Hdpos & Hldp & Hndp). cbn [fst snd] in *. subst bi dpos.
        destruct (BTab_BlkTab _ _ _ _ I (nblk c - 1) HT HI ltac:(lia)) as (blk & -> & HB). simp.
        pose proof (proj1 HB) as Hlb. rewrite Elc in *. wpb.
        apply wp_slice_copy; try nia. intros dp' Hl2 Hn2. wpb. apply wp_zset; [lia|]. apply wp_ok. cbn [fst snd].
        split; [lia|]. split; [lia|]. rewrite len_upd. split; [lia|]. intros p' Hp'. rewrite nthZ_upd by lia.
        destruct (Z.eqb_spec p p'); [|apply Hd'; lia]. subst p'. split; [lia|].
        intros q Hq. rewrite Hn2 by lia. zb.
        -- pose proof (proj2 HB x (q - (nblk c - 1) * 52) ltac:(lia) ltac:(rewrite Elc; lia)) as E. rewrite Elc in E.
           rewrite E. f_equal; lia.
        -- apply Hndp; lia.
    + intros [[data' rp] lp] (Hrp & Hlp & Hl' & Hd'). cbn [fst snd] in *. apply wp_ok. rewrite <- E2. auto.
  - intros data [Hl Hd]. rewrite nblk_end in Hd by auto. split; [split; auto|].
    + intros i Hi. apply (Hd i Hi).
    + intros i j Hi Hj. apply (Hd i Hi); auto.
Qed.

Lemma b_SetEntry_loop_row b r c f p m g : BIs b r c f -> 0 <= p < r -> MatIs m 1 c g ->
  wp (for_ 0 c (fun i b => let* x := m_At m 0 i in b_SetEntry b p i x) b) (fun b' => BIs b' r c (rowset f p (g 0))).
Proof.
  intros Hb Hp Hm. assert (1 <= c) by (destruct Hb as (? & _ & _ & ? & _); auto).
  assert (Hr : 1 <= r) by (destruct Hb as (? & _ & ? & _); auto).
  apply (wp_for (fun k b => BIs b r c (fun i j => if (i =? p) && (j <? k) then g 0 j else f i j))); try lia.
  - destruct Hb as (bl & -> & _ & _ & HT). exists bl. split; auto. split; auto. split; auto. eapply BTab_ext; eauto. intros i j Hi Hj. cbn beta. zb.
  - intros k b' Hk Hb'. rewrite (MatIs_At m 1 c g) by (auto; lia). simp.
    destruct (b_SetEntry_spec b' r c _ p k (g 0 k) Hb' Hp Hk) as (b2 & -> & Hb2). apply wp_ok.
    destruct Hb2 as (bl & -> & _ & _ & HT). exists bl. split; auto. split; auto. split; auto. eapply BTab_ext; eauto. intros i j Hi Hj. unfold tset. cbn beta. zb. congruence.
  - intros b' (bl & -> & _ & _ & HT). exists bl. split; auto. split; auto. split; auto. eapply BTab_ext; eauto. intros i j Hi Hj. unfold rowset. cbn beta. zb.
Qed.
Lemma b_SetEntry_loop_col b r c f q m g : BIs b r c f -> 0 <= q < c -> MatIs m r 1 g ->
  wp (for_ 0 r (fun i b => let* x := m_At m i 0 in b_SetEntry b i q x) b) (fun b' => BIs b' r c (colset f q (fun i => g i 0))).
Proof.
  intros Hb Hq Hm. assert (1 <= c) by (destruct Hb as (? & _ & _ & ? & _); auto).
  assert (Hr : 1 <= r) by (destruct Hb as (? & _ & ? & _); auto).
  apply (wp_for (fun k b => BIs b r c (fun i j => if (j =? q) && (i <? k) then g i 0 else f i j))); try lia.
  - destruct Hb as (bl & -> & _ & _ & HT). exists bl. split; auto. split; auto. split; auto. eapply BTab_ext; eauto. intros i j Hi Hj. cbn beta. zb.
  - intros k b' Hk Hb'. rewrite (MatIs_At m r 1 g) by (auto; lia). simp.
    destruct (b_SetEntry_spec b' r c _ k q (g k 0) Hb' Hk Hq) as (b2 & -> & Hb2). apply wp_ok.
    destruct Hb2 as (bl & -> & _ & _ & HT). exists bl. split; auto. split; auto. split; auto. eapply BTab_ext; eauto. intros i j Hi Hj. unfold tset. cbn beta. zb. congruence.
  - intros b' (bl & -> & _ & _ & HT). exists bl. split; auto. split; auto. split; auto. eapply BTab_ext; eauto. intros i j Hi Hj. unfold colset. cbn beta. zb.
Qed.

(** One-row and one-column block matrices. *)
Lemma nblk_1 : nblk 1 = 1. Proof. reflexivity. Qed.
Lemma bw_1 : bw 1 0 = 1. Proof. reflexivity. Qed.
Lemma H01 : 0 <= 0 < nblk 1. Proof. rewrite nblk_1. lia. Qed.

Lemma b_RowMatrixAt_spec b r c f p : BIs b r c f -> 0 <= p < r ->
  wp (b_RowMatrixAt b p) (fun b' => BIs b' 1 c (fun _ j => f p j)).
Proof.
  intros Hb Hp. pose proof (MatIs_blk _ _ _ _ Hb) as Hm. unfold b_RowMatrixAt.
  rewrite checkRowIndex_ok by (rewrite (MatIs_rows _ _ _ _ Hm); auto).
  destruct Hb as (bl & -> & Hr & Hc & HT). bsimp. b52.
  destruct (New_ok 1 c ltac:(lia) Hc) as (b0 & -> & HT0). bsimp.
  destruct (blk_of r p Hr Hp) as [HI Hx]. set (I := p / 52) in *. set (x := p - I * 52) in *. wpb.
  pose proof (nblk_pos c Hc).
  (* after block J-1 the current output block is J-1 and it is full *)
  apply (wp_for (fun J s => snd (fst s) = Z.max 0 (J - 1) /\
     snd s = (if J =? 0 then 0 else bw c (J - 1)) /\
     BTab (fst (fst s)) 1 c (fun i j => if j <? Z.min (J * 52) c then f p j else fzero))); try lia.
  - cbn [fst snd]. split; [lia|]. split; auto. eapply BTab_ext; try exact HT0; try lia. intros i j Hi Hj. cbn beta. zb.
  - intros J [[bo bi] k] HJ (Hbi & Hk & HTo). cbn [fst snd] in *. subst bi k.
    rewrite blockWidth_bw by auto. destruct (bw_next c J Hc HJ) as [E1 E2]. rewrite E1 in *.
    pose proof (bw_bounds c J Hc HJ). pose proof (bw_bounds r I Hr HI).
    destruct (BTab_BlkTab _ _ _ _ I J HT HI HJ) as (src & Esrc & HS).
    (* filling block J of the output *)
    assert (Hfill : forall bo' s0, BTab bo' 1 c (fun i j => if j <? J * 52 then f p j else fzero) ->
      s0 = x * bw c J ->
      exists ob, zget bo' J = Ok ob /\ len ob = bw c J /\
      wp (slice_copy ob 0 (bw c J) src s0 (s0 + bw c J)) (fun ob' =>
        exists bo2, zset bo' J ob' = Ok bo2 /\ BTab bo2 1 c (fun i j => if j <? Z.min ((J + 1) * 52) c then f p j else fzero))).
    { intros bo' s0 HB ->. destruct (BTab_BlkTab _ _ _ _ 0 J HB H01 HJ) as (ob & Eo & HO).
      rewrite Z.mul_0_l, Z.add_0_l in Eo. pose proof (proj1 HO) as Hlo. rewrite bw_1, Z.mul_1_l in Hlo.
      exists ob. split; auto. split; auto. pose proof (proj1 HS).
      apply wp_slice_copy; try nia. intros ob' Hl' Hn'.
      destruct (BTab_put bo' 1 c _ 0 J ob' (fun _ j => f p j) HB H01 HJ) as (bo2 & E & HT2).
      { split; [rewrite bw_1; lia|]. intros x' y' Hx' Hy'. rewrite bw_1 in Hx'. assert (x' = 0) by lia. subst x'.
        rewrite Hn' by lia. zb. rewrite Z.mul_0_l, Z.add_0_l, Z.sub_0_r.
        rewrite (proj2 HS) by lia. f_equal; lia. }
      rewrite Z.mul_0_l, Z.add_0_l in E. exists bo2. split; auto. eapply BTab_ext; try eassumption; try lia.
      rewrite <- E2. intros i j Hi Hj. unfold blkset. cbn beta.
      pose proof (Z.div_mod i 52). pose proof (Z.mod_pos_bound i 52). pose proof (Z.div_mod j 52). pose proof (Z.mod_pos_bound j 52).
      pose proof (bw_last c J Hc HJ).
      destruct (Z.eqb_spec (i / 52) 0), (Z.eqb_spec (j / 52) J); cbn [andb]; auto; zb;
        destruct (Z.eqb_spec J (nblk c - 1)); lia. }
    destruct (Z.eqb_spec J 0) as [->|HJ0].
    + replace (Z.max 0 (0 - 1)) with 0 by lia. rewrite Z.mul_0_l in *.
      destruct (Hfill bo (x * bw c 0) HTo eq_refl) as (ob & Eo & Hlo & Hcopy). rewrite Eo. simp.
      rewrite Hlo, Z.sub_0_r. rewrite Esrc. simp. rewrite Z.ltb_irrefl. wpb. rewrite Z.add_0_l.
      eapply wp_conseq; [exact Hcopy|]. intros ob' (bo2 & -> & HB2). simp. apply wp_ok. cbn [fst snd].
      split; [lia|]. split; auto.
    + replace (Z.max 0 (J - 1)) with (J - 1) by lia.
      destruct (BTab_BlkTab _ _ _ _ 0 (J - 1) HTo H01 ltac:(lia)) as (ob & Eo & HO).
      rewrite Z.mul_0_l, Z.add_0_l in Eo. rewrite Eo. simp. rewrite (proj1 HO), bw_1, Z.mul_1_l, Z.sub_diag. rewrite Esrc. simp.
      destruct (Z.ltb_spec 0 (bw c J)); [|lia]. pose proof (proj1 HO) as Hlo. rewrite bw_1, Z.mul_1_l in Hlo.
      pose proof (bw_bounds c (J - 1) Hc ltac:(lia)). pose proof (proj1 HS). wpb.
      apply wp_slice_copy; try nia. intros ob1 Hl1 Hn1.
      assert (Eob : ob1 = ob). { apply list_ext; auto. intros i Hi. rewrite Hn1 by lia. zb. }
      subst ob1. destruct (BTab_put bo 1 c _ 0 (J - 1) ob _ HTo H01 ltac:(lia) HO) as (bo1 & E & HT1).
      rewrite Z.mul_0_l, Z.add_0_l in E. rewrite E. simp. rewrite Z.sub_0_r. replace (J - 1 + 1) with J by lia.
      destruct (Hfill bo1 (x * bw c J)) as (ob2 & Eo2 & Hlo2 & Hcopy); auto.
      { eapply BTab_ext; try eassumption; try lia. intros i j Hi Hj. unfold blkset. cbn beta.
        destruct ((i / 52 =? 0) && (j / 52 =? J - 1)); auto. }
      rewrite Eo2. simp. wpb. eapply wp_conseq; [exact Hcopy|]. intros ob' (bo2 & -> & HB2). simp. apply wp_ok. cbn [fst snd].
      split; [lia|]. split; auto. destruct (Z.eqb_spec (J + 1) 0); [lia|]. f_equal; lia.
  - intros [[bo bi] k] (Hbi & Hk & HTo). cbn [fst snd] in *. apply wp_ok. exists bo. split; auto. split; [lia|]. split; auto.
    eapply BTab_ext; try eassumption; try lia. rewrite nblk_end by auto. intros i j Hi Hj. cbn beta. zb.
Qed.
End BlockFacts2.

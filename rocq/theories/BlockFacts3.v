(** Proofs about the BlockRealMatrix model: row and column matrices,
    sub-matrices, comparison. *)
From Coq Require Import ZArith List Lia Bool.
From Verif Require Import Base BaseLemmas Scalar Vector VecSpec VectorFacts Matrix BlockM MatSpec MatFacts Array2DFacts BlockLoops BlockFacts BlockFacts2.
Import ListNotations.
Open Scope Z_scope.

Section BlockFacts3.
Context {O : Ops}.

Lemma BIs_ext b r c f g : BIs b r c f -> (forall i j, 0 <= i < r -> 0 <= j < c -> f i j = g i j) -> BIs b r c g.
Proof. intros (bl & -> & Hr & Hc & HT) H. exists bl. split; auto. split; auto. split; auto. eapply BTab_ext; eauto. Qed.

Lemma col_get bl r t I x : BTab bl r 1 t -> 0 <= I < nblk r -> 0 <= x < bw r I -> mget bl I x = Ok (t (I * 52 + x) 0).
Proof.
  intros H HI Hx. pose proof (BTab_get bl r 1 t I 0 x 0 H HI H01 Hx ltac:(rewrite bw_1; lia)) as E.
  rewrite nblk_1, bw_1 in E. replace (I * 1 + 0) with I in E by lia. replace (x * 1 + 0) with x in E by lia. auto.
Qed.
Lemma col_set bl r t I x v : BTab bl r 1 t -> 0 <= I < nblk r -> 0 <= x < bw r I ->
  exists bl', mset bl I x v = Ok bl' /\ BTab bl' r 1 (tset t (I * 52 + x) 0 v).
Proof.
  intros H HI Hx. pose proof (BTab_set bl r 1 t I 0 x 0 v H HI H01 Hx ltac:(rewrite bw_1; lia)) as E.
  rewrite nblk_1, bw_1 in E. replace (I * 1 + 0) with I in E by lia. replace (x * 1 + 0) with x in E by lia. auto.
Qed.
Lemma col_len bl r t I : BTab bl r 1 t -> 0 <= I < nblk r -> exists blk, zget bl I = Ok blk /\ len blk = bw r I.
Proof.
  intros H HI. destruct (BTab_BlkTab _ _ _ _ I 0 H HI H01) as (blk & E & Hl & _).
  rewrite nblk_1 in E. rewrite bw_1 in Hl. replace (I * 1 + 0) with I in E by lia. exists blk. split; auto. lia.
Qed.
(** Advancing through the blocks of a one-column matrix. *)
Lemma col_next r p bi k : 1 <= r -> 0 <= p < r -> 0 <= bi < nblk r -> 0 <= k <= bw r bi -> bi * 52 + k = p ->
  exists bi' k', (if bw r bi <=? k then (bi + 1, 0) else (bi, k)) = (bi', k') /\
    0 <= bi' < nblk r /\ 0 <= k' < bw r bi' /\ bi' * 52 + k' = p.
Proof.
  intros Hr Hp Hb Hk E. pose proof (nblk_spec r Hr). destruct (Z.leb_spec (bw r bi) k).
  - assert (bi < nblk r - 1). { pose proof (bw_last r bi Hr Hb). destruct (Z.eqb_spec bi (nblk r - 1)); lia. }
    pose proof (bw_full r bi Hr ltac:(lia)). pose proof (bw_bounds r (bi + 1) Hr ltac:(lia)).
    exists (bi + 1), 0. split; auto. lia.
  - exists bi, k. split; auto. lia.
Qed.

Lemma b_ColumnMatrixAt_spec b r c f q : BIs b r c f -> 0 <= q < c ->
  wp (b_ColumnMatrixAt b q) (fun b' => BIs b' r 1 (fun i _ => f i q)).
Proof.
  intros Hb Hq. pose proof (MatIs_blk _ _ _ _ Hb) as Hm. unfold b_ColumnMatrixAt.
  rewrite (checkColumnIndex_ok _ c) by (auto; apply (MatIs_cols _ _ _ _ Hm)).
  destruct Hb as (bl & -> & Hr & Hc & HT). bsimp. b52.
  destruct (New_ok r 1 Hr ltac:(lia)) as (b0 & -> & HT0). bsimp.
  destruct (blk_of c q Hc Hq) as [HJ Hy]. set (J := q / 52) in *. set (y := q - J * 52) in *. wpb.
  pose proof (nblk_pos r Hr).
  set (Inv := fun p (s : mat * Z * Z) => 0 <= snd (fst s) < nblk r /\ 0 <= snd s <= bw r (snd (fst s)) /\ snd (fst s) * 52 + snd s = p /\
     BTab (fst (fst s)) r 1 (fun i j => if i <? p then f i q else fzero)).
  apply (wp_for (fun I s => Inv (Z.min (I * 52) r) s)); try lia.
  - unfold Inv. cbn [fst snd]. pose proof (bw_bounds r 0 Hr ltac:(lia)). split; [lia|]. split; [lia|]. split; [lia|].
    eapply BTab_ext; try exact HT0; try lia. intros i j Hi Hj. cbn beta. zb.
  - intros I s HI HInv. rewrite blockHeight_bw by auto. destruct (bw_next r I Hr HI) as [E1 E2]. rewrite E1 in HInv.
    pose proof (bw_bounds r I Hr HI).
    apply (wp_for (fun x s => Inv (I * 52 + x) s)); try lia.
    + replace (I * 52 + 0) with (I * 52) by lia. auto.
    + intros x [[bo bi] k] Hx (H1 & H2 & H3 & HTo). cbn [fst snd] in *.
      destruct (col_len _ _ _ bi HTo H1) as (ob & -> & Hlo). simp. rewrite Hlo.
      destruct (col_next r (I * 52 + x) bi k Hr) as (bi' & k' & -> & Hbi' & Hk' & Ep); auto; try lia.
      rewrite blockWidth_bw by auto. rewrite (BTab_get bl r c f) by auto. simp.
      destruct (col_set _ _ _ bi' k' (f (I * 52 + x) (J * 52 + y)) HTo Hbi' Hk') as (bo' & -> & HT'). simp.
      apply wp_ok. unfold Inv. cbn [fst snd]. split; auto. split; [lia|]. split; [lia|].
      eapply BTab_ext; try exact HT'; try lia. intros i j Hi Hj. unfold tset. cbn beta.
      replace (J * 52 + y) with q by lia. zb. f_equal; lia.
    + intros s' HInv'. rewrite <- E2. auto.
  - intros [[bo bi] k] (_ & _ & _ & HTo). cbn [fst snd] in *. apply wp_ok. exists bo. split; auto. split; auto. split; [lia|].
    rewrite nblk_end in HTo by auto. eapply BTab_ext; try exact HTo; try lia. intros i j Hi Hj. cbn beta. zb.
Qed.

Lemma b_SetColumnMatrix_spec b r c f q m g : BIs b r c f -> 0 <= q < c -> MatIs m r 1 g ->
  wp (b_SetColumnMatrix b q m) (fun b' => BIs b' r c (colset f q (fun i => g i 0))).
Proof.
  intros Hb Hq Hmm. pose proof (MatIs_blk _ _ _ _ Hb) as Hm. unfold b_SetColumnMatrix.
  rewrite (checkColumnIndex_ok _ c) by (auto; apply (MatIs_cols _ _ _ _ Hm)). bsimp.
  rewrite (MatIs_cols _ _ _ _ Hmm), (MatIs_rows _ _ _ _ Hmm). simp.
  assert (Er : b_rows b = r) by (destruct Hb as (? & -> & _); auto). rewrite Er, !Z.eqb_refl. cbn [negb orb].
  pose proof (b_SetEntry_loop_col b r c f q m g Hb Hq Hmm) as Hgen.
  destruct m as [ma|mb|md|mr mc me]; auto.
  apply MatIs_blk_inv in Hmm. destruct Hmm as (bm & -> & _ & _ & HM).
  destruct Hb as (bl & -> & Hr & Hc & HT). bsimp. b52.
  destruct (blk_of c q Hc Hq) as [HJ Hy]. set (J := q / 52) in *. set (y := q - J * 52) in *. wpb.
  pose proof (nblk_pos r Hr).
  set (Inv := fun p (s : mat * Z * Z) => 0 <= snd (fst s) < nblk r /\ 0 <= snd s <= bw r (snd (fst s)) /\ snd (fst s) * 52 + snd s = p /\
     BTab (fst (fst s)) r c (fun i j => if (j =? q) && (i <? p) then g i 0 else f i j)).
  apply (wp_for (fun I s => Inv (Z.min (I * 52) r) s)); try lia.
  - unfold Inv. cbn [fst snd]. pose proof (bw_bounds r 0 Hr ltac:(lia)). split; [lia|]. split; [lia|]. split; [lia|].
    eapply BTab_ext; try exact HT; try lia. intros i j Hi Hj. cbn beta. zb.
  - intros I s HI HInv. rewrite blockHeight_bw by auto. destruct (bw_next r I Hr HI) as [E1 E2]. rewrite E1 in HInv.
    pose proof (bw_bounds r I Hr HI).
    apply (wp_for (fun x s => Inv (I * 52 + x) s)); try lia.
    + replace (I * 52 + 0) with (I * 52) by lia. auto.
    + intros x [[bo bi] k] Hx (H1 & H2 & H3 & HTo). cbn [fst snd] in *.
      destruct (col_len _ _ _ bi HM H1) as (ob & -> & Hlo). simp. rewrite Hlo.
      destruct (col_next r (I * 52 + x) bi k Hr) as (bi' & k' & -> & Hbi' & Hk' & Ep); auto; try lia.
      rewrite (col_get _ _ _ bi' k' HM) by auto. simp. rewrite blockWidth_bw by auto.
      destruct (BTab_set _ _ _ _ I J x y (g (bi' * 52 + k') 0) HTo) as (bo' & -> & HT'); auto. simp.
      apply wp_ok. unfold Inv. cbn [fst snd]. split; auto. split; [lia|]. split; [lia|].
      eapply BTab_ext; try exact HT'; try lia. intros i j Hi Hj. unfold tset. cbn beta.
      replace (J * 52 + y) with q by lia. zb. f_equal; lia.
    + intros s' HInv'. rewrite <- E2. auto.
  - intros [[bo bi] k] (_ & _ & _ & HTo). cbn [fst snd] in *. apply wp_ok. exists bo. split; auto. split; auto. split; [lia|].
    rewrite nblk_end in HTo by auto. eapply BTab_ext; try exact HTo; try lia. intros i j Hi Hj. unfold colset. cbn beta. zb.
Qed.

Lemma row_blk bl c t J : BTab bl 1 c t -> 0 <= J < nblk c -> exists blk, zget bl J = Ok blk /\ len blk = bw c J /\
  forall y, 0 <= y < bw c J -> nthZ blk y = t 0 (J * 52 + y).
Proof.
  intros H HJ. destruct (BTab_BlkTab _ _ _ _ 0 J H H01 HJ) as (blk & E & Hl & Hn).
  rewrite bw_1 in *. exists blk. split; auto. split; [lia|]. intros y Hy. apply (Hn 0 y); lia.
Qed.
Lemma b_SetRowMatrix_spec b r c f p m g : BIs b r c f -> 0 <= p < r -> MatIs m 1 c g ->
  wp (b_SetRowMatrix b p m) (fun b' => BIs b' r c (rowset f p (g 0))).
Proof.
  intros Hb Hp Hmm. pose proof (MatIs_blk _ _ _ _ Hb) as Hm. unfold b_SetRowMatrix.
  rewrite checkRowIndex_ok by (rewrite (MatIs_rows _ _ _ _ Hm); auto). bsimp.
  rewrite (MatIs_cols _ _ _ _ Hmm), (MatIs_rows _ _ _ _ Hmm). simp.
  assert (Ec : b_columns b = c) by (destruct Hb as (? & -> & _); auto). rewrite Ec, !Z.eqb_refl. cbn [negb orb].
  pose proof (b_SetEntry_loop_row b r c f p m g Hb Hp Hmm) as Hgen.
  destruct m as [ma|mb|md|mr mc me]; auto.
  apply MatIs_blk_inv in Hmm. destruct Hmm as (bm & -> & _ & _ & HM).
  destruct Hb as (bl & -> & Hr & Hc & HT). bsimp. b52.
  destruct (blk_of r p Hr Hp) as [HI Hx]. set (I := p / 52) in *. set (x := p - I * 52) in *. wpb.
  pose proof (nblk_pos c Hc).
  apply (wp_for (fun J s => snd (fst s) = Z.max 0 (J - 1) /\
     snd s = (if J =? 0 then 0 else bw c (J - 1)) /\
     BTab (fst (fst s)) r c (fun i j => if (i =? p) && (j <? Z.min (J * 52) c) then g 0 j else f i j))); try lia.
  - cbn [fst snd]. split; [lia|]. split; auto. eapply BTab_ext; try exact HT; try lia. intros i j Hi Hj. cbn beta. zb.
  - intros J [[bo bi] k] HJ (Hbi & Hk & HTo). cbn [fst snd] in *. subst bi k.
    rewrite blockWidth_bw by auto. destruct (bw_next c J Hc HJ) as [E1 E2]. rewrite E1 in *.
    pose proof (bw_bounds c J Hc HJ). pose proof (bw_bounds r I Hr HI).
    destruct (BTab_BlkTab _ _ _ _ I J HTo HI HJ) as (dst & Ed & HD).
    destruct (row_blk _ _ _ J HM HJ) as (mb & Emb & Hlm & Hnm).
    assert (Hfill : forall d0, d0 = dst -> wp (slice_copy d0 (x * bw c J) (x * bw c J + bw c J) mb 0 (bw c J)) (fun d =>
       exists bo2, zset bo (I * nblk c + J) d = Ok bo2 /\ 
        BTab bo2 r c (fun i j => if (i =? p) && (j <? Z.min ((J + 1) * 52) c) then g 0 j else f i j))).
    { intros d0 ->. replace (x * bw c J) with (x * bw c J + 0) by lia.
      change (bw c J) with (0 + bw c J) at 4. eapply row_copy; try apply (proj1 HD); try lia.
      intros d Hld Hnd.
      destruct (BTab_put bo r c _ I J d (fun i j => if i =? p then g 0 j else f i j) HTo HI HJ) as (bo2 & E & HT2).
      { split; [lia|]. intros x' y' Hx' Hy'. rewrite Hnd by lia. rewrite (proj2 HD) by lia.
        destruct (Z.eqb_spec x' x), (Z.eqb_spec (I * 52 + x') p); try lia; cbn [andb]; zb.
        rewrite Hnm by lia. f_equal; lia. }
      exists bo2. split; auto. rewrite <- E2. eapply BTab_ext; try exact HT2; try lia.
      intros i j Hi Hj. unfold blkset. cbn beta.
      pose proof (Z.div_mod i 52). pose proof (Z.mod_pos_bound i 52). pose proof (Z.div_mod j 52). pose proof (Z.mod_pos_bound j 52).
      assert (p / 52 = I) by reflexivity.
      destruct (Z.eqb_spec (i / 52) I), (Z.eqb_spec (j / 52) J), (Z.eqb_spec i p); cbn [andb]; auto; zb; try (subst; lia).
      all: pose proof (bw_last c J Hc HJ); destruct (Z.eqb_spec J (nblk c - 1)); try lia. }
    destruct (Z.eqb_spec J 0) as [->|HJ0].
    + replace (Z.max 0 (0 - 1)) with 0 by lia. rewrite Emb. simp. rewrite Hlm, Z.sub_0_r. rewrite Ed. simp.
      rewrite Z.ltb_irrefl. wpb. rewrite Z.add_0_l.
      eapply wp_conseq; [apply Hfill; auto|]. intros d (bo2 & -> & HB2). simp. apply wp_ok. cbn [fst snd].
      split; [lia|]. split; auto.
    + replace (Z.max 0 (J - 1)) with (J - 1) by lia.
      destruct (row_blk _ _ _ (J - 1) HM ltac:(lia)) as (mb1 & Emb1 & Hlm1 & Hnm1). rewrite Emb1. simp.
      rewrite Hlm1, Z.sub_diag. rewrite Ed. simp. destruct (Z.ltb_spec 0 (bw c J)); [|lia].
      pose proof (bw_bounds c (J - 1) Hc ltac:(lia)). pose proof (proj1 HD). wpb.
      apply wp_slice_copy; try nia. intros d1 Hl1 Hn1.
      assert (Ed1 : d1 = dst). { apply list_ext; auto. intros i Hi. rewrite Hn1 by lia. zb. }
      subst d1. rewrite Z.sub_0_r. replace (J - 1 + 1) with J by lia. rewrite Emb. simp. wpb.
      eapply wp_conseq; [apply Hfill; auto|]. intros d (bo2 & -> & HB2). simp. apply wp_ok. cbn [fst snd].
      split; [lia|]. split; auto. destruct (Z.eqb_spec (J + 1) 0); [lia|]. f_equal; lia.
  - intros [[bo bi] k] (Hbi & Hk & HTo). cbn [fst snd] in *. apply wp_ok. exists bo. split; auto. split; [lia|]. split; auto.
    eapply BTab_ext; try exact HTo; try lia. rewrite nblk_end by auto. intros i j Hi Hj. unfold rowset. cbn beta. zb.
Qed.

(** Equals. *)
Lemma b_Equals_spec b m r c f r' c' g : BIs b r c f -> MatIs m r' c' g ->
  exists e, b_Equals b false (Some m) = Ok e /\
  (e = true <-> r' = r /\ c' = c /\ forall i j, 0 <= i < r -> 0 <= j < c -> fne (f i j) (g i j) = false).
Proof.
  intros (bl & -> & Hr & Hc & HT) Hm. unfold b_Equals. bsimp.
  rewrite (MatIs_cols _ _ _ _ Hm), (MatIs_rows _ _ _ _ Hm). simp.
  destruct (Z.eqb_spec c' c), (Z.eqb_spec r' r); cbn [negb orb]; try (eexists; split; [reflexivity|]; split; [discriminate|lia]).
  subst r' c'.
  destruct (for_brk2_exists r c (fun i j => fne (f i j) (g i j))
    (fun row col _ => let* x := b_At (mkBlock bl r c (nblk r) (nblk c)) row col in let* y := m_At m row col in Ok (fne x y, tt))) as (e & E & He); try lia.
  { intros i j [] Hi Hj. rewrite (b_At_ok bl r c f) by auto. simp. rewrite (MatIs_At m r c g) by auto. reflexivity. }
  cbn beta in E. rewrite E. simp. exists (negb e). split; auto. rewrite negb_true_iff. split.
  - intros ->. split; auto. split; auto. intros i j Hi Hj. apply not_true_is_false. intros E'.
    assert (false = true) by (apply He; eauto 8). discriminate.
  - intros (_ & _ & H). apply not_true_is_false. intros E'. apply He in E'. destruct E' as (i & j & Hi & Hj & E').
    rewrite H in E' by auto. discriminate.
Qed.

(** SetSubMatrix. *)
Lemma b_SetSubMatrix_spec b r c f d r' c' g row column : BIs b r c f ->
  1 <= r' -> 1 <= c' -> RTab d r' c' g -> 0 <= row -> 0 <= column -> row + r' <= r -> column + c' <= c ->
  wp (b_SetSubMatrix b (Some d) row column) (fun b' => BIs b' r c (fun i j =>
    if (row <=? i) && (i <? row + r') && (column <=? j) && (j <? column + c') then g (i - row) (j - column) else f i j)).
Proof.
  intros Hb Hr' Hc' HD H1 H2 H3 H4. pose proof (MatIs_blk _ _ _ _ Hb) as Hm. pose proof HD as [[Hl Hrr] Hv].
  unfold b_SetSubMatrix. rewrite zget_ok by lia. simp. rewrite Hrr by lia. destruct (Z.eqb_spec c' 0); [lia|]. rewrite Hl.
  rewrite (checkSubMatrixIndex_ok _ c) by (rewrite ?(MatIs_rows _ _ _ _ Hm); eauto using MatIs_cols; lia). simp.
  pose proof (rows_check_ok d r' c' 0 EDimMismatch (fun e => Panic e) (conj Hl Hrr) ltac:(lia) ltac:(lia)) as Ec.
  cbn beta in Ec. rewrite Ec. simp. destruct Hb as (bl & -> & Hr & Hc & HT). bsimp. b52. cbv zeta. wpb.
  set (er := row + r' - 1). set (ec := column + c' - 1).
  assert (Hrow : 0 <= row / 52 /\ row / 52 * 52 <= row < row / 52 * 52 + 52).
  { pose proof (Z.div_mod row 52). pose proof (Z.mod_pos_bound row 52). lia. }
  assert (Hcol : 0 <= column / 52 /\ column / 52 * 52 <= column < column / 52 * 52 + 52).
  { pose proof (Z.div_mod column 52). pose proof (Z.mod_pos_bound column 52). lia. }
  assert (Her : (er + 52) / 52 * 52 <= er + 52 < (er + 52) / 52 * 52 + 52).
  { pose proof (Z.div_mod (er + 52) 52). pose proof (Z.mod_pos_bound (er + 52) 52). lia. }
  assert (Hec : (ec + 52) / 52 * 52 <= ec + 52 < (ec + 52) / 52 * 52 + 52).
  { pose proof (Z.div_mod (ec + 52) 52). pose proof (Z.mod_pos_bound (ec + 52) 52). lia. }
  pose proof (nblk_spec r Hr) as Hnr. pose proof (nblk_spec c Hc) as Hnc.
  set (R0 := row / 52) in *. set (R1 := (er + 52) / 52) in *. set (C0 := column / 52) in *. set (C1 := (ec + 52) / 52) in *.
  set (T := fun (done : Z -> Z -> bool) i j =>
    if (row <=? i) && (i <? row + r') && (column <=? j) && (j <? column + c') && done i j then g (i - row) (j - column) else f i j).
  assert (TE : forall d1 d2 i j, (row <= i < row + r' -> column <= j < column + c' -> d1 i j = d2 i j) -> T d1 i j = T d2 i j).
  { clear. intros d1 d2 i j H. unfold T.
    destruct (Z.leb_spec row i), (Z.ltb_spec i (row + r')), (Z.leb_spec column j), (Z.ltb_spec j (column + c')); cbn [andb]; auto.
    rewrite H by lia. auto. }
  assert (T1 : forall dn i j, row <= i < row + r' -> column <= j < column + c' -> dn i j = true -> T dn i j = g (i - row) (j - column)).
  { clear. intros dn i j Hi Hj E. unfold T. rewrite E. zb. }
  assert (T0 : forall dn i j, (row <= i < row + r' -> dn i j = false) -> T dn i j = f i j).
  { clear. intros dn i j E. unfold T. destruct (Z.leb_spec row i), (Z.ltb_spec i (row + r')); cbn [andb]; auto.
    rewrite E by lia. rewrite andb_false_r. auto. }
  assert (T0' : forall dn i j, ~ (row <= i < row + r' /\ column <= j < column + c') -> T dn i j = f i j).
  { clear. intros dn i j E. unfold T. zb. }
  clear Hv Ec Hrr Hl Hm. clearbody T.
  apply (wp_for (fun I bl => BTab bl r c (T (fun i j => i <? I * 52)))); try lia.
  - eapply BTab_ext; try exact HT; auto. intros i j Hi Hj. rewrite T0; auto. intros; zb.
  - intros I bl1 HI HT1. rewrite blockHeight_bw by lia. pose proof (bw_bounds r I Hr ltac:(lia)).
    assert (HwI : bw r I = Z.min (I * 52 + 52) r - I * 52) by reflexivity.
    apply (wp_for (fun J bl => BTab bl r c (T (fun i j => (i <? I * 52) || ((i <? I * 52 + 52) && (j <? J * 52)))))); try lia.
    + eapply BTab_ext; try exact HT1; auto. intros i j Hi Hj. apply TE; intros; zb.
    + intros J bl2 HJ HT2. rewrite blockWidth_bw by lia. pose proof (bw_bounds c J Hc ltac:(lia)).
      assert (HwJ : bw c J = Z.min (J * 52 + 52) c - J * 52) by reflexivity.
      set (i0 := Z.max row (I * 52)). set (i1 := Z.min (er + 1) (I * 52 + bw r I)).
      set (j0 := Z.max column (J * 52)). set (j1 := Z.min (ec + 1) (J * 52 + bw c J)).
      apply (wp_for (fun k bl => BTab bl r c (T (fun i j => (i <? I * 52) || ((i <? I * 52 + 52) && (j <? J * 52)) ||
          ((i <? k) && (j <? J * 52 + 52)))))); try lia.
      * eapply BTab_ext; try exact HT2; auto. intros i j Hi Hj. apply TE; intros; zb.
      * intros k bl3 Hk HT3.
        destruct (BTab_BlkTab _ _ _ _ I J HT3 ltac:(lia) ltac:(lia)) as (blk & -> & HB). simp.
        destruct (RTab_row _ _ _ _ (k - row) HD ltac:(lia)) as (src & -> & Hls & Hns). simp. wpb.
        eapply row_copy; try apply (proj1 HB); try lia. intros blk' Hl' Hn'.
        destruct (BTab_put bl3 r c _ I J blk' (T (fun i j => (i <? I * 52) || ((i <? I * 52 + 52) && (j <? J * 52)) ||
          ((i <? k + 1) && (j <? J * 52 + 52)))) HT3 ltac:(lia) ltac:(lia)) as (bl4 & -> & HT4).
        { split; [lia|]. intros x y Hx Hy. rewrite Hn' by lia. rewrite (proj2 HB) by lia.
          destruct (Z.eqb_spec x (k - I * 52)); cbn [andb].
          2:{ apply TE; intros; zb. }
          destruct (Z.leb_spec (j0 - J * 52) y), (Z.ltb_spec y (j0 - J * 52 + (j1 - j0))); cbn [andb];
            try (rewrite !T0' by lia; auto; fail).
          rewrite T1 by lia. rewrite Hns by lia. f_equal; lia. }
        apply wp_ok. eapply BTab_ext; try exact HT4; auto. intros i j Hi Hj. unfold blkset.
        assert (Hi52 : i / 52 * 52 <= i < i / 52 * 52 + 52) by (pose proof (Z.div_mod i 52); pose proof (Z.mod_pos_bound i 52); lia).
        assert (Hj52 : j / 52 * 52 <= j < j / 52 * 52 + 52) by (pose proof (Z.div_mod j 52); pose proof (Z.mod_pos_bound j 52); lia).
        assert (Hk52 : I * 52 <= k < I * 52 + 52) by lia. generalize dependent (i / 52). generalize dependent (j / 52). intros jb Hj52 ib Hi52.
        destruct (Z.eqb_spec ib I) as [Ea|Ea], (Z.eqb_spec jb J) as [Eb|Eb]; cbn [andb]; auto; apply TE; intros; clear - Hi52 Hj52 Ea Eb Hk52; zb.
      * intros bl3 HT3. eapply BTab_ext; try exact HT3; auto. intros i j Hi Hj. apply TE; intros; zb.
    + intros bl2 HT2. eapply BTab_ext; try exact HT2; auto. intros i j Hi Hj. apply TE; intros; zb.
  - intros bl1 HT1. apply wp_ok. exists bl1. split; auto. split; auto. split; auto.
    eapply BTab_ext; try exact HT1; auto. intros i j Hi Hj. cbn beta.
    destruct (Z.leb_spec row i), (Z.ltb_spec i (row + r')), (Z.leb_spec column j), (Z.ltb_spec j (column + c')); cbn [andb];
    try (apply T0'; lia). apply T1; lia.
Qed.
End BlockFacts3.

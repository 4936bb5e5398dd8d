(** Proofs about the BlockRealMatrix model. *)
From Coq Require Import ZArith List Lia Bool.
From Verif Require Import Base BaseLemmas Scalar Vector VecSpec VectorFacts Matrix BlockM MatSpec MatFacts Array2DFacts BlockLoops.
Import ListNotations.
Open Scope Z_scope.

Ltac bsimp := cbn [bind orpanic fst snd b_blocks b_rows b_columns b_blockRows b_blockColumns with_blocks].

Section BlockFacts.
Context {O : Ops}.

Definition BlkTab (blk : vec) r c I J (g : Z -> Z -> F) : Prop :=
  len blk = bw r I * bw c J /\
  forall x y, 0 <= x < bw r I -> 0 <= y < bw c J -> nthZ blk (x * bw c J + y) = g (I * 52 + x) (J * 52 + y).
Lemma BTab_BlkTab bl r c t I J : BTab bl r c t -> 0 <= I < nblk r -> 0 <= J < nblk c ->
  exists blk, zget bl (I * nblk c + J) = Ok blk /\ BlkTab blk r c I J t.
Proof. intros H HI HJ. destruct (BTab_blk _ _ _ _ I J H HI HJ) as (blk & H1 & H2 & H3). exists blk. split; auto. split; auto. Qed.
Lemma BlkTab_get blk r c I J g x y : BlkTab blk r c I J g -> 0 <= x < bw r I -> 0 <= y < bw c J ->
  zget blk (x * bw c J + y) = Ok (g (I * 52 + x) (J * 52 + y)).
Proof. intros [H1 H2] Hx Hy. rewrite zget_ok by (rewrite H1; apply lin_range; auto). f_equal; auto. Qed.
(** Replacing a whole block. *)
Lemma BTab_put bl r c t I J blk g : BTab bl r c t -> 0 <= I < nblk r -> 0 <= J < nblk c -> BlkTab blk r c I J g ->
  exists bl', zset bl (I * nblk c + J) blk = Ok bl' /\ BTab bl' r c (blkset t g I J).
Proof. intros H HI HJ [H1 H2]. apply BTab_setblk; auto. Qed.
Lemma BTab_zget_len bl r c t I J blk : BTab bl r c t -> 0 <= I < nblk r -> 0 <= J < nblk c ->
  zget bl (I * nblk c + J) = Ok blk -> len blk = bw r I * bw c J.
Proof. intros H HI HJ E. destruct (BTab_BlkTab _ _ _ _ _ _ H HI HJ) as (b & E' & H1 & _). congruence. Qed.

Lemma wp_build_blocks r c g (body : Z -> Z -> mat * Z -> res (mat * Z)) (bl0 : mat) (Q : mat * Z -> Prop) :
  1 <= r -> 1 <= c -> len bl0 = nblk r * nblk c ->
  (forall I J bl, 0 <= I < nblk r -> 0 <= J < nblk c -> len bl = nblk r * nblk c ->
    wp (body I J (bl, I * nblk c + J)) (fun s => snd s = I * nblk c + J + 1 /\
      exists blk, fst s = upd bl (I * nblk c + J) blk /\ BlkTab blk r c I J g)) ->
  (forall bl k, BTab bl r c g -> Q (bl, k)) ->
  wp (for_ 0 (nblk r) (fun I s => for_ 0 (nblk c) (fun J s => body I J s) s) (bl0, 0)) Q.
Proof.
  intros Hr Hc Hl Hb HQ. pose proof (nblk_pos r Hr). pose proof (nblk_pos c Hc).
  apply (wp_for2c (fun I J bl => len bl = nblk r * nblk c /\ forall I' J', 0 <= I' < nblk r -> 0 <= J' < nblk c ->
     I' * nblk c + J' < I * nblk c + J -> BlkTab (nthZ bl (I' * nblk c + J')) r c I' J' g)); try lia.
  - split; auto. intros. nia.
  - intros I J bl HI HJ [Hl' HP]. rewrite !Z.sub_0_r. eapply wp_conseq; [eapply Hb; eauto|].
    intros [bl' k] [Hk (blk & E & HB)]. simpl in *. subst bl'. split; auto. rewrite len_upd. split; auto.
    intros I' J' HI' HJ' Hlt. pose proof (lin_range _ _ _ _ HI HJ). pose proof (lin_range _ _ _ _ HI' HJ').
    rewrite nthZ_upd by lia. destruct (Z.eqb_spec (I * nblk c + J) (I' * nblk c + J')) as [E|E].
    + apply lin_inj in E; auto. destruct E; subst; auto.
    + apply HP; auto; lia.
  - intros I bl HI [Hl' HP]. split; auto. intros. apply HP; auto; lia.
  - intros bl [Hl' HP]. apply HQ. split; [split; auto|].
    + intros I J HI HJ. pose proof (lin_range _ _ _ _ HI HJ). apply (HP I J); auto; lia.
    + intros I J x y HI HJ. pose proof (lin_range _ _ _ _ HI HJ). apply (HP I J); auto; lia.
Qed.

Lemma createBlocksLayout_spec r c : 1 <= r -> 1 <= c ->
  wp (createBlocksLayout r c) (fun bl => BTab bl r c (fun _ _ => fzero)).
Proof.
  intros Hr Hc. unfold createBlocksLayout. rewrite !nblk_BLOCK. b52. cbv zeta.
  pose proof (nblk_pos r Hr). pose proof (nblk_pos c Hc).
  wpb. apply wp_make; [nia|]. wpb.
  eapply wp_build_blocks with (g := fun _ _ => fzero); auto.
  - apply len_repeat; nia.
  - intros I J bl HI HJ Hl. pose proof (lin_range _ _ _ _ HI HJ).
    pose proof (bw_bounds r I Hr HI). pose proof (bw_bounds c J Hc HJ). fold (bw r I) (bw c J).
    wpb. apply wp_make; [nia|]. wpb. apply wp_zset; [lia|]. apply wp_ok. cbn [fst snd]. split; auto.
    eexists; split; [reflexivity|]. split.
    + apply len_repeat; nia.
    + intros x y Hx Hy. apply nthZ_repeat. apply lin_range; auto.
  - intros bl k HB. apply wp_ok; auto.
Qed.
Lemma NewBlockRealMatrix_spec r c : 1 <= r -> 1 <= c ->
  wp (NewBlockRealMatrix r c) (fun b => BIs b r c (fun _ _ => fzero)).
Proof.
  intros Hr Hc. unfold NewBlockRealMatrix. destruct (Z.ltb_spec r 1), (Z.ltb_spec c 1); try lia.
  wpb. eapply wp_conseq; [apply createBlocksLayout_spec; auto|cbn beta]; intros bl HB. apply wp_ok.
  rewrite !nblk_BLOCK. exists bl. auto.
Qed.
Lemma NewBlockRealMatrix_err r c : ~ (1 <= r /\ 1 <= c) -> NewBlockRealMatrix r c = Err ENotStrictlyPositive.
Proof. intros. unfold NewBlockRealMatrix. destruct (Z.ltb_spec r 1), (Z.ltb_spec c 1); auto; lia. Qed.
Lemma New_ok r c : 1 <= r -> 1 <= c -> exists bl,
  NewBlockRealMatrix r c = Ok (mkBlock bl r c (nblk r) (nblk c)) /\ BTab bl r c (fun _ _ => fzero).
Proof.
  intros Hr Hc. destruct (NewBlockRealMatrix_spec r c Hr Hc) as (b & E & bl & -> & _ & _ & HB). eauto.
Qed.

(** From slices. *)
Lemma FromBlockData_ok bl r c t : 1 <= r -> 1 <= c -> BTab bl r c t ->
  NewBlockRealMatrixFromBlockData r c bl = Ok (mkBlock bl r c (nblk r) (nblk c)).
Proof.
  intros Hr Hc HT. unfold NewBlockRealMatrixFromBlockData. destruct (Z.ltb_spec r 1), (Z.ltb_spec c 1); try lia.
  rewrite !nblk_BLOCK. bsimp. pose proof (nblk_pos r Hr). pose proof (nblk_pos c Hc).
  match goal with |- bind ?m _ = _ => cut (wp m (fun _ => True)) end.
  { intros (k & -> & _). auto. }
  apply (wp_for (fun I k => k = I * nblk c)); auto; try lia. intros I k HI ->.
  apply (wp_for (fun J k => k = I * nblk c + J)); auto; try lia.
  intros J k HJ ->. destruct (BTab_BlkTab _ _ _ _ I J HT HI HJ) as (blk & -> & Hl & _). simp.
  rewrite blockHeight_bw, blockWidth_bw by auto. rewrite Hl, Z.eqb_refl. apply wp_ok. lia.
Qed.
Lemma toBlocksLayout_spec d r c f : 1 <= r -> 1 <= c -> RTab d r c f ->
  wp (toBlocksLayout d) (fun bl => BTab bl r c f).
Proof.
  intros Hr Hc HT. pose proof HT as [[Hl Hrr] Hv]. unfold toBlocksLayout. rewrite Hl.
  rewrite zget_ok by lia. simp. rewrite Hrr by lia. cbv zeta. rewrite !nblk_BLOCK. b52.
  pose proof (rows_check_ok d r c 0 EDimMismatch (fun e => Panic e) (conj Hl Hrr) ltac:(lia) ltac:(lia)) as Ec.
  cbn beta in Ec. rewrite Ec. simp.
  pose proof (nblk_pos r Hr). pose proof (nblk_pos c Hc).
  wpb. apply wp_make; [nia|]. wpb.
  eapply wp_build_blocks with (g := f); auto.
  - apply len_repeat; nia.
  - intros I J bl HI HJ Hlb. pose proof (lin_range _ _ _ _ HI HJ).
    pose proof (bw_bounds r I Hr HI). pose proof (bw_bounds c J Hc HJ). fold (bw r I) (bw c J).
    wpb. apply wp_make; [nia|]. wpb.
    assert (Er : Z.min (I * 52 + 52) r = I * 52 + bw r I) by (unfold bw; lia). rewrite Er.
    apply (wp_for (fun p s => snd s = (p - I * 52) * bw c J /\ len (fst s) = bw r I * bw c J /\
       forall x y, 0 <= x < p - I * 52 -> 0 <= y < bw c J -> nthZ (fst s) (x * bw c J + y) = f (I * 52 + x) (J * 52 + y))); try lia.
    + cbn [fst snd]. repeat split; try lia. apply len_repeat; nia.
    + intros p [blk k] Hp (Hk & Hlk & Hbk). cbn [fst snd] in *. subst k.
      destruct (RTab_row _ _ _ _ p HT) as (row & Hz & Hlr & Hnr); [lia|]. rewrite Hz. simp. wpb.
      replace ((p - I * 52) * bw c J) with ((p - I * 52) * bw c J + 0) by lia.
      eapply row_copy; try eassumption; try lia.
      intros d' Hld Hnd. apply wp_ok. cbn [fst snd]. split; [lia|]. split; auto.
      intros x y Hx Hy. rewrite Hnd by lia. destruct (Z.eqb_spec x (p - I * 52)); cbn [andb].
      * subst x. zb. rewrite Hnr by lia. f_equal; lia.
      * apply Hbk; lia.
    + intros [blk k] (Hk & Hlk & Hbk). cbn [fst snd] in *. wpb. apply wp_zset; [lia|]. apply wp_ok. cbn [fst snd]. split; auto.
      eexists; split; [reflexivity|]. split; auto. intros x y Hx Hy. apply Hbk; lia.
  - intros bl k HB. apply wp_ok; auto.
Qed.
Lemma NewBlockRealMatrixFromSlices_spec d r c f : 1 <= r -> 1 <= c -> RTab d r c f ->
  wp (NewBlockRealMatrixFromSlices d) (fun b => BIs b r c f).
Proof.
  intros Hr Hc HT. pose proof HT as [[Hl Hrr] Hv]. unfold NewBlockRealMatrixFromSlices.
  rewrite zget_ok by lia. simp. rewrite Hrr by lia. rewrite Hl. wpb.
  eapply wp_conseq; [apply (toBlocksLayout_spec d r c f); auto|cbn beta]; intros bl HB.
  rewrite (FromBlockData_ok bl r c f) by auto. apply wp_ok. exists bl; auto.
Qed.
Lemma b_Copy_spec b r c f : BIs b r c f -> wp (b_Copy b) (fun b' => BIs b' r c f).
Proof.
  intros (bl & -> & Hr & Hc & HT). unfold b_Copy. bsimp. wpb.
  eapply wp_conseq; [apply createBlocksLayout_spec; auto|cbn beta]; intros bl0 HB0. rewrite !nblk_BLOCK.
  rewrite (proj1 (proj1 HT)). wpb.
  eapply wp_flat_blocks with (g := f); eauto.
  - intros I J bl1 t1 HI HJ HT1 _.
    destruct (BTab_BlkTab _ _ _ _ I J HT HI HJ) as (blk & E & HB).
    destruct (BTab_BlkTab _ _ _ _ I J HT1 HI HJ) as (blk1 & E1 & HB1).
    rewrite E, E1. simp. pose proof (bw_bounds r I Hr HI). pose proof (bw_bounds c J Hc HJ).
    pose proof (proj1 HB). pose proof (proj1 HB1). wpb. apply wp_slice_copy; try nia.
    intros blk2 Hl2 Hn2. destruct (BTab_put bl1 r c t1 I J blk2 f HT1 HI HJ) as (bl2 & -> & HT2).
    + split; [lia|]. intros x y Hx Hy. pose proof (lin_range x y _ _ Hx Hy). rewrite Hn2 by lia. zb.
      rewrite Z.sub_0_r. apply HB; auto.
    + apply wp_ok. auto.
  - intros bl1 HB1. apply wp_ok. exists bl1. auto.
Qed.

(** Entrywise arithmetic. *)
Lemma b_binop_flat (op : F -> F -> F) bl bm b0 r c f g t : 1 <= r -> 1 <= c ->
  BTab bl r c f -> BTab bm r c g -> BTab b0 r c t ->
  wp (for_ 0 (len b0) (fun blockIndex bl' =>
        let* tBlock := zget bl blockIndex in
        let* mBlock := zget bm blockIndex in
        let* oBlock := zget bl' blockIndex in
        for_ 0 (len oBlock) (fun k bl' =>
          let* x := zget tBlock k in
          let* y := zget mBlock k in
          mset bl' blockIndex k (op x y)) bl') b0)
     (fun bl' => BTab bl' r c (fun i j => op (f i j) (g i j))).
Proof.
  intros Hr Hc Hf Hg Ht. rewrite (proj1 (proj1 Ht)).
  eapply wp_flat_blocks with (g := fun i j => op (f i j) (g i j)); eauto.
  intros I J bl1 t1 HI HJ HT1 _.
  destruct (BTab_BlkTab _ _ _ _ I J Hf HI HJ) as (bf & -> & HBf).
  destruct (BTab_BlkTab _ _ _ _ I J Hg HI HJ) as (bg & -> & HBg).
  destruct (BTab_BlkTab _ _ _ _ I J HT1 HI HJ) as (b1 & -> & HB1). simp. rewrite (proj1 HB1).
  eapply wp_flat_cells with (g := fun i j => op (f i j) (g i j)); eauto.
  intros x y bl2 t2 Hx Hy HT2 _. rewrite (BlkTab_get _ _ _ _ _ _ x y HBf), (BlkTab_get _ _ _ _ _ _ x y HBg) by auto. simp.
  destruct (BTab_set _ _ _ _ I J x y (op (f (I * 52 + x) (J * 52 + y)) (g (I * 52 + x) (J * 52 + y))) HT2) as (bl3 & -> & HT3); auto.
  apply wp_ok; auto.
Qed.
Lemma b_binop_gen (op : F -> F -> F) bl m b0 r c f g t : 1 <= r -> 1 <= c ->
  BTab bl r c f -> MatIs m r c g -> BTab b0 r c t ->
  wp (for_ 0 (nblk r) (fun iBlock s =>
        for_ 0 (nblk c) (fun jBlock '(bl', blockIndex) =>
          let* tBlock := zget bl blockIndex in
          let* (bl', _) := for_ (iBlock * 52) (Z.min (iBlock * 52 + 52) r) (fun p s =>
            for_ (jBlock * 52) (Z.min (jBlock * 52 + 52) c) (fun q '(bl', k) =>
              let* x := zget tBlock k in
              let* y := m_At m p q in
              let* bl' := mset bl' blockIndex k (op x y) in
              Ok (bl', k + 1)) s) (bl', 0) in
          Ok (bl', blockIndex + 1)) s) (b0, 0))
     (fun s => BTab (fst s) r c (fun i j => op (f i j) (g i j))).
Proof.
  intros Hr Hc Hf Hg Ht.
  eapply wp_blocks with (g := fun i j => op (f i j) (g i j)); eauto.
  intros I J bl1 t1 HI HJ HT1 _.
  destruct (BTab_BlkTab _ _ _ _ I J Hf HI HJ) as (bf & -> & HBf). simp. wpb.
  pose proof (bw_bounds r I Hr HI). pose proof (bw_bounds c J Hc HJ).
  eapply wp_cells with (g := fun i j => op (f i j) (g i j)); eauto.
  - intros x y bl2 t2 Hx Hy HT2 _. rewrite (BlkTab_get _ _ _ _ _ _ x y HBf) by auto. simp.
    rewrite (MatIs_At m r c g) by (auto; lia). simp.
    destruct (BTab_set _ _ _ _ I J x y (op (f (I * 52 + x) (J * 52 + y)) (g (I * 52 + x) (J * 52 + y))) HT2) as (bl3 & -> & HT3); auto.
    simp. apply wp_ok; auto.
  - intros bl2 k HT2. apply wp_ok. auto.
Qed.
Lemma b_Add_spec b m r c f g : BIs b r c f -> MatIs m r c g ->
  wp (b_Add b m) (fun b' => BIs b' r c (fun i j => (f i j + g i j)%f)).
Proof.
  intros Hb Hm. pose proof (MatIs_blk _ _ _ _ Hb) as Hb'. unfold b_Add.
  rewrite (checkAddition_ok _ _ c) by (rewrite ?(MatIs_rows _ _ _ _ Hm), ?(MatIs_rows _ _ _ _ Hb'); eauto using MatIs_cols).
  destruct Hb as (bl & -> & Hr & Hc & HT). bsimp. destruct (New_ok r c Hr Hc) as (b0 & -> & HB0). bsimp.
  assert (Hgen : forall m', m = m' -> wp (
      let* (bl, _) := for_ 0 (nblk r) (fun iBlock s =>
        for_ 0 (nblk c) (fun jBlock '(bl', blockIndex) =>
          let* tBlock := zget bl blockIndex in
          let* (bl', _) := for_ (iBlock * 52) (Z.min (iBlock * 52 + 52) r) (fun p s =>
            for_ (jBlock * 52) (Z.min (jBlock * 52 + 52) c) (fun q '(bl', k) =>
              let* x := zget tBlock k in
              let* y := m_At m' p q in
              let* bl' := mset bl' blockIndex k (x + y)%f in
              Ok (bl', k + 1)) s) (bl', 0) in
          Ok (bl', blockIndex + 1)) s) (b0, 0) in Ok (mkBlock bl r c (nblk r) (nblk c)))
    (fun b' => BIs b' r c (fun i j => (f i j + g i j)%f))).
  { intros m' <-. wpb. eapply wp_conseq; [eapply (b_binop_gen fadd); eauto|cbn beta]; intros [bl' k] HT'. apply wp_ok. exists bl'. auto. }
  destruct m as [ma|mb|md|mr mc me].
  - apply (Hgen (MArr ma) eq_refl).
  - apply MatIs_blk_inv in Hm. destruct Hm as (bm & -> & _ & _ & HM). bsimp.
    wpb. eapply wp_conseq; [eapply (b_binop_flat fadd bl bm b0 r c f g); eauto|cbn beta]; intros bl' HT'. apply wp_ok. exists bl'. auto.
  - apply (Hgen (MDiag md) eq_refl).
  - apply (Hgen (MOther mr mc me) eq_refl).
Qed.
Lemma b_Subtract_spec b m r c f g : BIs b r c f -> MatIs m r c g ->
  wp (b_Subtract b m) (fun b' => BIs b' r c (fun i j => (f i j - g i j)%f)).
Proof.
  intros Hb Hm. pose proof (MatIs_blk _ _ _ _ Hb) as Hb'. unfold b_Subtract.
  rewrite (checkAddition_ok _ _ c) by (rewrite ?(MatIs_rows _ _ _ _ Hm), ?(MatIs_rows _ _ _ _ Hb'); eauto using MatIs_cols).
  destruct Hb as (bl & -> & Hr & Hc & HT). bsimp. destruct (New_ok r c Hr Hc) as (b0 & -> & HB0). bsimp.
  assert (Hgen : forall m', m = m' -> wp (
      let* (bl, _) := for_ 0 (nblk r) (fun iBlock s =>
        for_ 0 (nblk c) (fun jBlock '(bl', blockIndex) =>
          let* tBlock := zget bl blockIndex in
          let* (bl', _) := for_ (iBlock * 52) (Z.min (iBlock * 52 + 52) r) (fun p s =>
            for_ (jBlock * 52) (Z.min (jBlock * 52 + 52) c) (fun q '(bl', k) =>
              let* x := zget tBlock k in
              let* y := m_At m' p q in
              let* bl' := mset bl' blockIndex k (x - y)%f in
              Ok (bl', k + 1)) s) (bl', 0) in
          Ok (bl', blockIndex + 1)) s) (b0, 0) in Ok (mkBlock bl r c (nblk r) (nblk c)))
    (fun b' => BIs b' r c (fun i j => (f i j - g i j)%f))).
  { intros m' <-. wpb. eapply wp_conseq; [eapply (b_binop_gen fsub); eauto|cbn beta]; intros [bl' k] HT'. apply wp_ok. exists bl'. auto. }
  destruct m as [ma|mb|md|mr mc me].
  - apply (Hgen (MArr ma) eq_refl).
  - apply MatIs_blk_inv in Hm. destruct Hm as (bm & -> & _ & _ & HM). bsimp.
    wpb. eapply wp_conseq; [eapply (b_binop_flat fsub bl bm b0 r c f g); eauto|cbn beta]; intros bl' HT'. apply wp_ok. exists bl'. auto.
  - apply (Hgen (MDiag md) eq_refl).
  - apply (Hgen (MOther mr mc me) eq_refl).
Qed.
Lemma b_scalar_flat (op : F -> F) bl b0 r c f t : 1 <= r -> 1 <= c ->
  BTab bl r c f -> BTab b0 r c t ->
  wp (for_ 0 (len b0) (fun blockIndex bl' =>
        let* tBlock := zget bl blockIndex in
        let* oBlock := zget bl' blockIndex in
        for_ 0 (len oBlock) (fun k bl' =>
          let* x := zget tBlock k in
          mset bl' blockIndex k (op x)) bl') b0)
     (fun bl' => BTab bl' r c (fun i j => op (f i j))).
Proof.
  intros Hr Hc Hf Ht. rewrite (proj1 (proj1 Ht)).
  eapply wp_flat_blocks with (g := fun i j => op (f i j)); eauto.
  intros I J bl1 t1 HI HJ HT1 _.
  destruct (BTab_BlkTab _ _ _ _ I J Hf HI HJ) as (bf & -> & HBf).
  destruct (BTab_BlkTab _ _ _ _ I J HT1 HI HJ) as (b1 & -> & HB1). simp. rewrite (proj1 HB1).
  eapply wp_flat_cells with (g := fun i j => op (f i j)); eauto.
  intros x y bl2 t2 Hx Hy HT2 _. rewrite (BlkTab_get _ _ _ _ _ _ x y HBf) by auto. simp.
  destruct (BTab_set _ _ _ _ I J x y (op (f (I * 52 + x) (J * 52 + y))) HT2) as (bl3 & -> & HT3); auto.
  apply wp_ok; auto.
Qed.
Lemma b_ScalarAdd_spec b x r c f : BIs b r c f ->
  wp (b_ScalarAdd b x) (fun b' => BIs b' r c (fun i j => (f i j + x)%f)).
Proof.
  intros (bl & -> & Hr & Hc & HT). unfold b_ScalarAdd. bsimp. destruct (New_ok r c Hr Hc) as (b0 & -> & HB0). bsimp.
  wpb. eapply wp_conseq; [eapply (b_scalar_flat (fun y => (y + x)%f) bl b0 r c f); eauto|cbn beta]; intros bl' HT'. apply wp_ok. exists bl'. auto.
Qed.
Lemma b_ScalarMultiply_spec b x r c f : BIs b r c f ->
  wp (b_ScalarMultiply b x) (fun b' => BIs b' r c (fun i j => (f i j * x)%f)).
Proof.
  intros (bl & -> & Hr & Hc & HT). unfold b_ScalarMultiply. bsimp. destruct (New_ok r c Hr Hc) as (b0 & -> & HB0). bsimp.
  wpb. eapply wp_conseq; [eapply (b_scalar_flat (fun y => (y * x)%f) bl b0 r c f); eauto|cbn beta]; intros bl' HT'. apply wp_ok. exists bl'. auto.
Qed.

Lemma b_Trace_spec b n f : BIs b n n f -> b_Trace b = Ok (fsum n (fun i => f i i)).
Proof.
  intros (bl & -> & Hr & Hc & HT). unfold b_Trace. bsimp. rewrite Z.eqb_refl. cbn [negb].
  apply dot_loop; [lia|]. intros i s Hi. rewrite (b_At_ok bl n n f) by auto. auto.
Qed.

(** Transpose. *)
Lemma b_Transpose_spec b r c f : BIs b r c f -> wp (b_Transpose b) (fun b' => BIs b' c r (fun i j => f j i)).
Proof.
  intros (bl & -> & Hr & Hc & HT). unfold b_Transpose. bsimp. wpb.
  eapply wp_conseq; [apply createBlocksLayout_spec; auto|cbn beta]; intros b0 HB0. rewrite !nblk_BLOCK. b52. cbv zeta. wpb.
  eapply wp_blocks with (g := fun i j => f j i); eauto.
  - intros I J bl1 t1 HI HJ HT1 _. cbn beta iota.
    pose proof (bw_bounds c I Hc HI). pose proof (bw_bounds r J Hr HJ).
    assert (Er : Z.min (I * 52 + 52) c = I * 52 + bw c I) by (unfold bw; lia).
    assert (Ec : Z.min (J * 52 + 52) r = J * 52 + bw r J) by (unfold bw; lia). rewrite Er, Ec.
    set (inv k := cellinv (bw r J) t1 (fun i j => f j i) I J k). wpb.
    apply (wp_for (fun p s => snd s = (p - I * 52) * bw r J /\ BTab (fst s) c r (inv (snd s)))); try lia.
    + cbn [fst snd]. split; [lia|]. apply cellinv_0; auto.
    + intros p [bl2 k] Hp [Hk HT2]. cbn [fst snd] in *. subst k. wpb.
      apply (wp_for (fun q s => snd s = (p - I * 52) + (q - J * 52) * bw c I /\
         snd (fst s) = (p - I * 52) * bw r J + (q - J * 52) /\ BTab (fst (fst s)) c r (inv (snd (fst s))))); try lia.
      * cbn [fst snd]. split; [lia|split; [lia|auto]].
      * intros q [[bl3 k] l] Hq (Hl & Hk & HT3). cbn [fst snd] in *. subst k l.
        replace (I * 52 + bw c I - I * 52) with (bw c I) by lia.
        remember (p - I * 52) as x eqn:Ex. remember (q - J * 52) as y eqn:Ey.
        assert (p = I * 52 + x) by lia. assert (q = J * 52 + y) by lia. subst p q.
        replace (x + y * bw c I) with (y * bw c I + x) by lia.
        rewrite (BTab_get bl r c f) by (auto; lia). simp.
        destruct (BTab_set _ _ _ _ I J x y (f (J * 52 + y) (I * 52 + x)) HT3) as (bl4 & -> & HT4); auto; try lia.
        simp. apply wp_ok. cbn [fst snd]. split; [lia|split; [lia|]].
        apply cellinv_step; auto; lia.
      * intros [[bl3 k] l] (Hl & Hk & HT3). cbn [fst snd] in *. subst k. apply wp_ok. cbn [fst snd].
        split; [lia|]. auto.
    + intros [bl2 k] [Hk HT2]. cbn [fst snd] in *. apply wp_ok. cbn [fst snd]. split; auto.
      apply cellinv_end; auto. subst k. replace (bw c I * bw r J) with ((I * 52 + bw c I - I * 52) * bw r J) by lia. auto.
  - intros bl1 k HT1. apply wp_ok. exists bl1. auto.
Qed.
End BlockFacts.

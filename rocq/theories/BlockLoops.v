(** Rules for the loops over the blocks of a BlockRealMatrix. *)
From Coq Require Import ZArith List Lia Bool.
From Verif Require Import Base BaseLemmas Scalar Vector VecSpec VectorFacts Matrix BlockM MatSpec MatFacts Array2DFacts.
Import ListNotations.
Open Scope Z_scope.

Ltac b52 := unfold BLOCK_SIZE in *.

(** Two nested loops sharing a running index. *)
Lemma wp_for2c {S} (P : Z -> Z -> S -> Prop) lo1 hi1 lo2 hi2 (body : Z -> Z -> S * Z -> res (S * Z)) s (Q : S * Z -> Prop) :
  lo1 <= hi1 -> lo2 <= hi2 -> P lo1 lo2 s ->
  (forall i j s, lo1 <= i < hi1 -> lo2 <= j < hi2 -> P i j s ->
     wp (body i j (s, (i - lo1) * (hi2 - lo2) + (j - lo2)))
        (fun r => snd r = (i - lo1) * (hi2 - lo2) + (j - lo2) + 1 /\ P i (j + 1) (fst r))) ->
  (forall i s, lo1 <= i < hi1 -> P i hi2 s -> P (i + 1) lo2 s) ->
  (forall s, P hi1 lo2 s -> Q (s, (hi1 - lo1) * (hi2 - lo2))) ->
  wp (for_ lo1 hi1 (fun i s => for_ lo2 hi2 (fun j s => body i j s) s) (s, 0)) Q.
Proof.
  intros H1 H2 H0 Hs Hn HQ.
  apply (wp_for (fun i s => snd s = (i - lo1) * (hi2 - lo2) /\ P i lo2 (fst s))); auto.
  - simpl. split; auto. lia.
  - intros i [s' k] Hi [Hk HP]. simpl in Hk, HP. subst k.
    apply (wp_for (fun j s => snd s = (i - lo1) * (hi2 - lo2) + (j - lo2) /\ P i j (fst s))); auto.
    + simpl. split; auto. lia.
    + intros j [s'' k] Hj [Hk HP']. simpl in Hk, HP'. subst k. eapply wp_conseq; [apply Hs; auto|].
      intros [s3 k3] [Hk3 HP3]. simpl in *. split; auto. lia.
    + intros [s3 k3] [Hk3 HP3]. simpl in *. split; [lia|]. apply Hn; auto.
  - intros [s3 k3] [Hk3 HP3]. simpl in *. subst. apply HQ; auto.
Qed.

Section Loops.
Context {O : Ops}.

(** [t] with block (I,J) replaced by the entries of [g]. *)
Definition blkset (t g : Z -> Z -> F) (I J : Z) : Z -> Z -> F :=
  fun p q => if (p / 52 =? I) && (q / 52 =? J) then g p q else t p q.
(** The first [k] blocks replaced; the first [k] cells of block (I,J) replaced. *)
Definition blkinv c (t g : Z -> Z -> F) (k : Z) : Z -> Z -> F :=
  fun p q => if p / 52 * nblk c + q / 52 <? k then g p q else t p q.
Definition cellinv w (t g : Z -> Z -> F) (I J k : Z) : Z -> Z -> F :=
  fun p q => if (p / 52 =? I) && (q / 52 =? J) && ((p - I * 52) * w + (q - J * 52) <? k) then g p q else t p q.

Lemma blkinv_step bl r c t g I J : 1 <= r -> 1 <= c -> 0 <= I < nblk r -> 0 <= J < nblk c ->
  BTab bl r c (blkset (blkinv c t g (I * nblk c + J)) g I J) -> BTab bl r c (blkinv c t g (I * nblk c + J + 1)).
Proof.
  intros Hr Hc HI HJ H. eapply BTab_ext; eauto. intros i j Hi Hj. unfold blkset, blkinv.
  destruct (blk_of c j Hc Hj) as [HJ' _].
  destruct (Z.eqb_spec (i / 52) I), (Z.eqb_spec (j / 52) J); cbn [andb]; subst.
  - zb.
  - destruct (Z.ltb_spec (i / 52 * nblk c + j / 52) (i / 52 * nblk c + J)),
      (Z.ltb_spec (i / 52 * nblk c + j / 52) (i / 52 * nblk c + J + 1)); auto; lia.
  - destruct (Z.ltb_spec (i / 52 * nblk c + j / 52) (I * nblk c + j / 52)),
      (Z.ltb_spec (i / 52 * nblk c + j / 52) (I * nblk c + j / 52 + 1)); auto; nia.
  - destruct (Z.ltb_spec (i / 52 * nblk c + j / 52) (I * nblk c + J)),
      (Z.ltb_spec (i / 52 * nblk c + j / 52) (I * nblk c + J + 1)); auto; try lia.
    destruct (lin_inj (i / 52) (j / 52) I J (nblk c)); lia.
Qed.
Lemma blkinv_0 bl r c t g : 1 <= r -> 1 <= c -> BTab bl r c t -> BTab bl r c (blkinv c t g 0).
Proof.
  intros Hr Hc H. eapply BTab_ext; eauto. intros i j Hi Hj. unfold blkinv.
  destruct (blk_of c j Hc Hj), (blk_of r i Hr Hi). destruct (Z.ltb_spec (i / 52 * nblk c + j / 52) 0); auto. nia.
Qed.
Lemma blkinv_end bl r c t g : 1 <= r -> 1 <= c -> BTab bl r c (blkinv c t g (nblk r * nblk c)) -> BTab bl r c g.
Proof.
  intros Hr Hc H. eapply BTab_ext; eauto. intros i j Hi Hj. unfold blkinv.
  destruct (blk_of c j Hc Hj) as [HJ _], (blk_of r i Hr Hi) as [HI _].
  pose proof (lin_range _ _ _ _ HI HJ). destruct (Z.ltb_spec (i / 52 * nblk c + j / 52) (nblk r * nblk c)); auto. lia.
Qed.
Lemma blkinv_here c t g I J p q : p / 52 = I -> q / 52 = J -> blkinv c t g (I * nblk c + J) p q = t p q.
Proof. intros <- <-. unfold blkinv. rewrite Z.ltb_irrefl. auto. Qed.

Definition in_blk (I J p q : Z) : Prop := p / 52 = I /\ q / 52 = J.

(** Loop over all blocks with a running block index. *)
Lemma wp_blocks r c t g (body : Z -> Z -> mat * Z -> res (mat * Z)) bl0 (Q : mat * Z -> Prop) :
  1 <= r -> 1 <= c -> BTab bl0 r c t ->
  (forall I J bl t', 0 <= I < nblk r -> 0 <= J < nblk c -> BTab bl r c t' ->
     (forall p q, in_blk I J p q -> t' p q = t p q) ->
     wp (body I J (bl, I * nblk c + J)) (fun s => snd s = I * nblk c + J + 1 /\ BTab (fst s) r c (blkset t' g I J))) ->
  (forall bl k, BTab bl r c g -> Q (bl, k)) ->
  wp (for_ 0 (nblk r) (fun I s => for_ 0 (nblk c) (fun J s => body I J s) s) (bl0, 0)) Q.
Proof.
  intros Hr Hc HT Hb HQ. pose proof (nblk_pos r Hr). pose proof (nblk_pos c Hc).
  apply (wp_for2c (fun I J bl => BTab bl r c (blkinv c t g (I * nblk c + J)))); try lia.
  - replace (0 * nblk c + 0) with 0 by lia. apply blkinv_0; auto.
  - intros I J bl HI HJ HP. rewrite !Z.sub_0_r. eapply wp_conseq; [eapply Hb; eauto|].
    + intros p q [H1 H2]. apply blkinv_here; auto.
    + intros [bl' k] [Hk HT']. simpl in *. split; auto. rewrite Z.add_assoc. apply blkinv_step; auto.
  - intros I bl HI. replace ((I + 1) * nblk c + 0) with (I * nblk c + nblk c) by lia. auto.
  - intros bl HP. apply HQ. apply blkinv_end with (t := t); auto. rewrite Z.add_0_r in HP. auto.
Qed.
(** Loop over the list of blocks. *)
Lemma wp_flat_blocks r c t g (body : Z -> mat -> res mat) bl0 (Q : mat -> Prop) :
  1 <= r -> 1 <= c -> BTab bl0 r c t ->
  (forall I J bl t', 0 <= I < nblk r -> 0 <= J < nblk c -> BTab bl r c t' ->
     (forall p q, in_blk I J p q -> t' p q = t p q) ->
     wp (body (I * nblk c + J) bl) (fun bl' => BTab bl' r c (blkset t' g I J))) ->
  (forall bl, BTab bl r c g -> Q bl) ->
  wp (for_ 0 (nblk r * nblk c) body bl0) Q.
Proof.
  intros Hr Hc HT Hb HQ. pose proof (nblk_pos r Hr). pose proof (nblk_pos c Hc).
  apply (wp_for (fun k bl => BTab bl r c (blkinv c t g k))); try nia.
  - apply blkinv_0; auto.
  - intros k bl Hk HP. destruct (lin_split _ _ k Hk ltac:(lia)) as (HI & HJ & E).
    revert HP. rewrite E. intros HP. eapply wp_conseq; [eapply Hb; eauto|].
    + intros p q [H1 H2]. apply blkinv_here; auto.
    + intros bl' HT'. apply blkinv_step; auto.
  - intros bl HP. apply HQ. apply blkinv_end with (t := t); auto.
Qed.

Lemma cellinv_step bl r c t g I J x y : 1 <= r -> 1 <= c -> 0 <= I < nblk r -> 0 <= J < nblk c ->
  0 <= x < bw r I -> 0 <= y < bw c J ->
  BTab bl r c (tset (cellinv (bw c J) t g I J (x * bw c J + y)) (I * 52 + x) (J * 52 + y) (g (I * 52 + x) (J * 52 + y))) ->
  BTab bl r c (cellinv (bw c J) t g I J (x * bw c J + y + 1)).
Proof.
  intros Hr Hc HI HJ Hx Hy H. eapply BTab_ext; eauto. intros i j Hi Hj. unfold tset, cellinv.
  destruct (blk_of c j Hc Hj) as [HJ' HJ2], (blk_of r i Hr Hi) as [HI' HI2].
  pose proof (bw_bounds r I Hr HI). pose proof (bw_bounds c J Hc HJ).
  destruct (Z.eqb_spec (i / 52) I), (Z.eqb_spec (j / 52) J); cbn [andb]; subst.
  - destruct (Z.eqb_spec i (i / 52 * 52 + x)) as [E1|E1], (Z.eqb_spec j (j / 52 * 52 + y)) as [E2|E2]; cbn [andb].
    + replace (i - i / 52 * 52) with x by lia. replace (j - j / 52 * 52) with y by lia. zb. congruence.
    + replace (i - i / 52 * 52) with x by lia.
      destruct (Z.ltb_spec (x * bw c (j / 52) + (j - j / 52 * 52)) (x * bw c (j / 52) + y)),
       (Z.ltb_spec (x * bw c (j / 52) + (j - j / 52 * 52)) (x * bw c (j / 52) + y + 1)); auto; lia.
    + destruct (Z.ltb_spec ((i - i / 52 * 52) * bw c (j / 52) + (j - j / 52 * 52)) (x * bw c (j / 52) + y)),
       (Z.ltb_spec ((i - i / 52 * 52) * bw c (j / 52) + (j - j / 52 * 52)) (x * bw c (j / 52) + y + 1)); auto; try lia.
      destruct (lin_inj (i - i / 52 * 52) (j - j / 52 * 52) x y (bw c (j / 52))); lia.
    + destruct (Z.ltb_spec ((i - i / 52 * 52) * bw c (j / 52) + (j - j / 52 * 52)) (x * bw c (j / 52) + y)),
       (Z.ltb_spec ((i - i / 52 * 52) * bw c (j / 52) + (j - j / 52 * 52)) (x * bw c (j / 52) + y + 1)); auto; try lia.
      destruct (lin_inj (i - i / 52 * 52) (j - j / 52 * 52) x y (bw c (j / 52))); lia.
  - destruct (Z.eqb_spec j (J * 52 + y)) as [E2|E2]; [|rewrite andb_false_r; auto].
    exfalso. apply n. rewrite E2. apply div52; lia.
  - destruct (Z.eqb_spec i (I * 52 + x)) as [E2|E2]; auto.
    exfalso. apply n. rewrite E2. apply div52; lia.
  - destruct (Z.eqb_spec i (I * 52 + x)) as [E2|E2]; auto.
    exfalso. apply n. rewrite E2. apply div52; lia.
Qed.
Lemma cellinv_0 bl r c t g I J : 1 <= r -> 1 <= c -> 0 <= I < nblk r -> 0 <= J < nblk c ->
  BTab bl r c t -> BTab bl r c (cellinv (bw c J) t g I J 0).
Proof.
  intros Hr Hc HI HJ H. eapply BTab_ext; eauto. intros i j Hi Hj. unfold cellinv.
  destruct (Z.eqb_spec (i / 52) I), (Z.eqb_spec (j / 52) J); cbn [andb]; auto; subst.
  destruct (blk_of c j Hc Hj) as [HJ' HJ2], (blk_of r i Hr Hi) as [HI' HI2].
  destruct (Z.ltb_spec ((i - i / 52 * 52) * bw c (j / 52) + (j - j / 52 * 52)) 0); auto. nia.
Qed.
Lemma cellinv_end bl r c t g I J : 1 <= r -> 1 <= c -> 0 <= I < nblk r -> 0 <= J < nblk c ->
  BTab bl r c (cellinv (bw c J) t g I J (bw r I * bw c J)) -> BTab bl r c (blkset t g I J).
Proof.
  intros Hr Hc HI HJ H. eapply BTab_ext; eauto. intros i j Hi Hj. unfold cellinv, blkset.
  destruct (Z.eqb_spec (i / 52) I), (Z.eqb_spec (j / 52) J); cbn [andb]; auto; subst.
  destruct (blk_of c j Hc Hj) as [HJ' HJ2], (blk_of r i Hr Hi) as [HI' HI2].
  pose proof (lin_range _ _ _ _ HI2 HJ2).
  destruct (Z.ltb_spec ((i - i / 52 * 52) * bw c (j / 52) + (j - j / 52 * 52)) (bw r (i / 52) * bw c (j / 52))); auto. lia.
Qed.
Lemma cellinv_here w t g I J x y : cellinv w t g I J (x * w + y) (I * 52 + x) (J * 52 + y) = t (I * 52 + x) (J * 52 + y).
Proof.
  unfold cellinv. replace (I * 52 + x - I * 52) with x by lia. replace (J * 52 + y - J * 52) with y by lia.
  rewrite Z.ltb_irrefl, andb_false_r. auto.
Qed.

(** Loop over the cells of block (I,J) with a running index. *)
Lemma wp_cells r c t g I J (cell : Z -> Z -> mat * Z -> res (mat * Z)) bl0 (Q : mat * Z -> Prop) :
  1 <= r -> 1 <= c -> 0 <= I < nblk r -> 0 <= J < nblk c -> BTab bl0 r c t ->
  (forall x y bl t', 0 <= x < bw r I -> 0 <= y < bw c J -> BTab bl r c t' ->
     t' (I * 52 + x) (J * 52 + y) = t (I * 52 + x) (J * 52 + y) ->
     wp (cell (I * 52 + x) (J * 52 + y) (bl, x * bw c J + y)) (fun s => snd s = x * bw c J + y + 1 /\
        BTab (fst s) r c (tset t' (I * 52 + x) (J * 52 + y) (g (I * 52 + x) (J * 52 + y))))) ->
  (forall bl k, BTab bl r c (blkset t g I J) -> Q (bl, k)) ->
  wp (for_ (I * 52) (Z.min (I * 52 + 52) r) (fun p s =>
        for_ (J * 52) (Z.min (J * 52 + 52) c) (fun q s => cell p q s) s) (bl0, 0)) Q.
Proof.
  intros Hr Hc HI HJ HT Hb HQ. pose proof (bw_bounds r I Hr HI). pose proof (bw_bounds c J Hc HJ).
  assert (Er : Z.min (I * 52 + 52) r = I * 52 + bw r I) by (unfold bw; lia).
  assert (Ec : Z.min (J * 52 + 52) c = J * 52 + bw c J) by (unfold bw; lia). rewrite Er, Ec.
  apply (wp_for2c (fun p q bl => BTab bl r c (cellinv (bw c J) t g I J ((p - I * 52) * bw c J + (q - J * 52))))); try lia.
  - rewrite !Z.sub_diag. rewrite Z.mul_0_l, Z.add_0_r. apply cellinv_0; auto.
  - intros p q bl Hp Hq HP. replace (J * 52 + bw c J - J * 52) with (bw c J) by lia.
    remember (p - I * 52) as x eqn:Ex. remember (q - J * 52) as y eqn:Ey.
    assert (p = I * 52 + x) by lia. assert (q = J * 52 + y) by lia. subst p q. clear Ex Ey.
    eapply wp_conseq; [eapply Hb; eauto; try lia|].
    + apply cellinv_here.
    + intros [bl' k] [Hk HT']. simpl in *. split; auto.
      replace (J * 52 + y + 1 - J * 52) with (y + 1) by lia. rewrite Z.add_assoc. apply cellinv_step; auto; lia.
  - intros p bl Hp HP. replace ((p + 1 - I * 52) * bw c J + (J * 52 - J * 52)) with ((p - I * 52) * bw c J + (J * 52 + bw c J - J * 52)) by lia. auto.
  - intros bl HP. apply HQ. apply cellinv_end; auto.
    replace (bw r I * bw c J) with ((I * 52 + bw r I - I * 52) * bw c J + (J * 52 - J * 52)) by lia. auto.
Qed.
(** Loop over the list of cells of block (I,J). *)
Lemma wp_flat_cells r c t g I J (cell : Z -> mat -> res mat) bl0 (Q : mat -> Prop) :
  1 <= r -> 1 <= c -> 0 <= I < nblk r -> 0 <= J < nblk c -> BTab bl0 r c t ->
  (forall x y bl t', 0 <= x < bw r I -> 0 <= y < bw c J -> BTab bl r c t' ->
     t' (I * 52 + x) (J * 52 + y) = t (I * 52 + x) (J * 52 + y) ->
     wp (cell (x * bw c J + y) bl) (fun bl' =>
        BTab bl' r c (tset t' (I * 52 + x) (J * 52 + y) (g (I * 52 + x) (J * 52 + y))))) ->
  (forall bl, BTab bl r c (blkset t g I J) -> Q bl) ->
  wp (for_ 0 (bw r I * bw c J) cell bl0) Q.
Proof.
  intros Hr Hc HI HJ HT Hb HQ. pose proof (bw_bounds r I Hr HI). pose proof (bw_bounds c J Hc HJ).
  apply (wp_for (fun k bl => BTab bl r c (cellinv (bw c J) t g I J k))); try nia.
  - apply cellinv_0; auto.
  - intros k bl Hk HP. destruct (lin_split _ _ k Hk ltac:(lia)) as (Hx & Hy & E).
    revert HP. rewrite E. intros HP. eapply wp_conseq; [eapply Hb; eauto|].
    + apply cellinv_here.
    + intros bl' HT'. apply cellinv_step; auto.
  - intros bl HP. apply HQ. apply cellinv_end; auto.
Qed.

(** Copying a stretch into one row of a block of width [w]. *)
Lemma row_copy (dst src : vec) h w x y0 L s0 (Q : vec -> Prop) :
  len dst = h * w -> 0 <= x < h -> 0 <= y0 -> 0 <= L -> y0 + L <= w -> 0 <= s0 -> s0 + L <= len src ->
  (forall d, len d = h * w ->
    (forall x' y', 0 <= x' < h -> 0 <= y' < w -> nthZ d (x' * w + y') =
      if (x' =? x) && (y0 <=? y') && (y' <? y0 + L) then nthZ src (s0 + (y' - y0)) else nthZ dst (x' * w + y')) -> Q d) ->
  wp (slice_copy dst (x * w + y0) (x * w + y0 + L) src s0 (s0 + L)) Q.
Proof.
  intros Hl Hx Hy HL Hw Hs Hs' HQ. apply wp_slice_copy; try nia.
  intros d Hd Hn. apply HQ; [lia|]. intros x' y' Hx' Hy'.
  pose proof (lin_range x' y' _ _ Hx' Hy'). rewrite Hn by lia.
  replace (x * w + y0 + L - (x * w + y0)) with L by lia. replace (s0 + L - s0) with L by lia. rewrite Z.min_id.
  destruct (Z.eqb_spec x' x); cbn [andb].
  - subst x'. zb. f_equal. lia.
  - destruct (Z.leb_spec (x * w + y0) (x' * w + y')), (Z.ltb_spec (x' * w + y') (x * w + y0 + L)); cbn [andb]; auto. nia.
Qed.
End Loops.

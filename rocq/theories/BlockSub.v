(** Proofs about BlockRealMatrix.SubMatrix. *)
From Coq Require Import ZArith List Lia Bool.
From Verif Require Import Base BaseLemmas Scalar Vector VecSpec VectorFacts Matrix BlockM MatSpec MatFacts Array2DFacts BlockLoops BlockFacts BlockFacts2.
Import ListNotations.
Open Scope Z_scope.

Section BlockSub.
Context {O : Ops}.

Lemma copyBlockPart_spec (src o : vec) sh sw h w sr er sc ec dr dc (Q : vec -> Prop) :
  len src = sh * sw -> len o = h * w ->
  0 <= sr <= er -> er <= sh -> 0 <= sc <= ec -> ec <= sw ->
  0 <= dr -> dr + (er - sr) <= h -> 0 <= dc -> dc + (ec - sc) <= w ->
  (forall o', len o' = h * w -> (forall x y, 0 <= x < h -> 0 <= y < w -> nthZ o' (x * w + y) =
     if (dr <=? x) && (x <? dr + (er - sr)) && (dc <=? y) && (y <? dc + (ec - sc))
     then nthZ src ((sr + (x - dr)) * sw + (sc + (y - dc))) else nthZ o (x * w + y)) -> Q o') ->
  wp (copyBlockPart src sw sr er sc ec o w dr dc) Q.
Proof.
  intros Hls Hlo H1 H2 H3 H4 H5 H6 H7 H8 HQ. unfold copyBlockPart. wpb.
  apply (wp_for (fun k s => snd (fst s) = k * sw + sc /\ snd s = (dr + (k - sr)) * w + dc /\ len (fst (fst s)) = h * w /\
    forall x y, 0 <= x < h -> 0 <= y < w -> nthZ (fst (fst s)) (x * w + y) =
     if (dr <=? x) && (x <? dr + (k - sr)) && (dc <=? y) && (y <? dc + (ec - sc))
     then nthZ src ((sr + (x - dr)) * sw + (sc + (y - dc))) else nthZ o (x * w + y))); try lia.
  - cbn [fst snd]. split; [lia|]. split; [lia|]. split; auto. intros x y Hx Hy. zb.
  - intros k [[o1 sp] dp] Hk (Hsp & Hdp & Hl1 & Hn1). cbn [fst snd] in *. subst sp dp. wpb.
    eapply row_copy; try eassumption; try nia. intros o2 Hl2 Hn2. apply wp_ok. cbn [fst snd].
    split; [lia|]. split; [lia|]. split; auto. intros x y Hx Hy. rewrite Hn2 by auto.
    destruct (Z.eqb_spec x (dr + (k - sr))); cbn [andb].
    + destruct (Z.leb_spec dc y), (Z.ltb_spec y (dc + (ec - sc))); cbn [andb].
      * zb. f_equal. subst x. lia.
      * rewrite Hn1 by auto. zb.
      * rewrite Hn1 by auto. zb.
      * rewrite Hn1 by auto. zb.
    + rewrite Hn1 by auto. zb.
  - intros [[o1 sp] dp] (Hsp & Hdp & Hl1 & Hn1). cbn [fst snd] in *. apply wp_ok. apply HQ; auto.
Qed.

(** One copy out of block (PI,QJ) into block (I,J) of the result. *)
Lemma sub_step {A} bl r c f bo R C tt PI QJ I J sr er sc ec dr dc (K : mat -> res A) (Q : A -> Prop) idx oidx :
  1 <= r -> 1 <= c -> 1 <= R -> 1 <= C -> BTab bl r c f -> BTab bo R C tt ->
  0 <= PI < nblk r -> 0 <= QJ < nblk c -> 0 <= I < nblk R -> 0 <= J < nblk C ->
  idx = PI * nblk c + QJ -> oidx = I * nblk C + J ->
  0 <= sr <= er -> er <= bw r PI -> 0 <= sc <= ec -> ec <= bw c QJ ->
  0 <= dr -> dr + (er - sr) <= bw R I -> 0 <= dc -> dc + (ec - sc) <= bw C J ->
  (forall bo', BTab bo' R C (blkset tt (fun p q =>
      if (I * 52 + dr <=? p) && (p <? I * 52 + dr + (er - sr)) && (J * 52 + dc <=? q) && (q <? J * 52 + dc + (ec - sc))
      then f (PI * 52 + sr + (p - I * 52 - dr)) (QJ * 52 + sc + (q - J * 52 - dc)) else tt p q) I J) -> wp (K bo') Q) ->
  wp (let* s := zget bl idx in let* o := zget bo oidx in
      let* o := copyBlockPart s (bw c QJ) sr er sc ec o (bw C J) dr dc in
      let* bl := zset bo oidx o in K bl) Q.
Proof.
  intros Hr Hc HR HC HT HTo HPI HQJ HI HJ -> -> H1 H2 H3 H4 H5 H6 H7 H8 HK.
  destruct (BTab_BlkTab _ _ _ _ PI QJ HT HPI HQJ) as (src & -> & HS).
  destruct (BTab_BlkTab _ _ _ _ I J HTo HI HJ) as (o & -> & HO). simp. wpb.
  eapply copyBlockPart_spec; [apply (proj1 HS)|apply (proj1 HO)|lia..|].
  intros o' Hl' Hn'.
  pose proof (bw_bounds r PI Hr HPI). pose proof (bw_bounds c QJ Hc HQJ).
  pose proof (bw_bounds R I HR HI). pose proof (bw_bounds C J HC HJ).
  destruct (BTab_put bo R C tt I J o' (fun p q =>
      if (I * 52 + dr <=? p) && (p <? I * 52 + dr + (er - sr)) && (J * 52 + dc <=? q) && (q <? J * 52 + dc + (ec - sc))
      then f (PI * 52 + sr + (p - I * 52 - dr)) (QJ * 52 + sc + (q - J * 52 - dc)) else tt p q) HTo HI HJ) as (bo' & -> & HT').
  { split; [lia|]. intros x y Hx Hy. rewrite Hn' by auto. rewrite (proj2 HO) by auto. clear - Hx Hy H1 H3 H2 H4 HS.
    zb. rewrite (proj2 HS) by lia. f_equal; lia. }
  simp. apply HK; auto.
Qed.
Lemma sub_last bl r c f bo R C tt PI QJ I J sr er sc ec dr dc (Q : mat -> Prop) idx oidx :
  1 <= r -> 1 <= c -> 1 <= R -> 1 <= C -> BTab bl r c f -> BTab bo R C tt ->
  0 <= PI < nblk r -> 0 <= QJ < nblk c -> 0 <= I < nblk R -> 0 <= J < nblk C ->
  idx = PI * nblk c + QJ -> oidx = I * nblk C + J ->
  0 <= sr <= er -> er <= bw r PI -> 0 <= sc <= ec -> ec <= bw c QJ ->
  0 <= dr -> dr + (er - sr) <= bw R I -> 0 <= dc -> dc + (ec - sc) <= bw C J ->
  (forall bo', BTab bo' R C (blkset tt (fun p q =>
      if (I * 52 + dr <=? p) && (p <? I * 52 + dr + (er - sr)) && (J * 52 + dc <=? q) && (q <? J * 52 + dc + (ec - sc))
      then f (PI * 52 + sr + (p - I * 52 - dr)) (QJ * 52 + sc + (q - J * 52 - dc)) else tt p q) I J) -> Q bo') ->
  wp (let* s := zget bl idx in let* o := zget bo oidx in
      let* o := copyBlockPart s (bw c QJ) sr er sc ec o (bw C J) dr dc in
      zset bo oidx o) Q.
Proof.
  intros Hr Hc HR HC HT HTo HPI HQJ HI HJ -> -> H1 H2 H3 H4 H5 H6 H7 H8 HK.
  destruct (BTab_BlkTab _ _ _ _ PI QJ HT HPI HQJ) as (src & -> & HS).
  destruct (BTab_BlkTab _ _ _ _ I J HTo HI HJ) as (o & -> & HO). simp. wpb.
  eapply copyBlockPart_spec; [apply (proj1 HS)|apply (proj1 HO)|lia..|].
  intros o' Hl' Hn'.
  pose proof (bw_bounds r PI Hr HPI). pose proof (bw_bounds c QJ Hc HQJ).
  pose proof (bw_bounds R I HR HI). pose proof (bw_bounds C J HC HJ).
  destruct (BTab_put bo R C tt I J o' (fun p q =>
      if (I * 52 + dr <=? p) && (p <? I * 52 + dr + (er - sr)) && (J * 52 + dc <=? q) && (q <? J * 52 + dc + (ec - sc))
      then f (PI * 52 + sr + (p - I * 52 - dr)) (QJ * 52 + sc + (q - J * 52 - dc)) else tt p q) HTo HI HJ) as (bo' & -> & HT').
  { split; [lia|]. intros x y Hx Hy. rewrite Hn' by auto. rewrite (proj2 HO) by auto. clear - Hx Hy H1 H3 H2 H4 HS.
    zb. rewrite (proj2 HS) by lia. f_equal; lia. }
  apply wp_ok. apply HK; auto.
Qed.

Lemma b_SubMatrix_spec b r c f r0 r1 c0 c1 : BIs b r c f ->
  0 <= r0 <= r1 -> r1 < r -> 0 <= c0 <= c1 -> c1 < c ->
  wp (b_SubMatrix b r0 r1 c0 c1) (fun b' =>
    BIs b' (r1 - r0 + 1) (c1 - c0 + 1) (fun i j => f (r0 + i) (c0 + j))).
Proof.
  intros Hb H1 H2 H3 H4. pose proof (MatIs_blk _ _ _ _ Hb) as Hm. unfold b_SubMatrix.
  rewrite (checkSubMatrixIndex_ok _ c) by (rewrite ?(MatIs_rows _ _ _ _ Hm); eauto using MatIs_cols; lia). clear Hm.
  destruct Hb as (bl & -> & Hr & Hc & HT). bsimp. b52.
  set (R := r1 - r0 + 1). set (C := c1 - c0 + 1). assert (HR : 1 <= R) by lia. assert (HC : 1 <= C) by lia.
  assert (HRr : r0 + R <= r) by lia. assert (HCc : c0 + C <= c) by lia. assert (H0 : 0 <= r0) by lia. assert (H0' : 0 <= c0) by lia.
  clearbody R C. clear H1 H2 H3 H4.
  destruct (New_ok R C HR HC) as (b0 & -> & HT0). bsimp. cbv zeta. wpb.
  pose proof (Z.div_mod r0 52 ltac:(lia)) as Er0. pose proof (Z.mod_pos_bound r0 52 ltac:(lia)) as Hrs.
  pose proof (Z.div_mod c0 52 ltac:(lia)) as Ec0. pose proof (Z.mod_pos_bound c0 52 ltac:(lia)) as Hcs.
  set (PB := r0 / 52) in *. set (rs := r0 mod 52) in *. set (QB := c0 / 52) in *. set (cs := c0 mod 52) in *.
  clearbody PB rs QB cs.
  pose proof (nblk_pos R HR). pose proof (nblk_pos C HC).
  pose proof (nblk_spec r Hr) as Hnr. pose proof (nblk_spec c Hc) as Hnc.
  pose proof (nblk_spec R HR) as HnR. pose proof (nblk_spec C HC) as HnC.
  assert (HPB : 0 <= PB) by lia. assert (HQB : 0 <= QB) by lia.
  set (g := fun i j => f (r0 + i) (c0 + j)).
  apply (wp_for (fun I s => snd s = PB + I /\ BTab (fst s) R C (blkinv C (fun _ _ => fzero) g (I * nblk C)))); try lia.
  - cbn [fst snd]. split; [lia|]. apply blkinv_0; auto.
  - intros I [bo pb] HI [Hpb HTo]. cbn [fst snd] in *. subst pb. rewrite blockHeight_bw by auto.
    pose proof (bw_bounds R I HR HI) as HbI. wpb.
    apply (wp_for (fun J s => snd s = QB + J /\ BTab (fst s) R C (blkinv C (fun _ _ => fzero) g (I * nblk C + J)))); try lia.
    + cbn [fst snd]. split; [lia|]. rewrite Z.add_0_r. auto.
    + intros J [bo1 qb] HJ [Hqb HT1]. cbn [fst snd] in *. subst qb. rewrite !blockWidth_bw by (auto; lia).
      pose proof (bw_bounds C J HC HJ) as HbJ.
      assert (HPI : 0 <= PB + I < nblk r) by lia. assert (HQJ : 0 <= QB + J < nblk c) by lia.
      assert (HhI : bw r (PB + I) = Z.min ((PB + I) * 52 + 52) r - (PB + I) * 52) by reflexivity.
      assert (HwJ : bw c (QB + J) = Z.min ((QB + J) * 52 + 52) c - (QB + J) * 52) by reflexivity.
      wpb.
      match goal with |- wp _ ?Q => assert (Hfin : forall t bo2, BTab bo2 R C t ->
        (forall p q, p / 52 = I -> q / 52 = J -> 0 <= p < R -> 0 <= q < C -> t p q = g p q) ->
        (forall p q, ~ (p / 52 = I /\ q / 52 = J) -> t p q = blkinv C (fun _ _ => fzero) g (I * nblk C + J) p q) -> Q bo2) end.
      { intros t bo2 HT2 Hin Hout. apply wp_ok. cbn [fst snd]. split; [lia|]. rewrite Z.add_assoc. apply blkinv_step; auto.
        eapply BTab_ext; try exact HT2; auto. intros p q Hp Hq. unfold blkset.
        destruct (Z.eqb_spec (p / 52) I), (Z.eqb_spec (q / 52) J); cbn [andb]; auto; apply Hout; lia. }
      assert (Hdiv : forall p, p / 52 * 52 <= p < p / 52 * 52 + 52).
      { intros p. pose proof (Z.div_mod p 52). pose proof (Z.mod_pos_bound p 52). lia. }
      assert (HhI' : 0 < bw R I + rs - 52 -> PB + I + 1 < nblk r /\ bw r (PB + I) = 52 /\ bw R I + rs - 52 <= bw r (PB + I + 1)).
      { intros. assert (PB + I + 1 < nblk r) by lia. split; auto.
        assert (bw r (PB + I + 1) = Z.min ((PB + I + 1) * 52 + 52) r - (PB + I + 1) * 52) by reflexivity. lia. }
      assert (HwJ' : 0 < bw C J + cs - 52 -> QB + J + 1 < nblk c /\ bw c (QB + J) = 52 /\ bw C J + cs - 52 <= bw c (QB + J + 1)).
      { intros. assert (QB + J + 1 < nblk c) by lia. split; auto.
        assert (bw c (QB + J + 1) = Z.min ((QB + J + 1) * 52 + 52) c - (QB + J + 1) * 52) by reflexivity. lia. }
      assert (HeI : ~ 0 < bw R I + rs - 52 -> bw R I + rs <= bw r (PB + I)) by lia.
      assert (HeJ : ~ 0 < bw C J + cs - 52 -> bw C J + cs <= bw c (QB + J)) by lia.
      assert (HRI : forall p, 0 <= p < R -> p / 52 = I -> I * 52 <= p < I * 52 + bw R I).
      { intros p Hp E. specialize (Hdiv p). unfold bw. lia. }
      assert (HCJ : forall p, 0 <= p < C -> p / 52 = J -> J * 52 <= p < J * 52 + bw C J).
      { intros p Hp E. specialize (Hdiv p). unfold bw. lia. }
      clear HhI HwJ.
      destruct (Z.ltb_spec 0 (bw R I + rs - 52)) as [HE|HE]; [destruct (HhI' HE) as (Ha1 & Ha2 & Ha3)|pose proof (HeI ltac:(lia))];
      (destruct (Z.ltb_spec 0 (bw C J + cs - 52)) as [WE|WE]; [destruct (HwJ' WE) as (Hb1 & Hb2 & Hb3)|pose proof (HeJ ltac:(lia))]);
      rewrite ?(blockWidth_bw bl r c (QB + J + 1)) by (auto; lia).
      * eapply (sub_step bl r c f bo1 R C _ (PB + I) (QB + J) I J); try eassumption; try lia. clear HT1. intros bo2 HT2.
        eapply (sub_step bl r c f bo2 R C _ (PB + I) (QB + J + 1) I J); try eassumption; try lia. clear HT2. intros bo3 HT3.
        eapply (sub_step bl r c f bo3 R C _ (PB + I + 1) (QB + J) I J); try eassumption; try lia. clear HT3. intros bo4 HT4.
        eapply (sub_last bl r c f bo4 R C _ (PB + I + 1) (QB + J + 1) I J); try eassumption; try lia. clear HT4. intros bo5 HT5.
        eapply Hfin; try exact HT5.
        -- intros p q Ep Eq Hp Hq. specialize (HRI p Hp Ep). specialize (HCJ q Hq Eq). unfold blkset, g.
           rewrite Ep, Eq, !Z.eqb_refl. cbn [andb]. clear - HRI HCJ Er0 Ec0 HE WE. zb; f_equal; lia.
        -- intros p q Hn. unfold blkset. destruct (Z.eqb_spec (p / 52) I), (Z.eqb_spec (q / 52) J); cbn [andb]; auto. tauto.
      * eapply (sub_step bl r c f bo1 R C _ (PB + I) (QB + J) I J); try eassumption; try lia. clear HT1. intros bo2 HT2.
        eapply (sub_last bl r c f bo2 R C _ (PB + I + 1) (QB + J) I J); try eassumption; try lia. clear HT2. intros bo3 HT3.
        eapply Hfin; try exact HT3.
        -- intros p q Ep Eq Hp Hq. specialize (HRI p Hp Ep). specialize (HCJ q Hq Eq). unfold blkset, g.
           rewrite Ep, Eq, !Z.eqb_refl. cbn [andb]. clear - HRI HCJ Er0 Ec0 HE WE. zb; f_equal; lia.
        -- intros p q Hn. unfold blkset. destruct (Z.eqb_spec (p / 52) I), (Z.eqb_spec (q / 52) J); cbn [andb]; auto. tauto.
      * eapply (sub_step bl r c f bo1 R C _ (PB + I) (QB + J) I J); try eassumption; try lia. clear HT1. intros bo2 HT2.
        eapply (sub_last bl r c f bo2 R C _ (PB + I) (QB + J + 1) I J); try eassumption; try lia. clear HT2. intros bo3 HT3.
        eapply Hfin; try exact HT3.
        -- intros p q Ep Eq Hp Hq. specialize (HRI p Hp Ep). specialize (HCJ q Hq Eq). unfold blkset, g.
           rewrite Ep, Eq, !Z.eqb_refl. cbn [andb]. clear - HRI HCJ Er0 Ec0 HE WE. zb; f_equal; lia.
        -- intros p q Hn. unfold blkset. destruct (Z.eqb_spec (p / 52) I), (Z.eqb_spec (q / 52) J); cbn [andb]; auto. tauto.
      * eapply (sub_last bl r c f bo1 R C _ (PB + I) (QB + J) I J); try eassumption; try lia. clear HT1. intros bo3 HT3.
        eapply Hfin; try exact HT3.
        -- intros p q Ep Eq Hp Hq. specialize (HRI p Hp Ep). specialize (HCJ q Hq Eq). unfold blkset, g.
           rewrite Ep, Eq, !Z.eqb_refl. cbn [andb]. clear - HRI HCJ Er0 Ec0 HE WE. zb; f_equal; lia.
        -- intros p q Hn. unfold blkset. destruct (Z.eqb_spec (p / 52) I), (Z.eqb_spec (q / 52) J); cbn [andb]; auto. tauto.
    + intros [bo1 qb] [Hqb HT1]. cbn [fst snd] in *. apply wp_ok. cbn [fst snd]. split; [lia|].
      replace ((I + 1) * nblk C) with (I * nblk C + nblk C) by lia. auto.
  - intros [bo pb] [Hpb HTo]. cbn [fst snd] in *. apply wp_ok. exists bo. split; auto. split; auto. split; auto.
    eapply blkinv_end; eauto.
Qed.
End BlockSub.

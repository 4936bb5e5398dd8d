(** The library's sums and products in exact arithmetic. *)
From Coq Require Import ZArith List Lia Bool Reals Lra Permutation.
From Verif Require Import Base BaseLemmas Scalar Vector VecSpec VectorFacts Matrix Array2D BlockM Diagonal RealMatrixM MatSpec MatFacts Array2DFacts BlockLoops BlockFacts BlockFacts2 BlockFacts3 BlockSub BlockMul DiagFacts WalkFacts MatrixOps HistSpec MatHist MatProps DiagSpec DiagFacts2 DiagFacts3 DiagProps RealOps RSum.
Import ListNotations.
Open Scope Z_scope.

#[local] Existing Instance ROps.

Lemma fsum_Rs n (g : Z -> R) : fsum n g = Rs 0 n g.
Proof.
  unfold fsum, Rs. rewrite Z.sub_0_r. induction (Z.to_nat n) as [|k IH]; auto. cbn [accum Rsn]. rewrite IH. reflexivity.
Qed.
Lemma accum_Rs (g : Z -> R) n (s : R) : accum (fun k s => (s + g k)%f) (Z.to_nat n) s = (s + Rs 0 n g)%R.
Proof.
  unfold Rs. rewrite Z.sub_0_r. induction (Z.to_nat n) as [|k IH]; cbn [accum Rsn]; [lra|]. rewrite IH.
  change (@fadd ROps) with Rplus. rewrite Z.add_0_l. lra.
Qed.
Lemma Rs_group n (g : Z -> R) w : 0 <= n -> 0 <= w ->
  Rs 0 n (fun K => Rs 0 w (fun k => g (K * w + k))) = Rs 0 (n * w) g.
Proof.
  intros Hn Hw. apply (Rs_ind (fun n => Rs 0 n (fun K => Rs 0 w (fun k => g (K * w + k))) = Rs 0 (n * w) g) 0 n Hn).
  - rewrite !Rs_nil by lia. auto.
  - intros k Hk IH. rewrite Rs_last by lia. rewrite IH. rewrite (Rs_split 0 (k * w) ((k + 1) * w)) by nia. f_equal.
    rewrite (Rs_ext 0 w _ (fun t => g (t + k * w))) by (intros; f_equal; lia). rewrite Rs_shift. f_equal; lia.
Qed.
Lemma sum4_Rs w (g : Z -> R) : 0 <= w -> sum4 w g = Rs 0 w g.
Proof.
  intros Hw. unfold sum4. pose proof (Z.div_mod w 4 ltac:(lia)). pose proof (Z.mod_pos_bound w 4 ltac:(lia)).
  assert (E : accum (fun g0 s => (s + quad (O := ROps) g (4 * g0)%Z)%f) (Z.to_nat (w / 4)) fzero = Rs 0 (w / 4 * 4) g).
  { rewrite (accum_Rs (fun K => quad (O := ROps) g (4 * K)) (w / 4)). change (@fzero ROps) with 0%R. rewrite Rplus_0_l.
    rewrite <- Rs_group by lia. apply Rs_ext. intros K _. unfold quad. change (Rs 0 4) with (Rs 0 (0 + 1 + 1 + 1 + 1)). rewrite !Rs_last by lia.
    rewrite Rs_nil by lia. change (@fadd ROps) with Rplus.
    replace (4 * K) with (K * 4 + 0) by lia. replace (K * 4 + 0 + 1) with (K * 4 + (0 + 1)) by lia.
    replace (K * 4 + 0 + 2) with (K * 4 + (0 + 1 + 1)) by lia. replace (K * 4 + 0 + 3) with (K * 4 + (0 + 1 + 1 + 1)) by lia. lra. }
  rewrite E. rewrite (accum_Rs (fun k => g (w / 4 * 4 + k)) (w - w / 4 * 4)).
  rewrite (Rs_split 0 (w / 4 * 4) w) by lia. f_equal.
  rewrite (Rs_ext 0 _ _ (fun t => g (t + w / 4 * 4))) by (intros; f_equal; lia). rewrite Rs_shift. f_equal; lia.
Qed.
Lemma bsum_Rs sum n (g : Z -> R) : 1 <= n -> (forall w h, 0 <= w -> sum w h = Rs 0 w h) -> bsum sum n g = Rs 0 n g.
Proof.
  intros Hn Hsum. unfold bsum. rewrite (accum_Rs (fun K => sum (bw n K) (fun k => g (K * 52 + k))) (nblk n)).
  change (@fzero ROps) with 0%R. rewrite Rplus_0_l.
  assert (Hb : 1 <= nblk n /\ (nblk n - 1) * 52 < n <= nblk n * 52).
  { unfold nblk. pose proof (Z.div_mod (n + 51) 52 ltac:(lia)). pose proof (Z.mod_pos_bound (n + 51) 52 ltac:(lia)). lia. }
  replace (nblk n) with (nblk n - 1 + 1) by lia. rewrite Rs_last by lia.
  rewrite (Rs_ext 0 (nblk n - 1) _ (fun K => Rs 0 52 (fun k => g (K * 52 + k)))).
  2:{ intros K HK. unfold bw. rewrite Z.min_l by nia. rewrite Hsum by lia. f_equal; lia. }
  rewrite Rs_group by lia. rewrite Hsum by (unfold bw; lia). rewrite (Rs_split 0 ((nblk n - 1) * 52) n) by lia. f_equal.
  rewrite (Rs_ext 0 _ _ (fun t => g (t + (nblk n - 1) * 52))) by (intros; f_equal; lia). rewrite Rs_shift. unfold bw.
  f_equal; lia.
Qed.
Lemma bsum4_Rs n (g : Z -> R) : 1 <= n -> bsum sum4 n g = Rs 0 n g.
Proof. intros. apply bsum_Rs; auto. intros. apply sum4_Rs; auto. Qed.
Lemma bsumf_Rs n (g : Z -> R) : 1 <= n -> bsum fsum n g = Rs 0 n g.
Proof. intros. apply bsum_Rs; auto. intros. apply fsum_Rs. Qed.

Lemma gives_ext x r c (f g : Z -> Z -> R) : gives x r c f -> meq r c f g -> gives x r c g.
Proof. intros (s & E & Hg & H) Hm. exists s. split; auto. split; auto. eapply MatIs_ext; eauto. Qed.

Lemma VecIs_ext {O : Ops} v n (f g : Z -> F) : VecIs v n f -> (forall i, 0 <= i < n -> f i = g i) -> VecIs v n g.
Proof. intros (H1 & H2 & H3) H. split; auto. split; auto. intros i Hi. rewrite H2, H by auto. auto. Qed.
Lemma MatIs_Diag d r c (f : Z -> Z -> R) : MatIs (MDiag d) r c f -> r = c /\ DiagIs (MDiag d) r (fun i => f i i) /\
  forall i j, 0 <= i < r -> 0 <= j < r -> i <> j -> f i j = 0%R.
Proof.
  intros H. destruct (MatIs_DIs _ _ _ _ H) as (-> & Hd & H0). split; auto. split.
  - apply DIs_DiagIs. auto.
  - intros. apply H0; auto.
Qed.
Lemma diag_mmul n (g : Z -> R) f i j : 0 <= i < n -> mmul n (diagonal g) f i j = (g i * f i j)%R.
Proof.
  intros Hi. unfold mmul. rewrite (Rs_pick 0 n i); auto.
  - unfold diagonal. rewrite Z.eqb_refl. auto.
  - intros k Hk Hne. unfold diagonal. destruct (Z.eqb_spec i k); [congruence|]. change (@fzero ROps) with 0%R. lra.
Qed.
Lemma diag_eq n (f : Z -> Z -> R) : (forall i j, 0 <= i < n -> 0 <= j < n -> i <> j -> f i j = 0%R) ->
  meq n n f (diagonal (fun i => f i i)).
Proof. intros H0 i j Hi Hj. unfold diagonal. destruct (Z.eqb_spec i j); [subst; auto|]. rewrite H0 by auto. auto. Qed.

Lemma real_product m n r k c f g : library m -> MatIs m r k f -> MatIs n k c g -> 1 <= r -> 1 <= c ->
  exists p, m_Multiply m n = Ok p /\ library p /\ MatIs p r c (mmul k f g).
Proof.
  intros Hl Hm Hn Hr Hc. destruct m as [a|b|d|? ? ?]; try contradiction.
  - destruct (m_Multiply_ok (MArr a) n r k c f g I Hm Hn Hc) as (p & E & Hg & H). exists p. split; auto.
    split; [destruct p; auto|]. eapply MatIs_ext; [exact H|]. intros i j _ _. cbn [msum]. apply fsum_Rs.
  - destruct (m_Multiply_ok (MBlk b) n r k c f g I Hm Hn Hc) as (p & E & Hg & H). exists p. split; auto.
    split; [destruct p; auto|]. eapply MatIs_ext; [exact H|]. intros i j _ _. cbn [msum].
    assert (1 <= k) by (apply MatIs_blk_inv in Hm; destruct Hm as (? & _ & ? & ? & _); auto).
    destruct n; [apply bsumf_Rs|apply bsum4_Rs|apply bsumf_Rs|apply bsumf_Rs]; auto.
  - destruct (MatIs_Diag d r k f Hm) as (-> & Hd & H0). destruct (diag_product _ _ _ Hd) as [P1 P2].
    assert (E0 : meq k c (fun i j => (f i i * g i j)%R) (mmul k f g)).
    { intros i j Hi Hj. rewrite (mmul_ext k f (diagonal (fun i => f i i)) g g) by (intros; auto; apply diag_eq with (n := k); auto).
      rewrite diag_mmul by auto. auto. }
    destruct n as [a'|b'|d'|? ? ?].
    + destruct (P2 _ _ _ Hr Hc Hn ltac:(discriminate)) as (p & E & Hg & H). exists p. split; auto. split; [destruct p; auto|]. eapply MatIs_ext; eauto.
    + destruct (P2 _ _ _ Hr Hc Hn ltac:(discriminate)) as (p & E & Hg & H). exists p. split; auto. split; [destruct p; auto|]. eapply MatIs_ext; eauto.
    + destruct (MatIs_Diag d' k c g Hn) as (-> & Hd' & H0'). destruct (P1 _ _ Hd') as (p & E & Hp). exists p. split; auto.
      destruct Hp as ((dp & ->) & Hp). split; [exact I|]. eapply MatIs_ext; [exact Hp|]. intros i j Hi Hj. rewrite <- E0 by auto.
      unfold diagonal. destruct (Z.eqb_spec i j); [subst; auto|]. rewrite H0' by auto. change (@fzero ROps) with 0%R. lra.
    + destruct (P2 _ _ _ Hr Hc Hn ltac:(discriminate)) as (p & E & Hg & H). exists p. split; auto. split; [destruct p; auto|]. eapply MatIs_ext; eauto.
Qed.

Lemma real_operate m r c f v g : library m -> MatIs m r c f -> 1 <= c -> VecIs (VArr v) c g ->
  wp (m_Operate m v) (fun w => VecIs (VArr w) r (mvec c f g)).
Proof.
  intros Hl Hm Hc Hv. destruct m as [a|b|d|? ? ?]; try contradiction.
  - eapply wp_conseq; [apply (m_Operate_ok (MArr a) r c f v g I Hm Hv)|]. cbn beta. intros w Hw. eapply VecIs_ext; [exact Hw|]. intros i Hi. apply fsum_Rs.
  - eapply wp_conseq; [apply (m_Operate_ok (MBlk b) r c f v g I Hm Hv)|]. cbn beta. intros w Hw. eapply VecIs_ext; [exact Hw|]. intros i Hi. apply bsum4_Rs; auto.
  - destruct (MatIs_Diag d r c f Hm) as (-> & Hd & H0). destruct (diag_operate _ _ _ _ _ Hd Hv) as (P & _).
    eapply wp_conseq; [exact P|]. cbn beta. intros w Hw. eapply VecIs_ext; [exact Hw|]. intros i Hi. symmetry.
    unfold mvec. rewrite (Rs_pick 0 c i); auto. intros k Hk Hne. rewrite H0 by auto. lra.
Qed.
Lemma real_premultiply m r c f v g : library m -> MatIs m r c f -> 1 <= r -> VecIs (VArr v) r g ->
  wp (m_PreMultiply m v) (fun w => VecIs (VArr w) c (mvec r (trm f) g)).
Proof.
  intros Hl Hm Hc Hv. destruct m as [a|b|d|? ? ?]; try contradiction.
  - eapply wp_conseq; [apply (m_PreMultiply_ok (MArr a) r c f v g I Hm Hv)|]. cbn beta. intros w Hw. eapply VecIs_ext; [exact Hw|]. intros i Hi. apply fsum_Rs.
  - eapply wp_conseq; [apply (m_PreMultiply_ok (MBlk b) r c f v g I Hm Hv)|]. cbn beta. intros w Hw. eapply VecIs_ext; [exact Hw|]. intros i Hi. apply bsum4_Rs; auto.
  - destruct (MatIs_Diag d r c f Hm) as (-> & Hd & H0). destruct (diag_operate _ _ _ _ _ Hd Hv) as (_ & P & _).
    eapply wp_conseq; [exact P|]. cbn beta. intros w Hw. eapply VecIs_ext; [exact Hw|]. intros i Hi. symmetry.
    unfold mvec, trm. rewrite (Rs_pick 0 c i); auto. intros k Hk Hne. rewrite H0 by auto. lra.
Qed.

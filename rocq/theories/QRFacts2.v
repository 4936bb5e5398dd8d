(** SolveMatrix and Inverse of the QR solver, for arbitrary scalar operations. *)
From Coq Require Import ZArith List Lia Bool.
From Verif Require Import Base BaseLemmas Wpe Scalar Vector VecSpec VectorFacts Matrix MatSpec MatFacts Array2D BlockM Diagonal RealMatrixM Array2DFacts MatrixOps MatHist MatProps BlockLoops BlockFacts RealMat2 RealMat3 DiagSpec Tri TabTac FSum CholFacts LUFacts2 QR QRFacts.
Import ListNotations.
Open Scope Z_scope.

Section QRFacts2.
Context {O : Ops}.

(** The first [w] columns of the work array hold the columns [Y]. *)
Definition holds (y : mat) (m w : Z) (Y : Z -> Z -> F) : Prop := exists Y', RTab y m 52 Y' /\ forall i k, 0 <= i < m -> 0 <= k < w -> Y' i k = Y k i.

Lemma sm_step_ext m M D k y y' : (forall i, 0 <= i < m -> y i = y' i) -> 0 <= k -> forall i, 0 <= i < m -> sm_step m M D k y i = sm_step m M D k y' i.
Proof.
  intros H Hk i Hi. unfold sm_step, sm_dot. rewrite (fadds_ext fzero k m _ (fun r => M k r * y' r)%f) by (intros; rewrite H by lia; auto).
  rewrite H by auto. auto.
Qed.
Lemma qrs_forward_ok m n M D thr d w y alpha B : 1 <= m -> 1 <= n -> qr_ok m n M D thr d -> 0 <= w <= 52 ->
  holds y m w B -> len alpha = 52 ->
  wp (qrs_forward d m n w (y, alpha)) (fun s => holds (fst s) m w (fun k => sm_y m n M D (B k)) /\ len (snd s) = 52).
Proof.
  intros Hm Hn (HT & HD & _) Hw Hy Hal. unfold qrs_forward.
  apply (wp_for (fun t s => holds (fst s) m w (fun k => accum (sm_step m M D) (Z.to_nat t) (B k)) /\ len (snd s) = 52)); [lia|auto| |auto].
  intros t [y1 al1] Ht [(Y & HY & EY) Hl]. cbn [fst snd] in *. vrow vk Hvk. repeat vget.
  set (fac := (fone / (D t * M t t))%f). apply wp_bind.
  assert (Hal1 : VTab al1 52 (nthZ al1)) by (split; auto).
  apply (wp_vecloop (fun _ => fzero) al1 52 _ 0 w _ _ Hal1); try lia; [auto|]. intros al2 Hal2. apply wp_bind.
  apply (wp_for (fun row al => exists a, VTab al 52 a /\ forall k, 0 <= k < w -> a k = fadds fzero t row (fun r => M t r * Y r k)%f)); [lia| | |].
  { eexists. split; [exact Hal2|]. intros k Hk. rewrite fadds_nil by lia. unfold vecpart. zbq. auto. }
  { intros row al Hrow (a & Ha & Ea). vget. apply (wp_vecloop (fun k => a k + M t row * Y row k)%f al 52 a 0 w _ _ Ha); try lia.
    - intros k al' Hk Ha'. vget. tget. f_equal. f_equal. unfold vecpart. zbq; auto.
    - intros al' Ha'. eexists. split; [exact Ha'|]. intros k Hk. rewrite fadds_S by lia. unfold vecpart. zbq. rewrite Ea by lia. auto. }
  intros al3 (a & Ha & Ea). apply wp_bind. apply (wp_vecloop (fun k => a k * fac)%f al3 52 a 0 w _ _ Ha); try lia.
  { intros k al' Hk Ha'. vget. f_equal. f_equal. unfold vecpart. zbq; auto. }
  intros al4 Ha4. apply wp_bind.
  apply (wp_for (fun row y => RTab y m 52 (fun i k => if (t <=? i) && (i <? row) && (0 <=? k) && (k <? w) then (Y i k + (a k * fac) * M t i)%f else Y i k))); [lia| | |].
  { eapply RTab_ext; [exact HY|]. intros. cbn beta. zbq; auto. }
  { intros row y2 Hrow H2. vget. apply (wp_rowloop (fun k => Y row k + (a k * fac) * M t row)%f y2 m 52 _ row 0 w _ _ H2); try lia.
    - intros k y' Hk Hy'. tget. vget. f_equal. unfold rowpart, vecpart. f_equal; [zbq; auto|]. f_equal. zbq; auto.
    - intros y' Hy'. eapply RTab_ext; [exact Hy'|]. intros i k Hi Hk. cbn beta. rp. }
  intros y2 H2. apply wp_ok. cbn [fst snd]. split; [|apply Ha4]. eexists. split; [exact H2|]. intros i k Hi Hk. cbn beta. rewrite accum_S by lia.
  unfold sm_step at 1, sm_dot. rewrite EY by auto. fold fac. rewrite (Ea k Hk).
  rewrite (fadds_ext fzero t m (fun r => M t r * Y r k)%f (fun r => M t r * accum (sm_step m M D) (Z.to_nat t) (B k) r)%f) by (intros; rewrite EY by lia; auto).
  zbq; auto.
Qed.

Lemma qrs_backward_ok m n M D thr d columns kB y xb X B : 1 <= m -> 1 <= n -> 1 <= columns -> qr_ok m n M D thr d -> 0 <= kB < nblk columns ->
  holds y m (bw columns kB) (fun k => sm_y m n M D (B k)) -> BTab xb n columns X -> (forall i q, kB * 52 <= q -> X i q = fzero) ->
  wp (qrs_backward d (nblk columns) kB (bw columns kB) (y, xb)) (fun s => (exists Y, RTab (fst s) m 52 Y) /\ exists X', BTab (snd s) n columns X' /\
    (forall i q, q < kB * 52 -> X' i q = X i q) /\ (forall i q, kB * 52 + bw columns kB <= q -> X' i q = fzero) /\
    forall k, 0 <= k < bw columns kB -> sm_sol m n M D (B k) (fun i => X' i (kB * 52 + k))).
Proof.
  intros Hm Hn Hc (HT & HD & _) HkB Hy HX HX0. unfold qrs_backward. rewrite (VTab_len _ _ _ HD).
  pose proof (bw_bounds columns kB Hc HkB) as Hbw. set (w := bw columns kB) in *. set (p := Z.min m n).
  apply (wp_for_down (fun j s => exists Y X', RTab (fst s) m 52 Y /\ BTab (snd s) n columns X' /\
    (forall i q, q < kB * 52 -> X' i q = X i q) /\ (forall i q, kB * 52 + w <= q -> X' i q = fzero) /\
    (forall i q, p <= i -> kB * 52 <= q -> X' i q = fzero) /\
    forall k, 0 <= k < w ->
      (forall i, j <= i < p -> X' i (kB * 52 + k) = (fsubd (sm_y m n M D (B k) i) (i + 1)%Z p (fun t => X' t (kB * 52 + k)%Z * M t i) * (fone / D i))%f) /\
      (forall i, 0 <= i < j -> Y i k = fsubd (sm_y m n M D (B k) i) j p (fun t => X' t (kB * 52 + k)%Z * M t i)%f))); [lia| | |].
  - destruct Hy as (Y & HY & EY). exists Y, X. cbn [fst snd]. split; [auto|]. split; [auto|]. split; [auto|]. split; [intros; apply HX0; lia|].
    split; [intros; apply HX0; lia|]. intros k Hk. split; [intros; lia|]. intros i Hi. rewrite fsubd_nil by lia. apply EY; lia.
  - intros j [y1 xb1] Hj (Y & X1 & HY & HX1 & I1 & I2 & I3 & I4). cbn [fst snd] in HY, HX1. vget. set (fac := (fone / D j)%f).
    apply wp_bind. destruct (blk_of n j Hn ltac:(lia)) as [HbI Hbx]. change BLOCK_SIZE with 52.
    apply (wp_for (fun k s => snd s = (j - j / 52 * 52) * w + k /\
      RTab (fst (fst s)) m 52 (rowpart Y j 0 k (fun q => Y j q * fac)%f) /\
      BTab (snd (fst s)) n columns (fun i q => if (i =? j) && (kB * 52 <=? q) && (q <? kB * 52 + k) then (Y j (q - kB * 52)%Z * fac)%f else X1 i q))); [lia| | |].
    + cbn [fst snd]. split; [lia|]. split.
      * eapply RTab_ext; [exact HY|]. intros. unfold rowpart. zbq; auto.
      * eapply BTab_ext; [lia|lia|exact HX1|]. intros. cbn beta. zbq; auto.
    + intros k [[y2 xb2] ix] Hk (E & H2 & HX2). cbn [fst snd] in *. subst ix. tget. unfold rowpart at 1. zbq.
      tput y3 H3. tget. unfold tset at 1. rewrite !Z.eqb_refl. cbn [andb].
      destruct (BTab_set xb2 n columns _ (j / 52) kB (j - j / 52 * 52) k (Y j k * fac)%f HX2) as (xb3 & E3 & HX3); [auto|auto|lia|auto|].
      fold w in E3. rewrite E3. cbn [bind]. apply wp_ok. cbn [fst snd]. split; [lia|]. split.
      * eapply RTab_ext; [exact H3|]. intros a b Ha Hb. cbn beta. rp.
      * eapply BTab_ext; [lia|lia|exact HX3|]. intros a b Ha Hb. cbn beta. unfold tset. replace (j / 52 * 52 + (j - j / 52 * 52)) with j by lia.
        zbq; subst; auto. replace (kB * 52 + k - kB * 52) with k by lia. auto.
    + intros [[y2 xb2] ix] (E & H2 & HX2). cbn [fst snd] in *. clear E. vrow vj Hvj. apply wp_bind.
      apply (wp_for (fun i y => RTab y m 52 (fun a b => if (a <? i) && (b <? w) then (Y a b - (Y j b * fac) * M j a)%f else rowpart Y j 0 w (fun q => Y j q * fac)%f a b))); [lia| | |].
      * eapply RTab_ext; [exact H2|]. intros. cbn beta. zbq; auto.
      * intros i y3 Hi H3. vget. apply (wp_rowloop (fun k => Y i k - (Y j k * fac) * M j i)%f y3 m 52 _ i 0 w _ _ H3); try lia.
        -- intros k y' Hk Hy'. repeat tget. f_equal. unfold rowpart. f_equal; [zbq; auto|]. f_equal. zbq; auto.
        -- intros y' Hy'. eapply RTab_ext; [exact Hy'|]. intros a b Ha Hb. cbn beta. rp.
      * intros y3 H3. apply wp_ok. cbn [fst snd]. eexists. eexists. split; [exact H3|]. split; [exact HX2|]. cbn beta.
        split; [intros; zbq; auto|]. split; [intros; zbq; auto|]. split; [intros; zbq; auto|].
        intros k Hk. destruct (I4 k Hk) as [J1 J2].
        assert (Ek : forall t, j < t -> (if (t =? j) && (kB * 52 <=? kB * 52 + k) && (kB * 52 + k <? kB * 52 + w) then (Y j (kB * 52 + k - kB * 52)%Z * fac)%f else X1 t (kB * 52 + k)) = X1 t (kB * 52 + k)).
        { intros t Htt. zbq. auto. }
        split.
        -- intros i Hi. destruct (Z.eq_dec i j) as [->|].
           ++ zbq. replace (kB * 52 + k - kB * 52) with k by lia. rewrite J2 by lia. unfold fac. f_equal. apply fsubd_ext. intros t Htt. zbq; auto.
           ++ rewrite Ek by lia. rewrite J1 by lia. f_equal. apply fsubd_ext. intros t Htt. rewrite Ek by lia. auto.
        -- intros i Hi. rewrite (fsubd_S _ j) by lia. zbq. replace (kB * 52 + k - kB * 52) with k by lia. rewrite J2 by lia. f_equal.
           apply fsubd_ext. intros t Htt. zbq; auto.
  - intros [y1 xb1] (Y & X1 & HY & HX1 & I1 & I2 & I3 & I4). cbn [fst snd] in *. split; [eauto|]. exists X1. split; [auto|]. split; [auto|]. split; [auto|].
    intros k Hk. destruct (I4 k Hk) as [J1 J2]. split; [exact J1|]. intros i Hi. apply I3; lia.
Qed.

Lemma qrs_SolveMatrix_ok m n M D thr d b columns B : 1 <= m -> 1 <= n -> 1 <= columns -> qr_ok m n M D thr d -> MatIs b m columns B ->
  (forall i, 0 <= i < Z.min m n -> fle (fabs (D i)) thr = false) ->
  wp (qrs_SolveMatrix d b) (fun r => exists X, general r /\ MatIs r n columns X /\
    forall q, 0 <= q < columns -> sm_sol m n M D (fun i => B i q) (fun i => X i q)).
Proof.
  intros Hm Hn Hc Hok Hb Hs. pose proof Hok as (HT & HD & Ht & _). unfold qrs_SolveMatrix. vrow row Hrow.
  rewrite (VTab_len _ _ _ Hrow), (RTab_len _ _ _ _ HT), (MatIs_rows _ _ _ _ Hb), Z.eqb_refl. cbn [negb].
  destruct (checkSingular_ok _ _ _ thr true HD ltac:(lia)) as [[_ E]|[(i & Hi & He) _]]; [|rewrite Hs in He by lia; discriminate].
  rewrite Ht, E. cbn [bind]. clear E. rewrite (MatIs_cols _ _ _ _ Hb). cbn [bind]. apply wp_bind.
  eapply wp_conseq; [apply createBlocksLayout_spec; auto|cbn beta]. intros xb0 Hxb0. apply wp_bind.
  eapply wp_conseq; [apply (make2_spec m BLOCK_SIZE); [lia|unfold BLOCK_SIZE; lia]|cbn beta]. intros y0 Hy0.
  destruct (make_VTab 52 ltac:(lia)) as (al0 & Eal & Hal0). change BLOCK_SIZE with 52. rewrite Eal. cbn [bind]. clear Eal.
  replace ((columns + 52 - 1) / 52) with (nblk columns) by (unfold nblk; f_equal; lia). apply wp_bind. change BLOCK_SIZE with 52 in Hy0.
  apply (wp_for (fun kB s => (exists Y, RTab (fst (fst s)) m 52 Y) /\ len (snd (fst s)) = 52 /\ exists X, BTab (snd s) n columns X /\
     (forall i q, kB * 52 <= q -> X i q = fzero) /\
     forall q, 0 <= q < kB * 52 -> q < columns -> sm_sol m n M D (fun i => B i q) (fun i => X i q))).
  - pose proof (nblk_pos columns Hc). lia.
  - cbn [fst snd]. split; [eauto|]. split; [apply Hal0|]. eexists. split; [exact Hxb0|]. split; [auto|intros; lia].
  - intros kB [[y al] xb] HkB ((Y & HY) & Hl & X & HX & HX0 & HXs). cbn [fst snd] in *. pose proof (bw_bounds columns kB Hc HkB) as Hbw.
    change (Z.min (kB * 52 + 52) columns - kB * 52) with (bw columns kB). apply wp_bind.
    assert (Eend : Z.min (kB * 52 + 52) columns = kB * 52 + bw columns kB) by (unfold bw; lia). rewrite Eend.
    eapply wp_conseq; [apply (copysub_ok b m columns B 0 (m - 1) (kB * 52) (kB * 52 + bw columns kB - 1) y Hb); try lia|].
    + split; [rewrite (RTab_len _ _ _ _ HY); lia|]. intros i Hi. rewrite (proj2 (proj1 HY)) by lia. lia.
    + cbn beta. replace (m - 1 + 1 - 0) with m by lia. replace (kB * 52 + bw columns kB - 1 + 1 - kB * 52) with (bw columns kB) by lia.
      intros y1 [Hp1 Hp2]. rewrite (RTab_len _ _ _ _ HY) in Hp1, Hp2.
      assert (Hh : holds y1 m (bw columns kB) (fun k i => B i (kB * 52 + k))).
      { exists (fun i j => nthZ (nthZ y1 i) j). split.
        - split; [split; [auto|]|auto]. intros i Hi. rewrite (proj1 (Hp2 i Hi)). apply (proj2 (proj1 HY)). auto.
        - intros i k Hi Hk. destruct (Hp2 i Hi) as [_ Hv]. rewrite Hv by (rewrite (proj2 (proj1 HY)) by lia; lia). zbq. auto. }
      apply wp_bind. eapply wp_conseq; [apply (qrs_forward_ok m n M D thr d (bw columns kB) y1 al _ Hm Hn Hok ltac:(lia) Hh Hl)|]. cbn beta.
      intros [y2 al2] [Hh2 Hl2]. cbn [fst snd] in *. apply wp_bind.
      eapply wp_conseq; [apply (qrs_backward_ok m n M D thr d columns kB y2 xb X _ Hm Hn Hc Hok HkB Hh2 HX HX0)|]. cbn beta.
      intros [y3 xb3] (HY3 & X3 & HX3 & J1 & J2 & J3). cbn [fst snd] in *. apply wp_ok. cbn [fst snd]. split; [auto|]. split; [auto|].
      exists X3. split; [|split].
      * exact HX3.
      * (* beyond this block *)
        intros i q Hq. destruct (Z_lt_le_dec q columns) as [Hqc|Hqc].
        -- apply J2. unfold bw in *. lia.
        -- apply J2. unfold bw in *. lia.
      * intros q Hq Hqc. destruct (Z_lt_le_dec q (kB * 52)) as [Hlt|Hge].
        -- destruct (HXs q ltac:(lia) Hqc) as [S1 S2]. split; intros i Hi.
           ++ rewrite J1 by auto. rewrite (S1 i Hi). f_equal. apply fsubd_ext. intros. rewrite J1 by auto. auto.
           ++ rewrite J1 by auto. auto.
        -- specialize (J3 (q - kB * 52) ltac:(unfold bw in *; lia)). replace (kB * 52 + (q - kB * 52)) with q in J3 by lia. exact J3.
  - intros [[y al] xb] ((Y & HY) & Hl & X & HX & HX0 & HXs). cbn [fst snd] in *.
    rewrite (FromBlockData_ok xb n columns X) by auto. cbn [orpanic bind]. apply wp_ok. exists X. split; [exact I|]. split.
    + apply MatIs_blk. exists xb. auto.
    + intros q Hq. apply HXs; [|lia]. split; [lia|]. unfold nblk. pose proof (Z.div_mod (columns + 51) 52 ltac:(lia)). pose proof (Z.mod_pos_bound (columns + 51) 52 ltac:(lia)). lia.
Qed.

(** The answers are determined by the right-hand sides. *)
Lemma sm_y_ext m n M D b b' : (forall i, 0 <= i < m -> b i = b' i) -> forall i, 0 <= i < m -> sm_y m n M D b i = sm_y m n M D b' i.
Proof.
  intros H. unfold sm_y. generalize (Z.to_nat (Z.min m n)) as k. induction k as [|k IH]; auto. intros i Hi. cbn [accum]. apply sm_step_ext; auto. lia.
Qed.
Lemma sm_sol_det m n M D b b' x x' : (forall i, 0 <= i < m -> b i = b' i) -> sm_sol m n M D b x -> sm_sol m n M D b' x' ->
  forall i, 0 <= i < n -> x i = x' i.
Proof.
  intros H [H1 H2] [H1' H2'] i Hi. destruct (Z_lt_le_dec i (Z.min m n)) as [Hp|Hp]; [|rewrite H2, H2' by lia; auto].
  assert (G : 0 <= i < Z.min m n) by lia. clear Hi Hp. revert i G. apply (Zdown (fun i => x i = x' i)). intros i Hi IH.
  rewrite (H1 i Hi), (H1' i Hi). f_equal. rewrite (sm_y_ext m n M D b b' H) by lia. apply fsubd_ext. intros t Ht. rewrite (IH t) by lia. auto.
Qed.
Lemma sv_step_ext m M D k y y' : (forall i, 0 <= i < m -> y i = y' i) -> 0 <= k -> forall i, 0 <= i < m -> sv_step m M D k y i = sv_step m M D k y' i.
Proof.
  intros H Hk i Hi. unfold sv_step, sv_dot. rewrite (fadds_ext fzero k m _ (fun r => y' r * M k r)%f) by (intros; rewrite H by lia; auto).
  rewrite H by auto. auto.
Qed.
Lemma sv_y_ext m n M D b b' : (forall i, 0 <= i < m -> b i = b' i) -> forall i, 0 <= i < m -> sv_y m n M D b i = sv_y m n M D b' i.
Proof.
  intros H. unfold sv_y. generalize (Z.to_nat (Z.min m n)) as k. induction k as [|k IH]; auto. intros i Hi. cbn [accum]. apply sv_step_ext; auto. lia.
Qed.

(** What the solver rejects. *)
Lemma qrs_SolveVector_dim m n M D thr d v : 1 <= m -> 1 <= n -> qr_ok m n M D thr d -> v_Dimension v <> m -> qrs_SolveVector d v = Panic EDimMismatch.
Proof.
  intros Hm Hn (HT & HD & Ht & _) Hv. unfold qrs_SolveVector. vrow row Hrow. rewrite (VTab_len _ _ _ Hrow). zbq. auto.
Qed.
Lemma qrs_SolveMatrix_dim m n M D thr d b r c B : 1 <= m -> 1 <= n -> qr_ok m n M D thr d -> MatIs b r c B -> r <> m -> qrs_SolveMatrix d b = Panic EDimMismatch.
Proof.
  intros Hm Hn (HT & HD & Ht & _) Hb Hr. unfold qrs_SolveMatrix. vrow row Hrow. rewrite (VTab_len _ _ _ Hrow), (MatIs_rows _ _ _ _ Hb). zbq. auto.
Qed.
Lemma qrs_SolveVector_sing m n M D thr d v : 1 <= m -> 1 <= n -> qr_ok m n M D thr d -> v_Dimension v = m ->
  (exists i, 0 <= i < Z.min m n /\ fle (fabs (D i)) thr = true) -> qrs_SolveVector d v = Panic ESingular.
Proof.
  intros Hm Hn (HT & HD & Ht & _) Hv (i & Hi & He). unfold qrs_SolveVector. vrow row Hrow. rewrite (VTab_len _ _ _ Hrow), Hv, Z.eqb_refl. cbn [negb]. rewrite Ht.
  destruct (checkSingular_ok _ _ _ thr true HD ltac:(lia)) as [[H _]|[_ E]]; [rewrite H in He by auto; discriminate|]. rewrite E. auto.
Qed.
Lemma qrs_SolveMatrix_sing m n M D thr d b c B : 1 <= m -> 1 <= n -> qr_ok m n M D thr d -> MatIs b m c B ->
  (exists i, 0 <= i < Z.min m n /\ fle (fabs (D i)) thr = true) -> qrs_SolveMatrix d b = Panic ESingular.
Proof.
  intros Hm Hn (HT & HD & Ht & _) Hb (i & Hi & He). unfold qrs_SolveMatrix. vrow row Hrow. rewrite (VTab_len _ _ _ Hrow), (MatIs_rows _ _ _ _ Hb), Z.eqb_refl. cbn [negb]. rewrite Ht.
  destruct (checkSingular_ok _ _ _ thr true HD ltac:(lia)) as [[H _]|[_ E]]; [rewrite H in He by auto; discriminate|]. rewrite E. auto.
Qed.
Lemma qrs_IsNonSingular_ok m n M D thr d : 1 <= m -> 1 <= n -> qr_ok m n M D thr d -> exists b, qrs_IsNonSingular d = Ok b /\
  (b = true <-> forall i, 0 <= i < Z.min m n -> fle (fabs (D i)) thr = false).
Proof.
  intros Hm Hn (HT & HD & Ht & _). unfold qrs_IsNonSingular. rewrite Ht.
  destruct (checkSingular_ok _ _ _ thr false HD ltac:(lia)) as [[H E]|[(i & Hi & He) E]]; rewrite E; cbn [bind negb].
  - exists true. tauto.
  - exists false. split; [auto|]. split; [discriminate|]. intros H. rewrite H in He by auto. discriminate.
Qed.
Lemma qrs_Inverse_eq m n M D thr d : 1 <= m -> 1 <= n -> qr_ok m n M D thr d -> exists i, general i /\ MatIs i m m (diagonal (fun _ => fone)) /\ qrs_Inverse d = qrs_SolveMatrix d i.
Proof.
  intros Hm Hn (HT & HD & Ht & _). unfold qrs_Inverse. vrow row Hrow. rewrite (VTab_len _ _ _ Hrow).
  destruct (identity_ok m Hm) as (i & -> & Hg & Hi). cbn [orpanic bind]. exists i. auto.
Qed.
End QRFacts2.

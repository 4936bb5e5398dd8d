(** Entry access of the three matrix types in terms of tables. *)
From Coq Require Import ZArith List Lia Bool.
From Verif Require Import Base BaseLemmas Scalar Vector VecSpec VectorFacts Matrix MatSpec.
Import ListNotations.
Open Scope Z_scope.

Section Facts.
Context {O : Ops}.

(** ** Checks *)
Lemma checkRowIndex_ok m i : 0 <= i < m_rows m -> checkRowIndex m i = Ok tt.
Proof. intros. unfold checkRowIndex. destruct (Z.ltb_spec i 0), (Z.leb_spec (m_rows m) i); auto; lia. Qed.
Lemma checkRowIndex_err m i : ~ (0 <= i < m_rows m) -> checkRowIndex m i = Err EOutOfRange.
Proof. intros. unfold checkRowIndex. destruct (Z.ltb_spec i 0), (Z.leb_spec (m_rows m) i); auto; lia. Qed.
Lemma checkColumnIndex_ok m c j : m_cols m = Ok c -> 0 <= j < c -> checkColumnIndex m j = Ok tt.
Proof. intros Hc ?. unfold checkColumnIndex. rewrite Hc. simpl.
  destruct (Z.ltb_spec j 0); try lia. destruct (Z.leb_spec c j); auto; lia. Qed.
Lemma checkColumnIndex_err m c j : m_cols m = Ok c -> ~ (0 <= j < c) -> checkColumnIndex m j = Err EOutOfRange.
Proof. intros Hc ?. unfold checkColumnIndex. rewrite Hc. simpl.
  destruct (Z.ltb_spec j 0); auto. destruct (Z.leb_spec c j); auto; lia. Qed.
Lemma checkMatrixIndex_ok m c i j : m_cols m = Ok c -> 0 <= i < m_rows m -> 0 <= j < c ->
  checkMatrixIndex m i j = Ok tt.
Proof. intros. unfold checkMatrixIndex. rewrite checkRowIndex_ok by auto. simpl. eapply checkColumnIndex_ok; eauto. Qed.
Lemma checkMatrixIndex_err m c i j : m_cols m = Ok c -> ~ (0 <= i < m_rows m /\ 0 <= j < c) ->
  checkMatrixIndex m i j = Err EOutOfRange.
Proof.
  intros. unfold checkMatrixIndex. destruct (inb i (m_rows m)) eqn:E.
  - apply inb_true in E. rewrite checkRowIndex_ok by auto. simpl.
    eapply checkColumnIndex_err; eauto; tauto.
  - apply inb_false in E. rewrite checkRowIndex_err by auto. reflexivity.
Qed.
Lemma checkSubMatrixIndex_ok m c r0 r1 c0 c1 : m_cols m = Ok c ->
  0 <= r0 <= r1 -> r1 < m_rows m -> 0 <= c0 <= c1 -> c1 < c ->
  checkSubMatrixIndex m r0 r1 c0 c1 = Ok tt.
Proof.
  intros Hc ????. unfold checkSubMatrixIndex.
  rewrite !checkRowIndex_ok by lia. cbn [bind].
  rewrite !(checkColumnIndex_ok m c) by (auto || lia). cbn [bind].
  destruct (Z.ltb_spec r1 r0), (Z.ltb_spec c1 c0); auto; lia.
Qed.
Lemma checkSubMatrixIndex_err m c r0 r1 c0 c1 : m_cols m = Ok c ->
  ~ (0 <= r0 <= r1 /\ r1 < m_rows m /\ 0 <= c0 <= c1 /\ c1 < c) ->
  exists e, checkSubMatrixIndex m r0 r1 c0 c1 = Err e.
Proof.
  intros Hc H. unfold checkSubMatrixIndex.
  destruct (inb r0 (m_rows m)) eqn:E0.
  2:{ apply inb_false in E0. rewrite checkRowIndex_err by auto. eexists; reflexivity. }
  apply inb_true in E0. rewrite (checkRowIndex_ok m r0) by auto. cbn [bind].
  destruct (inb r1 (m_rows m)) eqn:E1.
  2:{ apply inb_false in E1. rewrite checkRowIndex_err by auto. eexists; reflexivity. }
  apply inb_true in E1. rewrite (checkRowIndex_ok m r1) by auto. cbn [bind].
  destruct (Z.ltb_spec r1 r0); [eexists; reflexivity|].
  destruct (inb c0 c) eqn:E2.
  2:{ apply inb_false in E2. rewrite (checkColumnIndex_err m c c0) by auto. eexists; reflexivity. }
  apply inb_true in E2. rewrite (checkColumnIndex_ok m c c0) by auto. cbn [bind].
  destruct (inb c1 c) eqn:E3.
  2:{ apply inb_false in E3. rewrite (checkColumnIndex_err m c c1) by auto. eexists; reflexivity. }
  apply inb_true in E3. rewrite (checkColumnIndex_ok m c c1) by auto. cbn [bind].
  destruct (Z.ltb_spec c1 c0); [eexists; reflexivity|]. lia.
Qed.
Lemma checkAddition_ok l r c : m_rows l = m_rows r -> m_cols l = Ok c -> m_cols r = Ok c ->
  checkAdditionCompatible l r = Ok tt.
Proof. intros H1 H2 H3. unfold checkAdditionCompatible. rewrite H1, Z.eqb_refl, H2, H3. simpl. rewrite Z.eqb_refl. auto. Qed.
Lemma checkAddition_err l r cl cr : m_cols l = Ok cl -> m_cols r = Ok cr ->
  ~ (m_rows l = m_rows r /\ cl = cr) -> checkAdditionCompatible l r = Err EMatDimMismatch.
Proof. intros H2 H3 H. unfold checkAdditionCompatible. rewrite H2, H3. simpl.
  destruct (Z.eqb_spec (m_rows l) (m_rows r)); auto. destruct (Z.eqb_spec cl cr); auto. tauto. Qed.
Lemma checkMultiplication_ok l r : m_cols l = Ok (m_rows r) -> checkMultiplicationCompatible l r = Ok tt.
Proof. intros H1. unfold checkMultiplicationCompatible. rewrite H1. simpl. rewrite Z.eqb_refl. auto. Qed.
Lemma checkMultiplication_err l r c : m_cols l = Ok c -> c <> m_rows r ->
  checkMultiplicationCompatible l r = Err EDimMismatch.
Proof. intros H1 ?. unfold checkMultiplicationCompatible. rewrite H1. simpl. destruct (Z.eqb_spec c (m_rows r)); auto; lia. Qed.

(** ** Two-dimensional slices *)
Definition RTab (d : mat) (r c : Z) (f : Z -> Z -> F) : Prop :=
  rect d r c /\ forall i j, 0 <= i < r -> 0 <= j < c -> nthZ (nthZ d i) j = f i j.

Lemma mget_ok d r c i j : rect d r c -> 0 <= i < r -> 0 <= j < c ->
  mget d i j = Ok (nthZ (nthZ d i) j).
Proof.
  intros [Hl Hr] Hi Hj. unfold mget. rewrite zget_ok by lia. simpl.
  rewrite zget_ok; auto. rewrite Hr; auto.
Qed.
Lemma mset_ok d i j v : 0 <= i < len d -> 0 <= j < len (nthZ d i) ->
  mset d i j v = Ok (upd d i (upd (nthZ d i) j v)).
Proof.
  intros. unfold mset. rewrite zget_ok by lia. simpl. rewrite zset_ok by auto. simpl.
  rewrite zset_ok by auto. auto.
Qed.
Lemma RTab_get d r c f i j : RTab d r c f -> 0 <= i < r -> 0 <= j < c -> mget d i j = Ok (f i j).
Proof. intros [H1 H2] ??. erewrite mget_ok, H2 by eauto. auto. Qed.
Lemma RTab_row d r c f i : RTab d r c f -> 0 <= i < r ->
  exists row, zget d i = Ok row /\ len row = c /\ forall j, 0 <= j < c -> nthZ row j = f i j.
Proof.
  intros [[H1 H2] H3] Hi. exists (nthZ d i). rewrite zget_ok by lia. auto.
Qed.
Lemma RTab_set d r c f i j v : RTab d r c f -> 0 <= i < r -> 0 <= j < c ->
  exists d', mset d i j v = Ok d' /\ RTab d' r c (tset f i j v).
Proof.
  intros [[Hl Hr] Hv] Hi Hj. rewrite mset_ok by (rewrite ?Hr; lia). eexists; split; [reflexivity|].
  split; [split|].
  - rewrite len_upd; auto.
  - intros k Hk. rewrite nthZ_upd by lia. destruct (Z.eqb_spec i k); subst; rewrite ?len_upd; auto.
  - intros k l Hk Hl'. unfold tset. rewrite nthZ_upd by lia. rewrite (Z.eqb_sym k i), (Z.eqb_sym l j).
    destruct (Z.eqb_spec i k); simpl; auto. subst.
    rewrite nthZ_upd by (rewrite ?Hr; lia). destruct (Z.eqb_spec j l); auto.
Qed.
Lemma RTab_setrow d r c f i row g : RTab d r c f -> 0 <= i < r -> len row = c ->
  (forall j, 0 <= j < c -> nthZ row j = g j) ->
  exists d', zset d i row = Ok d' /\ RTab d' r c (fun p q => if p =? i then g q else f p q).
Proof.
  intros [[Hl Hr] Hv] Hi Hlr Hg. rewrite zset_ok by lia. eexists; split; [reflexivity|].
  split; [split|].
  - rewrite len_upd; auto.
  - intros k Hk. rewrite nthZ_upd by lia. destruct (Z.eqb_spec i k); subst; auto.
  - intros k l Hk Hl'. rewrite nthZ_upd by lia. rewrite (Z.eqb_sym k i).
    destruct (Z.eqb_spec i k); simpl; auto.
Qed.
Lemma RTab_ext d r c f g : RTab d r c f -> (forall i j, 0 <= i < r -> 0 <= j < c -> f i j = g i j) ->
  RTab d r c g.
Proof. intros [H1 H2] H. split; auto. intros. rewrite H2 by auto. auto. Qed.

(** ** Matrices as tables *)
Lemma MatIs_dims m r c f : MatIs m r c f -> 0 <= r /\ 0 <= c.
Proof.
  intros (HV & Hr & Hc & _). destruct m; simpl in *.
  - destruct HV as (d & r' & c' & Hd & ? & ? & Hl & Hrr). unfold a2_rows, a2_cols in *. rewrite Hd in *.
    assert (zget d 0 = Ok (nthZ d 0)) as E by (apply zget_ok; lia). rewrite E in Hc. simpl in Hc.
    injection Hc as <-. subst r. split; apply len_nonneg.
  - destruct HV as (? & ? & _). injection Hc as <-. lia.
  - injection Hc as <-. subst. split; apply len_nonneg.
  - injection Hc as <-. lia.
Qed.
Lemma MatIs_rows m r c f : MatIs m r c f -> m_rows m = r.
Proof. intros (_ & H & _). auto. Qed.
Lemma MatIs_cols m r c f : MatIs m r c f -> m_cols m = Ok c.
Proof. intros (_ & _ & H & _). auto. Qed.
Lemma MatIs_At m r c f i j : MatIs m r c f -> 0 <= i < r -> 0 <= j < c -> m_At m i j = Ok (f i j).
Proof. intros (_ & _ & _ & H & _). auto. Qed.
Lemma MatIs_ext m r c f g : MatIs m r c f -> (forall i j, 0 <= i < r -> 0 <= j < c -> f i j = g i j) ->
  MatIs m r c g.
Proof. intros (H0 & H1 & H2 & H3 & H4) H. repeat split; auto. intros. rewrite H3 by auto. f_equal; auto. Qed.
Lemma MatIs_unique m r c f r' c' f' : MatIs m r c f -> MatIs m r' c' f' ->
  r = r' /\ c = c' /\ forall i j, 0 <= i < r -> 0 <= j < c -> f i j = f' i j.
Proof.
  intros (_ & H1 & H2 & H3 & _) (_ & K1 & K2 & K3 & _).
  assert (r = r') by congruence. assert (c = c') by congruence. subst. repeat split; auto.
  intros i j Hi Hj. specialize (H3 i j Hi Hj). specialize (K3 i j Hi Hj). congruence.
Qed.

Lemma MatIs_arr d r c f : 1 <= r -> 1 <= c -> RTab d r c f -> MatIs (MArr (mkA2D (Some d))) r c f.
Proof.
  intros Hr Hc [[Hl Hrr] Hv]. assert (Hrect : rect d r c) by (split; auto).
  assert (Hcols : m_cols (MArr (mkA2D (Some d))) = Ok c).
  { simpl. unfold a2_cols. simpl. rewrite zget_ok by lia. simpl. rewrite Hrr by lia. auto. }
  assert (Hrows : m_rows (MArr (mkA2D (Some d))) = r) by (simpl; auto).
  repeat split; auto.
  - simpl. exists d, r, c. repeat split; auto.
  - intros i j Hi Hj. simpl. unfold a2_At.
    rewrite (checkMatrixIndex_ok _ c) by (auto; rewrite ?Hrows; auto). simpl.
    rewrite (mget_ok d r c) by auto. f_equal; auto.
  - intros i j H. simpl. unfold a2_At.
    rewrite (checkMatrixIndex_err _ c) by (auto; rewrite ?Hrows; auto). eexists; reflexivity.
Qed.
Lemma MatIs_arr_inv a r c f : MatIs (MArr a) r c f ->
  exists d, a = mkA2D (Some d) /\ 1 <= r /\ 1 <= c /\ RTab d r c f.
Proof.
  intros (HV & Hrows & Hcols & HA & _). destruct HV as (d & r' & c' & Hd & Hr1 & Hc1 & Hl & Hrr).
  destruct a as [a]. simpl in Hd. subst a. simpl in Hrows, Hcols. unfold a2_rows, a2_cols in *. simpl in *.
  rewrite zget_ok in Hcols by lia. simpl in Hcols. injection Hcols as Hc. rewrite Hrr in Hc by lia. subst c' r'.
  assert (Hrect : rect d r c) by (split; [lia|intros; apply Hrr; lia]).
  exists d. repeat split; try lia; auto.
  - intros. apply Hrr. lia.
  - intros i j Hi Hj. specialize (HA i j Hi Hj). unfold a2_At in HA.
    rewrite (checkMatrixIndex_ok _ c) in HA; auto.
    + cbn [orpanic bind a2_data] in HA. rewrite (mget_ok d r c) in HA by auto.
      congruence.
    + simpl. unfold a2_cols. simpl. rewrite zget_ok by lia. simpl. rewrite Hrr by lia. auto.
    + simpl. unfold a2_rows. simpl. lia.
Qed.

(** ** Diagonal matrices *)
Definition dtab (v : vec) : Z -> Z -> F := fun i j => if i =? j then nthZ v i else fzero.
Lemma MatIs_diag v : MatIs (MDiag (mkDiag v)) (len v) (len v) (dtab v).
Proof.
  repeat split; auto.
  - intros i j Hi Hj. simpl. unfold d_At. rewrite (checkMatrixIndex_ok _ (len v)) by (simpl; auto). simpl.
    unfold dtab. destruct (Z.eqb_spec i j); auto. subst. apply zget_ok; auto.
  - intros i j H. simpl. unfold d_At. rewrite (checkMatrixIndex_err _ (len v)) by (simpl; auto). eexists; reflexivity.
Qed.
Lemma MatIs_diag' v n f : len v = n -> (forall i, 0 <= i < n -> nthZ v i = f i i) ->
  (forall i j, 0 <= i < n -> 0 <= j < n -> i <> j -> f i j = fzero) ->
  MatIs (MDiag (mkDiag v)) n n f.
Proof.
  intros <- H1 H2. eapply MatIs_ext; [apply MatIs_diag|]. intros. unfold dtab.
  destruct (Z.eqb_spec i j); subst; auto. rewrite H2; auto.
Qed.
Lemma MatIs_diag_inv d r c f : MatIs (MDiag d) r c f ->
  exists v, d = mkDiag v /\ len v = r /\ c = r /\ (forall i, 0 <= i < r -> nthZ v i = f i i) /\
  (forall i j, 0 <= i < r -> 0 <= j < r -> i <> j -> f i j = fzero).
Proof.
  intros H. destruct d as [v]. exists v. pose proof (MatIs_diag v) as H'.
  destruct (MatIs_unique _ _ _ _ _ _ _ H H') as (-> & -> & E). repeat split; auto.
  - intros. rewrite E by auto. unfold dtab. rewrite Z.eqb_refl. auto.
  - intros. rewrite E by auto. unfold dtab. destruct (Z.eqb_spec i j); auto; lia.
Qed.

(** ** Block matrices *)
Lemma nblk_pos n : 1 <= n -> 1 <= nblk n.
Proof. intros. unfold nblk. apply Z.div_le_lower_bound; lia. Qed.
Lemma nblk_spec n : 1 <= n -> (nblk n - 1) * 52 < n <= nblk n * 52.
Proof. intros. unfold nblk. pose proof (Z.div_mod (n + 51) 52). pose proof (Z.mod_pos_bound (n + 51) 52). lia. Qed.
Lemma nblk_BLOCK n : (n + BLOCK_SIZE - 1) / BLOCK_SIZE = nblk n.
Proof. unfold nblk, BLOCK_SIZE. f_equal. lia. Qed.
Lemma bw_bounds n J : 1 <= n -> 0 <= J < nblk n -> 1 <= bw n J <= 52 /\ J * 52 + bw n J <= n.
Proof. intros. pose proof (nblk_spec n). unfold bw. lia. Qed.
Lemma bw_last n J : 1 <= n -> 0 <= J < nblk n -> bw n J = if J =? nblk n - 1 then n - J * 52 else 52.
Proof. intros. pose proof (nblk_spec n). unfold bw. destruct (Z.eqb_spec J (nblk n - 1)); lia. Qed.
Lemma bw_full n J : 1 <= n -> 0 <= J < nblk n - 1 -> bw n J = 52.
Proof. intros. rewrite bw_last by lia. destruct (Z.eqb_spec J (nblk n - 1)); lia. Qed.
Lemma blk_of n p : 1 <= n -> 0 <= p < n -> 0 <= p / 52 < nblk n /\ 0 <= p - p / 52 * 52 < bw n (p / 52).
Proof.
  intros. pose proof (nblk_spec n). pose proof (Z.div_mod p 52). pose proof (Z.mod_pos_bound p 52).
  unfold bw. lia.
Qed.
Lemma div52 I x : 0 <= x < 52 -> (I * 52 + x) / 52 = I.
Proof. intros. symmetry. apply Z.div_unique with x; lia. Qed.
Lemma lin_range I J m n : 0 <= I < m -> 0 <= J < n -> 0 <= I * n + J < m * n.
Proof. intros. nia. Qed.
Lemma lin_inj I J I' J' n : 0 <= J < n -> 0 <= J' < n -> I * n + J = I' * n + J' -> I = I' /\ J = J'.
Proof. intros. assert (I = I') by nia. subst. split; auto; lia. Qed.
Lemma lin_split m n k : 0 <= k < m * n -> 0 < n -> 0 <= k / n < m /\ 0 <= k mod n < n /\ k = k / n * n + k mod n.
Proof.
  intros. pose proof (Z.div_mod k n). pose proof (Z.mod_pos_bound k n).
  assert (0 <= k / n) by (apply Z.div_pos; lia).
  assert (k / n < m) by (apply Z.div_lt_upper_bound; lia). lia.
Qed.

Definition BShape (bl : mat) (r c : Z) : Prop :=
  len bl = nblk r * nblk c /\
  forall I J, 0 <= I < nblk r -> 0 <= J < nblk c -> len (nthZ bl (I * nblk c + J)) = bw r I * bw c J.
Definition BTab (bl : mat) (r c : Z) (t : Z -> Z -> F) : Prop :=
  BShape bl r c /\
  forall I J x y, 0 <= I < nblk r -> 0 <= J < nblk c -> 0 <= x < bw r I -> 0 <= y < bw c J ->
    nthZ (nthZ bl (I * nblk c + J)) (x * bw c J + y) = t (I * 52 + x) (J * 52 + y).

Lemma BTab_get bl r c t I J x y : BTab bl r c t ->
  0 <= I < nblk r -> 0 <= J < nblk c -> 0 <= x < bw r I -> 0 <= y < bw c J ->
  mget bl (I * nblk c + J) (x * bw c J + y) = Ok (t (I * 52 + x) (J * 52 + y)).
Proof.
  intros [[Hl Hs] Hv] HI HJ Hx Hy. unfold mget. rewrite zget_ok by (rewrite Hl; apply lin_range; auto).
  simpl. rewrite zget_ok by (rewrite Hs by auto; apply lin_range; auto). f_equal; auto.
Qed.
Lemma BTab_blk bl r c t I J : BTab bl r c t -> 0 <= I < nblk r -> 0 <= J < nblk c ->
  exists blk, zget bl (I * nblk c + J) = Ok blk /\ len blk = bw r I * bw c J /\
  forall x y, 0 <= x < bw r I -> 0 <= y < bw c J -> nthZ blk (x * bw c J + y) = t (I * 52 + x) (J * 52 + y).
Proof.
  intros [[Hl Hs] Hv] HI HJ. exists (nthZ bl (I * nblk c + J)).
  rewrite zget_ok by (rewrite Hl; apply lin_range; auto). auto.
Qed.
(** Replacing a whole block. *)
Lemma BTab_setblk bl r c t I J blk t' : BTab bl r c t -> 0 <= I < nblk r -> 0 <= J < nblk c ->
  len blk = bw r I * bw c J ->
  (forall x y, 0 <= x < bw r I -> 0 <= y < bw c J -> nthZ blk (x * bw c J + y) = t' (I * 52 + x) (J * 52 + y)) ->
  exists bl', zset bl (I * nblk c + J) blk = Ok bl' /\
    BTab bl' r c (fun p q => if (p / 52 =? I) && (q / 52 =? J) then t' p q else t p q).
Proof.
  intros [[Hl Hs] Hv] HI HJ Hb Ht. pose proof (lin_range I J _ _ HI HJ).
  rewrite zset_ok by lia. eexists; split; [reflexivity|]. repeat split.
  - rewrite len_upd; auto.
  - intros I' J' HI' HJ'. pose proof (lin_range I' J' _ _ HI' HJ'). rewrite nthZ_upd by lia.
    destruct (Z.eqb_spec (I * nblk c + J) (I' * nblk c + J')) as [E|E]; auto.
    apply lin_inj in E; auto. destruct E; subst; auto.
  - intros I' J' x y HI' HJ' Hx Hy. pose proof (lin_range I' J' _ _ HI' HJ'). rewrite nthZ_upd by lia.
    assert (x < 52 /\ y < 52) by (unfold bw in *; lia). rewrite !div52 by lia.
    destruct (Z.eqb_spec (I * nblk c + J) (I' * nblk c + J')) as [E|E].
    + apply lin_inj in E; auto. destruct E; subst. rewrite !Z.eqb_refl. simpl. auto.
    + destruct (Z.eqb_spec I' I), (Z.eqb_spec J' J); simpl; auto. subst. lia.
Qed.
Lemma BTab_set bl r c t I J x y v : BTab bl r c t ->
  0 <= I < nblk r -> 0 <= J < nblk c -> 0 <= x < bw r I -> 0 <= y < bw c J ->
  exists bl', mset bl (I * nblk c + J) (x * bw c J + y) v = Ok bl' /\
    BTab bl' r c (tset t (I * 52 + x) (J * 52 + y) v).
Proof.
  intros H HI HJ Hx Hy. destruct (BTab_blk _ _ _ _ I J H HI HJ) as (blk & Hz & Hlb & Hb).
  unfold mset. rewrite Hz. simpl. pose proof (lin_range x y _ _ Hx Hy).
  rewrite zset_ok by lia. simpl.
  destruct (BTab_setblk bl r c t I J (upd blk (x * bw c J + y) v) (tset t (I * 52 + x) (J * 52 + y) v) H HI HJ)
    as (bl' & E & HT).
  - rewrite len_upd; auto.
  - intros x' y' Hx' Hy'. pose proof (lin_range x' y' _ _ Hx' Hy'). rewrite nthZ_upd by lia.
    unfold tset. destruct (Z.eqb_spec (x * bw c J + y) (x' * bw c J + y')) as [E|E].
    + apply lin_inj in E; auto. destruct E; subst. rewrite !Z.eqb_refl. auto.
    + rewrite Hb by auto. destruct (Z.eqb_spec (I * 52 + x') (I * 52 + x)), (Z.eqb_spec (J * 52 + y') (J * 52 + y)); simpl; auto.
      assert (x' = x) by lia. assert (y' = y) by lia. subst; lia.
  - exists bl'. split; auto. destruct HT as [HS HT]. split; auto.
    intros I' J' x' y' HI' HJ' Hx' Hy'. rewrite HT by auto.
    assert (x' < 52 /\ y' < 52 /\ x < 52 /\ y < 52) by (unfold bw in *; lia). rewrite !div52 by lia.
    destruct (Z.eqb_spec I' I), (Z.eqb_spec J' J); simpl; auto; unfold tset.
    + destruct (Z.eqb_spec (J' * 52 + y') (J * 52 + y)); [lia|]. rewrite andb_false_r. auto.
    + destruct (Z.eqb_spec (I' * 52 + x') (I * 52 + x)); [lia|]. auto.
    + destruct (Z.eqb_spec (I' * 52 + x') (I * 52 + x)); [lia|]. auto.
Qed.
Lemma BTab_ext bl r c f g : 1 <= r -> 1 <= c -> BTab bl r c f ->
  (forall i j, 0 <= i < r -> 0 <= j < c -> f i j = g i j) -> BTab bl r c g.
Proof.
  intros Hr Hc [H1 H2] H. split; auto. intros I J x y HI HJ Hx Hy. rewrite H2 by auto.
  pose proof (bw_bounds r I Hr HI). pose proof (bw_bounds c J Hc HJ). apply H; lia.
Qed.
(** The same in terms of absolute coordinates. *)
Lemma BTab_get' bl r c t p q : 1 <= r -> 1 <= c -> BTab bl r c t -> 0 <= p < r -> 0 <= q < c ->
  mget bl (p / 52 * nblk c + q / 52) ((p - p / 52 * 52) * bw c (q / 52) + (q - q / 52 * 52)) = Ok (t p q).
Proof.
  intros Hr Hc H Hp Hq. destruct (blk_of r p Hr Hp), (blk_of c q Hc Hq).
  rewrite (BTab_get bl r c t) by auto. f_equal. f_equal; lia.
Qed.
Lemma BTab_set' bl r c t p q v : 1 <= r -> 1 <= c -> BTab bl r c t -> 0 <= p < r -> 0 <= q < c ->
  exists bl', mset bl (p / 52 * nblk c + q / 52) ((p - p / 52 * 52) * bw c (q / 52) + (q - q / 52 * 52)) v = Ok bl' /\
    BTab bl' r c (tset t p q v).
Proof.
  intros Hr Hc H Hp Hq. destruct (blk_of r p Hr Hp), (blk_of c q Hc Hq).
  destruct (BTab_set bl r c t (p / 52) (q / 52) (p - p / 52 * 52) (q - q / 52 * 52) v) as (bl' & E & HT); auto.
  exists bl'. split; auto. replace (tset t p q v) with (tset t (p / 52 * 52 + (p - p / 52 * 52)) (q / 52 * 52 + (q - q / 52 * 52)) v); auto.
  f_equal; lia.
Qed.

Definition BIs (b : Block) (r c : Z) (t : Z -> Z -> F) : Prop :=
  exists bl, b = mkBlock bl r c (nblk r) (nblk c) /\ 1 <= r /\ 1 <= c /\ BTab bl r c t.
Lemma blockWidth_bw bl r c J : 1 <= c -> 0 <= J < nblk c ->
  blockWidth (mkBlock bl r c (nblk r) (nblk c)) J = bw c J.
Proof. intros. rewrite bw_last by auto. reflexivity. Qed.
Lemma blockHeight_bw bl r c I : 1 <= r -> 0 <= I < nblk r ->
  blockHeight (mkBlock bl r c (nblk r) (nblk c)) I = bw r I.
Proof. intros. rewrite bw_last by auto. reflexivity. Qed.

Lemma b_At_ok bl r c t i j : 1 <= r -> 1 <= c -> BTab bl r c t -> 0 <= i < r -> 0 <= j < c ->
  b_At (mkBlock bl r c (nblk r) (nblk c)) i j = Ok (t i j).
Proof.
  intros Hr Hc H Hi Hj. unfold b_At. rewrite (checkMatrixIndex_ok _ c) by (simpl; auto).
  cbn [orpanic bind b_blocks b_blockColumns]. unfold BLOCK_SIZE.
  destruct (blk_of c j Hc Hj). rewrite blockWidth_bw by auto. apply (BTab_get' bl r c t); auto.
Qed.
Lemma MatIs_blk b r c t : BIs b r c t -> MatIs (MBlk b) r c t.
Proof.
  intros (bl & -> & Hr & Hc & HT). pose proof HT as [[HS1 HS2] HV]. repeat split; auto.
  - intros i j Hi Hj. simpl. apply b_At_ok; auto.
  - intros i j H. simpl. unfold b_At. rewrite (checkMatrixIndex_err _ c) by (simpl; auto). eexists; reflexivity.
Qed.
Lemma MatIs_blk_inv b r c t : MatIs (MBlk b) r c t -> BIs b r c t.
Proof.
  intros (HV & Hr & Hc & HA & _). destruct b as [bl r' c' br bc]. simpl in *.
  destruct HV as (H1 & H2 & -> & -> & Hl & Hs). injection Hc as ->. subst r'.
  exists bl. repeat split; auto. intros I J x y HI HJ Hx Hy.
  pose proof (bw_bounds r I H1 HI). pose proof (bw_bounds c J H2 HJ).
  specialize (HA (I * 52 + x) (J * 52 + y) ltac:(lia) ltac:(lia)).
  unfold b_At in HA. rewrite (checkMatrixIndex_ok _ c) in HA by (simpl; auto; lia).
  cbn [orpanic bind b_blocks b_blockColumns] in HA. unfold BLOCK_SIZE in HA. rewrite !div52 in HA by lia.
  rewrite blockWidth_bw in HA by auto.
  replace (I * 52 + x - I * 52) with x in HA by lia. replace (J * 52 + y - J * 52) with y in HA by lia.
  unfold mget in HA. rewrite zget_ok in HA by (rewrite Hl; apply lin_range; auto). simpl in HA.
  rewrite zget_ok in HA by (rewrite Hs by auto; apply lin_range; auto). congruence.
Qed.

(** ** Entry updates *)
Lemma a2_SetEntry_spec a r c f i j v : MatIs (MArr a) r c f -> 0 <= i < r -> 0 <= j < c ->
  exists a', a2_SetEntry a i j v = Ok a' /\ MatIs (MArr a') r c (tset f i j v).
Proof.
  intros H Hi Hj. unfold a2_SetEntry.
  rewrite (checkMatrixIndex_ok _ c) by (rewrite ?(MatIs_rows _ _ _ _ H); eauto using MatIs_cols).
  apply MatIs_arr_inv in H. destruct H as (d & -> & Hr & Hc & HT). simpl.
  destruct (RTab_set _ _ _ _ i j v HT Hi Hj) as (d' & -> & HT'). simpl.
  eexists; split; [reflexivity|]. apply MatIs_arr; auto.
Qed.
Lemma b_SetEntry_spec b r c f i j v : BIs b r c f -> 0 <= i < r -> 0 <= j < c ->
  exists b', b_SetEntry b i j v = Ok b' /\ BIs b' r c (tset f i j v).
Proof.
  intros (bl & -> & Hr & Hc & HT) Hi Hj. unfold b_SetEntry.
  rewrite (checkMatrixIndex_ok _ c) by (simpl; auto).
  cbn [orpanic bind b_blocks b_blockColumns]. unfold BLOCK_SIZE.
  destruct (blk_of c j Hc Hj). rewrite blockWidth_bw by auto.
  destruct (BTab_set' bl r c f i j v Hr Hc HT Hi Hj) as (bl' & -> & HT'). simpl.
  eexists; split; [reflexivity|]. exists bl'. auto.
Qed.
Lemma m_SetEntry_spec m r c f i j v : general m -> MatIs m r c f -> 0 <= i < r -> 0 <= j < c ->
  exists m', m_SetEntry m i j v = Ok m' /\ MatIs m' r c (tset f i j v) /\ general m'.
Proof.
  intros Hg H Hi Hj. destruct m; try contradiction.
  - simpl. destruct (a2_SetEntry_spec a r c f i j v H Hi Hj) as (a' & -> & H'). simpl.
    eexists; split; [reflexivity|]. split; simpl; auto.
  - simpl. apply MatIs_blk_inv in H. destruct (b_SetEntry_spec b r c f i j v H Hi Hj) as (a' & -> & H'). simpl.
    apply MatIs_blk in H'.
    eexists; split; [reflexivity|]. split; simpl; auto.
Qed.
End Facts.

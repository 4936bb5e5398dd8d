(** Statements over the three implementations, put together for the property files. *)
From Coq Require Import ZArith List Lia Bool Permutation.
From Verif Require Import Base BaseLemmas Scalar Vector VecSpec VectorFacts Matrix Array2D BlockM Diagonal RealMatrixM MatSpec MatFacts Array2DFacts BlockLoops BlockFacts BlockFacts2 BlockFacts3 BlockSub BlockMul DiagFacts WalkFacts MatrixOps HistSpec MatHist Float64 Float64Facts ExampleOps.
Import ListNotations.
Open Scope Z_scope.

Section Props.
Context {O : Ops}.

Lemma block_table os b r c f : MatIs (MBlk b) r c f ->
  exists b', fst (e_run (MBlk b) os) = MBlk b' /\
  MatIs (MBlk b') r c (fst (e_table r c f os)) /\ snd (e_run (MBlk b) os) = snd (e_table r c f os).
Proof.
  intros H. destruct (e_run_ok os (MBlk b) r c f I H) as (_ & H1 & H2).
  assert (G : forall l b0, exists b', fst (e_run (MBlk b0) l) = MBlk b').
  { clear. intros l. induction l as [|o l IH]; intros b0; cbn [e_run]; [eexists; reflexivity|].
    assert (E : forall m', e_exec (MBlk b0) o = Ok m' -> exists b', m' = MBlk b').
    { intros m'. destruct o; cbn [e_exec m_SetEntry m_AddToEntry m_MultiplyEntry]; unfold liftB;
      match goal with |- bind ?x _ = _ -> _ => destruct x; cbn [bind]; try discriminate; intros E; injection E as <-; eauto end. }
    destruct (e_exec (MBlk b0) o) as [m'|e|e].
    - destruct (E m' eq_refl) as (b' & ->). specialize (IH b'). destruct (e_run (MBlk b') l). cbn [fst] in *. auto.
    - specialize (IH b0). destruct (e_run (MBlk b0) l). cbn [fst] in *. auto.
    - specialize (IH b0). destruct (e_run (MBlk b0) l). cbn [fst] in *. auto. }
  destruct (G os b) as (b' & E). exists b'. rewrite E in H1. auto.
Qed.
Lemma new_zero r c : 1 <= r -> 1 <= c ->
  gives (liftB (NewBlockRealMatrix r c)) r c (fun _ _ => fzero) /\
  gives (liftA (NewArray2DRowRealMatrix r c)) r c (fun _ _ => fzero) /\
  gives (NewRealMatrixWithDimension r c) r c (fun _ _ => fzero).
Proof.
  intros Hr Hc. assert (G1 : gives (liftB (NewBlockRealMatrix r c)) r c (fun _ _ => fzero)) by (apply givesB, NewBlockRealMatrix_spec; auto).
  assert (G2 : gives (liftA (NewArray2DRowRealMatrix r c)) r c (fun _ _ => fzero)) by (apply givesA, NewArray2DRowRealMatrix_spec; auto).
  split; auto. split; auto. unfold NewRealMatrixWithDimension. destruct (_ <=? _); auto.
Qed.

Lemma fromslices_ok d : good d ->
  (exists m, liftA (NewArray2DRowRealMatrixFromSlices (Some d) true) = Ok m /\
    MatIs m (len d) (len (nthZ d 0)) (fun i j => nthZ (nthZ d i) j) /\ m_Data m = Ok d) /\
  (exists m, liftA (NewArray2DRowRealMatrixFromSlices (Some d) false) = Ok m /\
    MatIs m (len d) (len (nthZ d 0)) (fun i j => nthZ (nthZ d i) j) /\ m_Data m = Ok d) /\
  (exists m, liftB (NewBlockRealMatrixFromSlices d) = Ok m /\
    MatIs m (len d) (len (nthZ d 0)) (fun i j => nthZ (nthZ d i) j) /\ m_Data m = Ok d) /\
  (exists m, NewRealMatrixFromSlices (Some d) = Ok m /\
    MatIs m (len d) (len (nthZ d 0)) (fun i j => nthZ (nthZ d i) j) /\ m_Data m = Ok d).
Proof.
  intros H. destruct (all_FromSlices_ok d H) as ((m1 & E1 & G1 & M1) & (m2 & E2 & G2 & M2) & (m3 & E3 & G3 & M3) & (m4 & E4 & G4 & M4)).
  split; [|split; [|split]]; [exists m1|exists m2|exists m3|exists m4]; (split; [auto|split; [auto|apply Data_roundtrip; auto]]).
Qed.
Lemma fromslices_bad d : ~ good d ->
  rejects (NewArray2DRowRealMatrixFromSlices (Some d) true) /\ rejects (NewArray2DRowRealMatrixFromSlices (Some d) false) /\
  rejects (NewBlockRealMatrixFromSlices d) /\ rejects (NewRealMatrixFromSlices (Some d)).
Proof.
  intros H. split; [|split; [|split]].
  - destruct (FromSlices_copy_bad d H) as (e & ->). exists e. auto.
  - destruct (FromSlices_ref_bad d H) as (e & ->). exists e. auto.
  - apply BlockFromSlices_bad; auto.
  - apply NewRealMatrixFromSlices_bad; auto.
Qed.
Lemma fromslices_nil : rejects (NewArray2DRowRealMatrixFromSlices None true) /\ rejects (NewArray2DRowRealMatrixFromSlices None false) /\
  rejects (NewRealMatrixFromSlices None).
Proof. split; [|split]; eexists; [left|right|right]; reflexivity. Qed.

Lemma transpose_both m r c f : general m -> MatIs m r c f ->
  wp (m_Transpose m) (fun t => general t /\ MatIs t c r (fun i j => f j i) /\ gives (m_Transpose t) r c f).
Proof.
  intros Hg H. destruct (m_Transpose_ok m r c f Hg H) as (t & -> & Gt & Ht). apply wp_ok. split; auto. split; auto.
  destruct (m_Transpose_ok t c r _ Gt Ht) as (t' & -> & Gt' & Ht'). exists t'. split; auto.
Qed.
Lemma arith_all m n r c f g x : general m -> MatIs m r c f -> MatIs n r c g ->
  gives (m_Add m n) r c (fun i j => (f i j + g i j)%f) /\ gives (m_Subtract m n) r c (fun i j => (f i j - g i j)%f) /\
  gives (m_ScalarAdd m x) r c (fun i j => (f i j + x)%f) /\ gives (m_ScalarMultiply m x) r c (fun i j => (f i j * x)%f).
Proof.
  intros Hg H Hn. split; [|split; [|split]]; [apply m_Add_ok|apply m_Subtract_ok|apply m_ScalarAdd_ok|apply m_ScalarMultiply_ok]; auto.
Qed.
Lemma foreign_panics m r c f w : general m -> MatIs m r c f ->
  panics (m_OperateVector m (VOther w)) /\ panics (m_PreMultiplyVector m (VOther w)).
Proof.
  intros Hg H. pose proof (MatIs_cols _ _ _ _ H) as Ec.
  destruct m as [a|b|dd|? ? ?]; try contradiction; cbn [m_OperateVector m_PreMultiplyVector a2_OperateVector a2_PreMultiplyVector b_OperateVector b_PreMultiplyVector].
  - cbn [m_cols] in Ec. rewrite Ec. split; eexists; reflexivity.
  - split; eexists; reflexivity.
Qed.
Lemma submatrix_all m r c f r0 r1 c0 c1 : general m -> MatIs m r c f ->
  (0 <= r0 <= r1 -> r1 < r -> 0 <= c0 <= c1 -> c1 < c ->
   gives (m_SubMatrix m r0 r1 c0 c1) (r1 - r0 + 1) (c1 - c0 + 1) (fun i j => f (r0 + i) (c0 + j))) /\
  (~ (0 <= r0 <= r1 /\ r1 < r /\ 0 <= c0 <= c1 /\ c1 < c) -> panics (m_SubMatrix m r0 r1 c0 c1)).
Proof. intros Hg H. split; intros; [apply (m_SubMatrix_ok m r c f)|apply (m_SubMatrix_bad m r c f)]; auto. Qed.
Lemma setsub_all m r c f d row column : general m -> MatIs m r c f ->
  (good d -> fits d row column r c ->
   gives (m_SetSubMatrix m (Some d) row column) r c (fun i j =>
     if (row <=? i) && (i <? row + len d) && (column <=? j) && (j <? column + len (nthZ d 0))
     then nthZ (nthZ d (i - row)) (j - column) else f i j)) /\
  (~ (good d /\ fits d row column r c) -> panics (m_SetSubMatrix m (Some d) row column)) /\
  panics (m_SetSubMatrix m None row column).
Proof.
  intros Hg H. split; [|split].
  - intros Hd (F1 & F2 & F3 & F4). destruct (good_RTab d Hd) as (L1 & L2 & HT).
    apply (m_SetSubMatrix_ok m r c f d (len d) (len (nthZ d 0)) (fun i j => nthZ (nthZ d i) j)); auto.
  - intros Hn. apply (m_SetSub_bad m r c f); auto. unfold good, fits in Hn. intros K. apply Hn. tauto.
  - apply (m_SetSub_nil m r c f); auto.
Qed.
Lemma rows_read m r c f i : library m -> MatIs m r c f -> 0 <= i < r ->
  wp (m_RowAt m i) (fun v => VecIs (VArr v) c (fun j => f i j)) /\
  wp (m_RowVectorAt m i) (fun v => VecIs v c (fun j => f i j)).
Proof. intros Hl H Hi. split; [apply (m_RowAt_ok m r c f)|apply (m_RowVectorAt_ok m r c f)]; auto. Qed.
Lemma columns_read m r c f j : library m -> MatIs m r c f -> 0 <= j < c ->
  wp (m_ColumnAt m j) (fun v => VecIs (VArr v) r (fun i => f i j)) /\
  wp (m_ColumnVectorAt m j) (fun v => VecIs v r (fun i => f i j)).
Proof. intros Hl H Hi. split; [apply (m_ColumnAt_ok m r c f)|apply (m_ColumnVectorAt_ok m r c f)]; auto. Qed.
Lemma row_matrices m r c f : general m -> MatIs m r c f ->
  (forall i, 0 <= i < r -> gives (m_RowMatrixAt m i) 1 c (fun _ j => f i j)) /\
  (forall j, 0 <= j < c -> gives (m_ColumnMatrixAt m j) r 1 (fun i _ => f i j)).
Proof. intros Hg H. split; intros; [apply (m_RowMatrixAt_ok m r c f)|apply (m_ColumnMatrixAt_ok m r c f)]; auto. Qed.
Lemma rows_write m r c f k : general m -> MatIs m r c f -> 0 <= k < r ->
  (forall v g, VecIs (VArr v) c g -> gives (m_SetRowVector m k (VArr v)) r c (rowset f k g)) /\
  (forall n g, MatIs n 1 c g -> gives (m_SetRowMatrix m k n) r c (rowset f k (g 0))).
Proof.
  intros Hg H Hk. split.
  - intros v g Hv. apply m_SetRowVector_ok; eauto.
  - intros n g Hn. apply m_SetRowMatrix_ok; auto.
Qed.
Lemma columns_write m r c f k : general m -> MatIs m r c f -> 0 <= k < c ->
  (forall v g, VecIs (VArr v) r g -> gives (m_SetColumn m k v) r c (colset f k g)) /\
  (forall v g, VecIs (VArr v) r g -> gives (m_SetColumnVector m k (VArr v)) r c (colset f k g)) /\
  (forall n g, MatIs n r 1 g -> gives (m_SetColumnMatrix m k n) r c (colset f k (fun i => g i 0))).
Proof.
  intros Hg H Hk. split; [|split].
  - intros v g Hv. apply m_SetColumn_ok; auto.
  - intros v g Hv. apply m_SetColumnVector_ok; eauto.
  - intros n g Hn. apply m_SetColumnMatrix_ok; auto.
Qed.
Lemma m_SetRow_bad m r c f k v : general m -> MatIs m r c f -> ~ (0 <= k < r /\ len v = c) -> panics (m_SetRow m k v).
Proof.
  intros Hg H Hn. destruct (inb k r) eqn:Ek.
  2:{ apply inb_false in Ek. apply (m_row_bad m r c f k v (VArr v) (MOther 0 0 (fun _ _ => fzero)) Hg H Ek). }
  apply inb_true in Ek. pose proof (MatIs_cols _ _ _ _ H) as Ec. pose proof (MatIs_rows _ _ _ _ H) as Er.
  destruct m as [a|b|d|? ? ?]; try contradiction; cbn [m_SetRow]; [apply panA|apply panB];
  unfold a2_SetRow, b_SetRow; rewrite checkRowIndex_ok by (rewrite Er; auto); cbn [orpanic bind].
  - cbn [m_cols] in Ec. rewrite Ec. cbn [bind].
    destruct (Z.eqb_spec (len v) c); [tauto|eexists; reflexivity].
  - cbn [m_cols] in Ec. injection Ec as ->. destruct (Z.eqb_spec (len v) c); [tauto|eexists; reflexivity].
Qed.
Lemma lines_bad m r c f k : general m -> MatIs m r c f ->
  (~ (0 <= k < r) -> panics (m_RowAt m k) /\ panics (m_RowVectorAt m k) /\ panics (m_RowMatrixAt m k)) /\
  (~ (0 <= k < c) -> panics (m_ColumnAt m k) /\ panics (m_ColumnVectorAt m k) /\ panics (m_ColumnMatrixAt m k)) /\
  (forall v, ~ (0 <= k < r /\ len v = c) -> panics (m_SetRow m k v) /\ panics (m_SetRowVector m k (VArr v))) /\
  (forall v, ~ (0 <= k < c /\ len v = r) -> panics (m_SetColumn m k v) /\ panics (m_SetColumnVector m k (VArr v))) /\
  (forall n r' c' g, MatIs n r' c' g -> ~ (0 <= k < r /\ r' = 1 /\ c' = c) -> panics (m_SetRowMatrix m k n)) /\
  (forall n r' c' g, MatIs n r' c' g -> ~ (0 <= k < c /\ r' = r /\ c' = 1) -> panics (m_SetColumnMatrix m k n)).
Proof.
  intros Hg H. split; [|split; [|split; [|split; [|split]]]].
  - intros Hk. destruct (m_row_bad m r c f k [] (VArr []) m Hg H Hk) as (? & ? & ? & _). auto.
  - intros Hk. destruct (m_col_bad m r c f k [] m Hg H Hk) as (? & ? & ? & _). auto.
  - intros v Hv. split; [apply (m_SetRow_bad m r c f)|apply (m_SetRowVector_bad m r c f)]; auto.
  - intros v Hv. split; [apply (m_SetColumn_bad m r c f)|apply (m_SetColumnVector_bad m r c f)]; auto.
  - intros n r' c' g Hn Hk. apply (m_SetRowMatrix_bad m r c f k n r' c' g); auto.
  - intros n r' c' g Hn Hk. apply (m_SetColumnMatrix_bad m r c f k n r' c' g); auto.
Qed.
Lemma NoDup_app' {A} (l1 l2 : list A) : NoDup l1 -> NoDup l2 -> (forall x, In x l1 -> In x l2 -> False) -> NoDup (l1 ++ l2).
Proof.
  induction l1 as [|x l1 IH]; intros H1 H2 H; cbn; auto. inversion_clear H1. constructor.
  - intros K. apply in_app_or in K. destruct K; [contradiction|]. apply (H x); [left; auto|auto].
  - apply IH; auto. intros y Hy1 Hy2. apply (H y); [right; auto|auto].
Qed.
Lemma general_pos m r c f : general m -> MatIs m r c f -> 1 <= r /\ 1 <= c.
Proof.
  intros Hg H. destruct m as [a|b|d|? ? ?]; try contradiction.
  - apply MatIs_arr_inv in H. destruct H as (d & _ & ? & ? & _). auto.
  - apply MatIs_blk_inv in H. destruct H as (bl & _ & ? & ? & _). auto.
Qed.
Lemma MatIs_nonneg m r c f : MatIs m r c f -> 0 <= r /\ 0 <= c.
Proof.
  intros H. destruct m as [a|b|d|r' c' g].
  - pose proof (general_pos (MArr a) _ _ _ I H). lia.
  - pose proof (general_pos (MBlk b) _ _ _ I H). lia.
  - apply MatIs_DIs in H. destruct H as (<- & Hd & _). pose proof (DIs_nonneg _ _ _ Hd). lia.
  - destruct H as ((? & ?) & E1 & E2 & _). cbn in E1, E2. injection E2 as <-. lia.
Qed.
Lemma NoDup_row_order r0 r1 c0 c1 : NoDup (row_order r0 r1 c0 c1).
Proof.
  unfold row_order. pose proof (NoDup_range r0 (r1 + 1)) as Hn. induction Hn as [|i l Hi Hl IH]; cbn [flat_map]; [constructor|].
  apply NoDup_app'; auto.
  - apply FinFun.Injective_map_NoDup; [|apply NoDup_range]. intros x y E. congruence.
  - intros [a b] H1 H2. apply in_map_iff in H1. destruct H1 as (j & E & _). injection E as <- <-.
    apply in_flat_map in H2. destruct H2 as (i' & Hi' & H2). apply in_map_iff in H2. destruct H2 as (j' & E & _). injection E as -> _. auto.
Qed.
Lemma walks_all {St} m r c f (v : MatVisitor St) st : library m -> MatIs m r c f ->
  m_Walk RowOrder m v st = read_result v (row_order 0 (r - 1) 0 (c - 1)) f (mv_start v r c 0 (r - 1) 0 (c - 1) st) /\
  m_Walk ColumnOrder m v st = read_result v (column_order 0 (r - 1) 0 (c - 1)) f (mv_start v r c 0 (r - 1) 0 (c - 1) st) /\
  (exists cs, Permutation cs (row_order 0 (r - 1) 0 (c - 1)) /\
     m_Walk OptimizedOrder m v st = read_result v cs f (mv_start v r c 0 (r - 1) 0 (c - 1) st)).
Proof.
  intros Hl H. split; [|split].
  - rewrite (m_Walk_ok RowOrder m r c f v st Hl H). reflexivity.
  - rewrite (m_Walk_ok ColumnOrder m r c f v st Hl H). reflexivity.
  - exists (walk_order OptimizedOrder m 0 (r - 1) 0 (c - 1)). split; [|apply m_Walk_ok; auto].
    destruct m as [a|b|d|? ? ?]; try contradiction; cbn [walk_order]; auto.
    pose proof (general_pos (MBlk b) _ _ _ I H). apply (walk_order_perm OptimizedOrder (MBlk b)); lia.
Qed.
Lemma walks_bounded_all {St} m r c f (v : MatVisitor St) r0 r1 c0 c1 st : library m -> MatIs m r c f ->
  0 <= r0 <= r1 -> r1 < r -> 0 <= c0 <= c1 -> c1 < c ->
  m_WalkBounded RowOrder m v r0 r1 c0 c1 st = read_result v (row_order r0 r1 c0 c1) f (mv_start v r c r0 r1 c0 c1 st) /\
  m_WalkBounded ColumnOrder m v r0 r1 c0 c1 st = read_result v (column_order r0 r1 c0 c1) f (mv_start v r c r0 r1 c0 c1 st) /\
  (exists cs, Permutation cs (row_order r0 r1 c0 c1) /\
     m_WalkBounded OptimizedOrder m v r0 r1 c0 c1 st = read_result v cs f (mv_start v r c r0 r1 c0 c1 st)).
Proof.
  intros Hl H B1 B2 B3 B4. split; [|split].
  - rewrite (m_WalkBounded_ok RowOrder m r c f v r0 r1 c0 c1 st Hl H B1 B2 B3 B4). reflexivity.
  - rewrite (m_WalkBounded_ok ColumnOrder m r c f v r0 r1 c0 c1 st Hl H B1 B2 B3 B4). reflexivity.
  - exists (walk_order OptimizedOrder m r0 r1 c0 c1). split; [apply walk_order_perm; lia|apply m_WalkBounded_ok; auto].
Qed.
Lemma update_walks_all {St} m r c f (v : MatVisitor St) st : general m -> MatIs m r c f ->
  updates (m_WalkUpdate RowOrder m v st) v r c (row_order 0 (r - 1) 0 (c - 1)) f (mv_start v r c 0 (r - 1) 0 (c - 1) st) /\
  updates (m_WalkUpdate ColumnOrder m v st) v r c (column_order 0 (r - 1) 0 (c - 1)) f (mv_start v r c 0 (r - 1) 0 (c - 1) st) /\
  (exists cs, Permutation cs (row_order 0 (r - 1) 0 (c - 1)) /\
     updates (m_WalkUpdate OptimizedOrder m v st) v r c cs f (mv_start v r c 0 (r - 1) 0 (c - 1) st)).
Proof.
  intros Hg H. split; [|split].
  - apply (m_WalkUpdate_ok RowOrder m r c f v st Hg H).
  - apply (m_WalkUpdate_ok ColumnOrder m r c f v st Hg H).
  - exists (walk_order OptimizedOrder m 0 (r - 1) 0 (c - 1)). split; [|apply m_WalkUpdate_ok; auto].
    pose proof (general_pos _ _ _ _ Hg H). apply walk_order_perm; lia.
Qed.
Lemma update_walks_bounded_all {St} m r c f (v : MatVisitor St) r0 r1 c0 c1 st : general m -> MatIs m r c f ->
  0 <= r0 <= r1 -> r1 < r -> 0 <= c0 <= c1 -> c1 < c ->
  updates (m_WalkUpdateBounded RowOrder m v r0 r1 c0 c1 st) v r c (row_order r0 r1 c0 c1) f (mv_start v r c r0 r1 c0 c1 st) /\
  updates (m_WalkUpdateBounded ColumnOrder m v r0 r1 c0 c1 st) v r c (column_order r0 r1 c0 c1) f (mv_start v r c r0 r1 c0 c1 st) /\
  (exists cs, Permutation cs (row_order r0 r1 c0 c1) /\
     updates (m_WalkUpdateBounded OptimizedOrder m v r0 r1 c0 c1 st) v r c cs f (mv_start v r c r0 r1 c0 c1 st)).
Proof.
  intros Hg H B1 B2 B3 B4. split; [|split].
  - apply (m_WalkUpdateBounded_ok RowOrder m r c f v r0 r1 c0 c1 st Hg H B1 B2 B3 B4).
  - apply (m_WalkUpdateBounded_ok ColumnOrder m r c f v r0 r1 c0 c1 st Hg H B1 B2 B3 B4).
  - exists (walk_order OptimizedOrder m r0 r1 c0 c1). split; [apply walk_order_perm; lia|apply m_WalkUpdateBounded_ok; auto].
Qed.
(** A visitor that keeps no state and never panics: the resulting table. *)
Lemma visits_update_pure (h : Z -> Z -> F -> F) (cs : list (Z * Z)) : forall f, NoDup cs ->
  exists g, visits_update (mkMatVisitor (fun _ _ _ _ _ _ (st : unit) => st) (fun i j x st => Ok (h i j x, st)) (fun _ => fzero)) cs f tt = Ok (g, tt) /\
  forall i j, (In (i, j) cs -> g i j = h i j (f i j)) /\ (~ In (i, j) cs -> g i j = f i j).
Proof.
  induction cs as [|[a b] cs IH]; intros f Hnd; cbn [visits_update].
  - exists f. split; auto. intros i j. split; [intros []|auto].
  - inversion_clear Hnd. cbn [mv_visit bind]. destruct (IH (tset f a b (h a b (f a b))) H0) as (g & -> & Hg). exists g. split; auto.
    intros i j. destruct (Hg i j) as [G1 G2]. unfold tset in *.
    split.
    + intros [E|Hin].
      * injection E as -> ->. rewrite G2 by auto. rewrite !Z.eqb_refl. auto.
      * rewrite G1 by auto. destruct (Z.eqb_spec i a), (Z.eqb_spec j b); subst; auto; try contradiction.
    + intros Hn. rewrite G2 by (intros K; apply Hn; right; auto).
      destruct (Z.eqb_spec i a), (Z.eqb_spec j b); subst; auto. exfalso. apply Hn. left; auto.
Qed.
Lemma update_walk_pure (h : Z -> Z -> F -> F) o m r c f r0 r1 c0 c1 : general m -> MatIs m r c f ->
  0 <= r0 <= r1 -> r1 < r -> 0 <= c0 <= c1 -> c1 < c ->
  wp (m_WalkUpdateBounded o m (pure_visitor h) r0 r1 c0 c1 tt) (fun '(m', _, _) => general m' /\
    MatIs m' r c (fun i j => if (r0 <=? i) && (i <=? r1) && (c0 <=? j) && (j <=? c1) then h i j (f i j) else f i j)).
Proof.
  intros Hg H B1 B2 B3 B4.
  assert (G : forall cs, Permutation cs (row_order r0 r1 c0 c1) ->
    updates (m_WalkUpdateBounded o m (pure_visitor h) r0 r1 c0 c1 tt) (pure_visitor h) r c cs f tt ->
    wp (m_WalkUpdateBounded o m (pure_visitor h) r0 r1 c0 c1 tt) (fun '(m', _, _) => general m' /\
    MatIs m' r c (fun i j => if (r0 <=? i) && (i <=? r1) && (c0 <=? j) && (j <=? c1) then h i j (f i j) else f i j))).
  { intros cs Hp U. assert (Hnd : NoDup cs) by (eapply Permutation_NoDup; [apply Permutation_sym, Hp|apply NoDup_row_order]).
    destruct (visits_update_pure h cs f Hnd) as (g & E & Hgg). unfold updates in U.
    change (visits_update (pure_visitor h) cs f tt = Ok (g, tt)) in E. rewrite E in U. destruct U as (m' & -> & Gm & Mm).
    apply wp_ok. split; auto. eapply MatIs_ext; [exact Mm|]. intros i j Hi Hj. destruct (Hgg i j) as [G1 G2].
    destruct (Z.leb_spec r0 i), (Z.leb_spec i r1), (Z.leb_spec c0 j), (Z.leb_spec j c1); cbn [andb];
      first [apply G1; apply (Permutation_in _ (Permutation_sym Hp)); apply in_row_order; lia
            |apply G2; intros K; apply (Permutation_in _ Hp) in K; apply in_row_order in K; lia]. }
  destruct (update_walks_bounded_all m r c f (pure_visitor h) r0 r1 c0 c1 tt Hg H B1 B2 B3 B4) as (U1 & U2 & cs & Hp & U3).
  destruct o.
  - apply (G _ (Permutation_refl _) U1).
  - apply (G _ (column_order_perm _ _ _ _) U2).
  - apply (G cs Hp U3).
Qed.
End Props.

(** ** Equality of float64 matrices *)
Lemma mequals_refl c m r k (f : Z -> Z -> @F (SFOps c)) : library m -> MatIs m r k f ->
  (forall i j, 0 <= i < r -> 0 <= j < k -> sf_isnan (f i j) = false) -> m_Equals m false (Some m) = Ok true.
Proof.
  intros Hl H Hn. destruct (m_Equals_ok m m r k f r k f Hl H H) as (e & -> & He). f_equal. apply He. split; auto. split; auto.
  intros i j Hi Hj. apply SFeqb_refl. auto.
Qed.
Lemma mequals_sym c (m n : RealMatrix (O := SFOps c)) : library m -> library n -> (exists r k f, MatIs m r k f) -> (exists r k f, MatIs n r k f) ->
  m_Equals m false (Some n) = m_Equals n false (Some m).
Proof.
  intros Lm Ln (r & k & f & H) (r' & k' & g & Hn).
  destruct (m_Equals_ok m n r k f r' k' g Lm H Hn) as (e & -> & He). destruct (m_Equals_ok n m r' k' g r k f Ln Hn H) as (e' & -> & He').
  f_equal. apply eq_true_iff_eq. rewrite He, He'.
  split; intros (-> & -> & G); (split; [auto|split; [auto|]]); intros i j Hi Hj; specialize (G i j Hi Hj); rewrite <- G; apply SFeqb_sym.
Qed.
Lemma mequals_trans c (m n p : RealMatrix (O := SFOps c)) : library m -> library n ->
  (exists r k f, MatIs m r k f) -> (exists r k f, MatIs n r k f) -> (exists r k f, MatIs p r k f) ->
  m_Equals m false (Some n) = Ok true -> m_Equals n false (Some p) = Ok true -> m_Equals m false (Some p) = Ok true.
Proof.
  intros Lm Ln (r & k & f & H) (r' & k' & g & Hn) (r2 & k2 & h & Hp).
  destruct (m_Equals_ok m n r k f r' k' g Lm H Hn) as (e & -> & He). destruct (m_Equals_ok n p r' k' g r2 k2 h Ln Hn Hp) as (e' & -> & He').
  destruct (m_Equals_ok m p r k f r2 k2 h Lm H Hp) as (e2 & -> & He2).
  intros E1 E2. injection E1 as ->. injection E2 as ->. f_equal. apply He2. destruct He as [He _]. destruct (He eq_refl) as (-> & -> & G1).
  destruct He' as [He' _]. destruct (He' eq_refl) as (-> & -> & G2). split; auto. split; auto. intros i j Hi Hj. eapply SFeqb_trans; [apply G1|apply G2]; auto.
Qed.

(** The facts about the three matrix types, stated for calls through the
    RealMatrix interface. *)
From Coq Require Import ZArith List Lia Bool Permutation.
From Verif Require Import Base BaseLemmas Scalar Vector VecSpec VectorFacts Matrix Array2D BlockM Diagonal RealMatrixM MatSpec MatFacts Array2DFacts BlockLoops BlockFacts BlockFacts2 BlockFacts3 BlockSub BlockMul DiagFacts WalkFacts.
Import ListNotations.
Open Scope Z_scope.

Section MatrixOps.
Context {O : Ops}.

Lemma givesA m r c f : wp m (fun a => MatIs (MArr a) r c f) -> gives (liftA m) r c f.
Proof. intros (a & -> & H). exists (MArr a). split; [reflexivity|]. split; [exact I|auto]. Qed.
Lemma givesB m r c f : wp m (fun a => BIs a r c f) -> gives (liftB m) r c f.
Proof. intros (a & -> & H). exists (MBlk a). split; [reflexivity|]. split; [exact I|]. apply MatIs_blk; auto. Qed.
Lemma panA (m : res A2D) : panics m -> panics (liftA m). Proof. intros (e & ->). exists e. reflexivity. Qed.
Lemma panB (m : res Block) : panics m -> panics (liftB m). Proof. intros (e & ->). exists e. reflexivity. Qed.
Lemma panD (m : res Diag) : panics m -> panics (liftD m). Proof. intros (e & ->). exists e. reflexivity. Qed.
Lemma wp_VTab m n f : wp m (fun v => VTab v n f) -> wp m (fun v => VecIs (VArr v) n f).
Proof. intros (v & -> & H). exists v. split; auto. apply VecIs_intro; apply H. Qed.
Lemma VecIs_VTab v n f : VecIs (VArr v) n f -> VTab v n f.
Proof. intros H. apply VecIs_elim in H. exact H. Qed.

(** [arr H] and [blk H] destruct a general matrix. *)
Ltac gsplit m Hg H :=
  destruct m as [a|b|dd|? ? ?]; try contradiction; [|apply MatIs_blk_inv in H].

Lemma m_Copy_ok m r c f : general m -> MatIs m r c f -> gives (m_Copy m) r c f.
Proof. intros Hg H. gsplit m Hg H; [apply givesA, a2_Copy_spec|apply givesB, b_Copy_spec]; auto. Qed.

Lemma m_SetEntry_ok m r c f i j x : general m -> MatIs m r c f -> 0 <= i < r -> 0 <= j < c ->
  gives (m_SetEntry m i j x) r c (tset f i j x).
Proof.
  intros Hg H Hi Hj. destruct (m_SetEntry_spec m r c f i j x Hg H Hi Hj) as (m' & E & H1 & H2).
  exists m'. auto.
Qed.
Lemma a2_update_ok a r c f i j g : MatIs (MArr a) r c f -> 0 <= i < r -> 0 <= j < c ->
  exists a', a2_update a i j g = Ok a' /\ MatIs (MArr a') r c (tset f i j (g (f i j))).
Proof.
  intros H Hi Hj. unfold a2_update.
  rewrite (checkMatrixIndex_ok _ c) by (rewrite ?(MatIs_rows _ _ _ _ H); eauto using MatIs_cols).
  cbn [bind orpanic]. apply MatIs_arr_inv in H. destruct H as (d & -> & Hr & Hc & HT). cbn [a2_data].
  rewrite (RTab_get _ _ _ _ i j HT Hi Hj). cbn [bind].
  destruct (RTab_set _ _ _ _ i j (g (f i j)) HT Hi Hj) as (d' & -> & HT'). cbn [bind].
  eexists; split; [reflexivity|]. apply MatIs_arr; auto.
Qed.
Lemma m_AddToEntry_ok m r c f i j x : general m -> MatIs m r c f -> 0 <= i < r -> 0 <= j < c ->
  gives (m_AddToEntry m i j x) r c (tset f i j (f i j + x)%f).
Proof.
  intros Hg H Hi Hj. gsplit m Hg H; cbn [m_AddToEntry].
  - unfold a2_AddToEntry. destruct (a2_update_ok a r c f i j (fun y => (y + x)%f) H Hi Hj) as (a' & -> & H').
    cbn [bind]. eexists; split; [reflexivity|]. split; [exact I|]. exact H'.
  - pose proof (MatIs_blk _ _ _ _ H) as HM. unfold b_AddToEntry.
    rewrite (checkMatrixIndex_ok _ c) by (rewrite ?(MatIs_rows _ _ _ _ HM); eauto using MatIs_cols).
    cbn [bind orpanic]. destruct H as (bl & -> & Hr & Hc & HT).
    cbn [b_blocks b_rows b_columns b_blockColumns]. unfold BLOCK_SIZE.
    destruct (blk_of c j Hc Hj). rewrite blockWidth_bw by auto.
    rewrite (BTab_get' bl r c f i j) by auto. cbn [bind].
    destruct (BTab_set' bl r c f i j (f i j + x)%f Hr Hc HT Hi Hj) as (bl' & -> & HT'). cbn [bind].
    eexists; split; [reflexivity|]. split; [exact I|]. apply MatIs_blk. exists bl'. split; [reflexivity|auto].
Qed.
Lemma m_MultiplyEntry_ok m r c f i j x : general m -> MatIs m r c f -> 0 <= i < r -> 0 <= j < c ->
  gives (m_MultiplyEntry m i j x) r c (tset f i j (f i j * x)%f).
Proof.
  intros Hg H Hi Hj. gsplit m Hg H; cbn [m_MultiplyEntry].
  - unfold a2_MultiplyEntry. destruct (a2_update_ok a r c f i j (fun y => (y * x)%f) H Hi Hj) as (a' & -> & H').
    cbn [bind]. eexists; split; [reflexivity|]. split; [exact I|]. exact H'.
  - pose proof (MatIs_blk _ _ _ _ H) as HM. unfold b_MultiplyEntry.
    rewrite (checkMatrixIndex_ok _ c) by (rewrite ?(MatIs_rows _ _ _ _ HM); eauto using MatIs_cols).
    cbn [bind orpanic]. destruct H as (bl & -> & Hr & Hc & HT).
    cbn [b_blocks b_rows b_columns b_blockColumns]. unfold BLOCK_SIZE.
    destruct (blk_of c j Hc Hj). rewrite blockWidth_bw by auto.
    rewrite (BTab_get' bl r c f i j) by auto. cbn [bind].
    destruct (BTab_set' bl r c f i j (f i j * x)%f Hr Hc HT Hi Hj) as (bl' & -> & HT'). cbn [bind].
    eexists; split; [reflexivity|]. split; [exact I|]. apply MatIs_blk. exists bl'. split; [reflexivity|auto].
Qed.
Lemma m_entry_bad m r c f i j x : general m -> MatIs m r c f -> ~ (0 <= i < r /\ 0 <= j < c) ->
  panics (m_SetEntry m i j x) /\ panics (m_AddToEntry m i j x) /\ panics (m_MultiplyEntry m i j x).
Proof.
  intros Hg H Hij. pose proof (MatIs_rows _ _ _ _ H) as Er. pose proof (MatIs_cols _ _ _ _ H) as Ec.
  assert (E : checkMatrixIndex m i j = Err EOutOfRange) by (apply (checkMatrixIndex_err _ c); rewrite ?Er; auto).
  destruct m; try contradiction; cbn [m_SetEntry m_AddToEntry m_MultiplyEntry];
    unfold a2_SetEntry, a2_AddToEntry, a2_MultiplyEntry, a2_update, b_SetEntry, b_AddToEntry, b_MultiplyEntry;
    rewrite E; cbn [bind orpanic]; repeat split; eexists; reflexivity.
Qed.

Lemma m_Add_ok m n r c f g : general m -> MatIs m r c f -> MatIs n r c g ->
  gives (m_Add m n) r c (fun i j => (f i j + g i j)%f).
Proof. intros Hg H Hn. gsplit m Hg H; [apply givesA, a2_Add_spec|apply givesB, b_Add_spec]; auto. Qed.
Lemma m_Subtract_ok m n r c f g : general m -> MatIs m r c f -> MatIs n r c g ->
  gives (m_Subtract m n) r c (fun i j => (f i j - g i j)%f).
Proof. intros Hg H Hn. gsplit m Hg H; [apply givesA, a2_Subtract_spec|apply givesB, b_Subtract_spec]; auto. Qed.
Lemma m_ScalarAdd_ok m r c f x : general m -> MatIs m r c f -> gives (m_ScalarAdd m x) r c (fun i j => (f i j + x)%f).
Proof. intros Hg H. gsplit m Hg H; [apply givesA, a2_ScalarAdd_spec|apply givesB, b_ScalarAdd_spec]; auto. Qed.
Lemma m_ScalarMultiply_ok m r c f x : general m -> MatIs m r c f -> gives (m_ScalarMultiply m x) r c (fun i j => (f i j * x)%f).
Proof. intros Hg H. gsplit m Hg H; [apply givesA, a2_ScalarMultiply_spec|apply givesB, b_ScalarMultiply_spec]; auto. Qed.
Lemma m_Add_bad m n r c f r' c' g : library m -> MatIs m r c f -> MatIs n r' c' g -> r <> r' \/ c <> c' ->
  panics (m_Add m n) /\ panics (m_Subtract m n).
Proof.
  intros Hl H Hn Hne. pose proof (MatIs_rows _ _ _ _ H) as Er. pose proof (MatIs_cols _ _ _ _ H) as Ec.
  pose proof (MatIs_rows _ _ _ _ Hn) as Er'. pose proof (MatIs_cols _ _ _ _ Hn) as Ec'.
  assert (E : checkAdditionCompatible m n = Err EMatDimMismatch) by (apply (checkAddition_err _ _ c c'); auto; lia).
  destruct m; try contradiction; cbn [m_Add m_Subtract]; (split; [first [apply panA|apply panB|apply panD]..]);
  unfold a2_Add, a2_Subtract, b_Add, b_Subtract, d_Add, d_Subtract; rewrite E; cbn [bind orpanic]; eexists; reflexivity.
Qed.

Lemma m_Transpose_ok m r c f : general m -> MatIs m r c f -> gives (m_Transpose m) c r (fun i j => f j i).
Proof. intros Hg H. gsplit m Hg H; [apply givesA, a2_Transpose_spec|apply givesB, b_Transpose_spec]; auto. Qed.
Lemma m_SubMatrix_ok m r c f r0 r1 c0 c1 : general m -> MatIs m r c f ->
  0 <= r0 <= r1 -> r1 < r -> 0 <= c0 <= c1 -> c1 < c ->
  gives (m_SubMatrix m r0 r1 c0 c1) (r1 - r0 + 1) (c1 - c0 + 1) (fun i j => f (r0 + i) (c0 + j)).
Proof.
  intros Hg H H1 H2 H3 H4. gsplit m Hg H; [apply givesA|apply givesB].
  - apply (a2_SubMatrix_spec a r c f); auto.
  - apply (b_SubMatrix_spec b r c f); auto.
Qed.
Lemma m_SubMatrix_bad m r c f r0 r1 c0 c1 : general m -> MatIs m r c f ->
  ~ (0 <= r0 <= r1 /\ r1 < r /\ 0 <= c0 <= c1 /\ c1 < c) -> panics (m_SubMatrix m r0 r1 c0 c1).
Proof.
  intros Hg H Hn. pose proof (MatIs_rows _ _ _ _ H) as Er. pose proof (MatIs_cols _ _ _ _ H) as Ec.
  destruct (checkSubMatrixIndex_err m c r0 r1 c0 c1 Ec) as (e & E); [rewrite Er; auto|].
  destruct m; try contradiction; cbn [m_SubMatrix]; [apply panA|apply panB];
  unfold a2_SubMatrix, b_SubMatrix; rewrite E; eexists; reflexivity.
Qed.
Lemma m_SetSubMatrix_ok m r c f d r' c' g row column : general m -> MatIs m r c f ->
  1 <= r' -> 1 <= c' -> RTab d r' c' g -> 0 <= row -> 0 <= column -> row + r' <= r -> column + c' <= c ->
  gives (m_SetSubMatrix m (Some d) row column) r c (fun i j =>
    if (row <=? i) && (i <? row + r') && (column <=? j) && (j <? column + c') then g (i - row) (j - column) else f i j).
Proof.
  intros Hg H H1 H2 H3 H4 H5 H6 H7. gsplit m Hg H; [apply givesA, a2_SetSubMatrix_spec|apply givesB, b_SetSubMatrix_spec]; auto.
Qed.

Lemma m_RowAt_ok m r c f i : library m -> MatIs m r c f -> 0 <= i < r ->
  wp (m_RowAt m i) (fun v => VecIs (VArr v) c (fun j => f i j)).
Proof.
  intros Hg H Hi. destruct m as [a|b|d|? ? ?]; try contradiction; apply wp_VTab.
  - apply (a2_RowAt_spec a r c f i); auto.
  - apply (b_RowAt_spec b r c f i); auto. apply MatIs_blk_inv; auto.
  - apply MatIs_DIs in H. destruct H as (<- & Hd & H0). eapply wp_conseq; [apply (d_RowAt_spec d r _ i Hd Hi)|].
    intros v Hv. eapply VTab_ext; [exact Hv|]. intros j Hj. unfold dg. destruct (Z.eqb_spec i j); subst; auto. rewrite H0; auto.
Qed.
Lemma m_ColumnAt_ok m r c f j : library m -> MatIs m r c f -> 0 <= j < c ->
  wp (m_ColumnAt m j) (fun v => VecIs (VArr v) r (fun i => f i j)).
Proof.
  intros Hg H Hi. destruct m as [a|b|d|? ? ?]; try contradiction; apply wp_VTab.
  - apply (a2_ColumnAt_spec a r c f j); auto.
  - apply (b_ColumnAt_spec b r c f j); auto. apply MatIs_blk_inv; auto.
  - apply MatIs_DIs in H. destruct H as (<- & Hd & H0). eapply wp_conseq; [apply (d_ColumnAt_spec d r _ j Hd Hi)|].
    intros v Hv. eapply VTab_ext; [exact Hv|]. intros i Hj. unfold dg. destruct (Z.eqb_spec i j); subst; auto. rewrite H0; auto.
Qed.
Lemma m_RowVectorAt_ok m r c f i : library m -> MatIs m r c f -> 0 <= i < r ->
  wp (m_RowVectorAt m i) (fun v => VecIs v c (fun j => f i j)).
Proof.
  intros Hg H Hi. pose proof (m_RowAt_ok m r c f i Hg H Hi) as G.
  destruct m as [a|b|d|? ? ?]; try contradiction; cbn [m_RowAt m_RowVectorAt] in *;
  unfold a2_RowVectorAt, b_RowVectorAt, d_RowVectorAt; eapply wp_bind, wp_conseq; try exact G; intros v Hv; apply wp_ok; exact Hv.
Qed.
Lemma m_ColumnVectorAt_ok m r c f j : library m -> MatIs m r c f -> 0 <= j < c ->
  wp (m_ColumnVectorAt m j) (fun v => VecIs v r (fun i => f i j)).
Proof.
  intros Hg H Hi. pose proof (m_ColumnAt_ok m r c f j Hg H Hi) as G.
  destruct m as [a|b|d|? ? ?]; try contradiction; cbn [m_ColumnAt m_ColumnVectorAt] in *;
  unfold a2_ColumnVectorAt, b_ColumnVectorAt, d_ColumnVectorAt; eapply wp_bind, wp_conseq; try exact G; intros v Hv; apply wp_ok; exact Hv.
Qed.
Lemma m_RowMatrixAt_ok m r c f i : general m -> MatIs m r c f -> 0 <= i < r ->
  gives (m_RowMatrixAt m i) 1 c (fun _ j => f i j).
Proof.
  intros Hg H Hi. gsplit m Hg H; [apply givesA|apply givesB].
  - apply (a2_RowMatrixAt_spec a r c f i); auto.
  - apply (b_RowMatrixAt_spec b r c f i); auto.
Qed.
Lemma m_ColumnMatrixAt_ok m r c f j : general m -> MatIs m r c f -> 0 <= j < c ->
  gives (m_ColumnMatrixAt m j) r 1 (fun i _ => f i j).
Proof.
  intros Hg H Hi. gsplit m Hg H; [apply givesA|apply givesB].
  - apply (a2_ColumnMatrixAt_spec a r c f j); auto.
  - apply (b_ColumnMatrixAt_spec b r c f j); auto.
Qed.
Lemma m_row_bad m r c f i x v w : general m -> MatIs m r c f -> ~ (0 <= i < r) ->
  panics (m_RowAt m i) /\ panics (m_RowVectorAt m i) /\ panics (m_RowMatrixAt m i) /\
  panics (m_SetRow m i x) /\ panics (m_SetRowVector m i v) /\ panics (m_SetRowMatrix m i w).
Proof.
  intros Hg H Hi. pose proof (MatIs_rows _ _ _ _ H) as Er.
  assert (E : checkRowIndex m i = Err EOutOfRange) by (apply checkRowIndex_err; rewrite Er; auto).
  destruct m as [a|b|d|? ? ?]; try contradiction;
  cbn [m_RowAt m_RowVectorAt m_RowMatrixAt m_SetRow m_SetRowVector m_SetRowMatrix];
  unfold a2_RowVectorAt, a2_RowAt, a2_RowMatrixAt, a2_SetRow, a2_SetRowVector, a2_SetRowMatrix,
    b_RowVectorAt, b_RowAt, b_RowMatrixAt, b_SetRow, b_SetRowVector, b_SetRowMatrix, liftA, liftB.
  - rewrite E. repeat split; eexists; reflexivity.
  - destruct v; unfold b_SetRow; rewrite E; repeat split; eexists; reflexivity.
Qed.

Lemma m_Operate_ok m r c f v g : general m -> MatIs m r c f -> VecIs (VArr v) c g ->
  wp (m_Operate m v) (fun w => VecIs (VArr w) r (fun i =>
    match m with MArr _ => fsum c (fun k => (f i k * g k)%f) | _ => bsum sum4 c (fun k => (f i k * g k)%f) end)).
Proof.
  intros Hg H Hv. gsplit m Hg H.
  - apply wp_VTab. apply a2_Operate_spec; auto. apply VecIs_VTab; auto.
  - apply b_Operate_spec; auto.
Qed.
Lemma m_PreMultiply_ok m r c f v g : general m -> MatIs m r c f -> VecIs (VArr v) r g ->
  wp (m_PreMultiply m v) (fun w => VecIs (VArr w) c (fun j =>
    match m with MArr _ => fsum r (fun k => (f k j * g k)%f) | _ => bsum sum4 r (fun k => (f k j * g k)%f) end)).
Proof.
  intros Hg H Hv. gsplit m Hg H.
  - apply wp_VTab. apply a2_PreMultiply_spec; auto. apply VecIs_VTab; auto.
  - apply b_PreMultiply_spec; auto.
Qed.
Lemma m_Operate_bad m r c f v : library m -> MatIs m r c f -> len v <> c -> panics (m_Operate m v).
Proof.
  intros Hg H Hv. destruct m as [a|b|d|? ? ?]; try contradiction; cbn [m_Operate].
  - unfold a2_Operate. pose proof (MatIs_cols _ _ _ _ H) as E. cbn in E. rewrite E. cbn [bind].
    destruct (Z.eqb_spec (len v) c); [contradiction|]. eexists; reflexivity.
  - apply MatIs_blk_inv in H. destruct H as (bl & -> & _). unfold b_Operate. cbn [b_columns].
    destruct (Z.eqb_spec (len v) c); [contradiction|]. eexists; reflexivity.
  - apply MatIs_DIs in H. destruct H as (-> & Hd & _). eapply d_Operate_panics; eauto.
Qed.
Lemma m_PreMultiply_bad m r c f v : library m -> MatIs m r c f -> len v <> r -> panics (m_PreMultiply m v).
Proof.
  intros Hg H Hv. destruct m as [a|b|d|? ? ?]; try contradiction; cbn [m_PreMultiply].
  - unfold a2_PreMultiply. pose proof (MatIs_cols _ _ _ _ H) as E. pose proof (MatIs_rows _ _ _ _ H) as E'. cbn in E, E'. rewrite E, E'. cbn [bind].
    destruct (Z.eqb_spec (len v) r); [contradiction|]. eexists; reflexivity.
  - apply MatIs_blk_inv in H. destruct H as (bl & -> & _). unfold b_PreMultiply. cbn [b_rows].
    destruct (Z.eqb_spec (len v) r); [contradiction|]. eexists; reflexivity.
  - apply MatIs_DIs in H. destruct H as (-> & Hd & _). eapply d_Operate_panics; eauto.
Qed.
Lemma m_Trace_ok m n f : library m -> MatIs m n n f -> m_Trace m = Ok (fsum n (fun i => f i i)).
Proof.
  intros Hg H. destruct m as [a|b|d|? ? ?]; try contradiction; cbn [m_Trace].
  - apply a2_Trace_spec; auto.
  - apply b_Trace_spec. apply MatIs_blk_inv; auto.
  - apply MatIs_DIs in H. destruct H as (_ & Hd & _). apply d_Trace_spec; auto.
Qed.
Lemma m_Trace_bad m r c f : library m -> MatIs m r c f -> r <> c -> panics (m_Trace m).
Proof.
  intros Hg H Hne. destruct m as [a|b|d|? ? ?]; try contradiction; cbn [m_Trace].
  - unfold a2_Trace. pose proof (MatIs_cols _ _ _ _ H) as E. pose proof (MatIs_rows _ _ _ _ H) as E'. cbn in E, E'. rewrite E, E'. cbn [bind].
    destruct (Z.eqb_spec r c); [contradiction|]. eexists; reflexivity.
  - apply MatIs_blk_inv in H. destruct H as (bl & -> & _). unfold b_Trace. cbn [b_rows b_columns].
    destruct (Z.eqb_spec r c); [contradiction|]. eexists; reflexivity.
  - apply MatIs_DIs in H. destruct H as (-> & Hd & _). contradiction.
Qed.
(** The two ways of adding up: in order, or block by block. *)
Definition msum (m n : RealMatrix) : Z -> (Z -> F) -> F :=
  match m, n with MBlk _, MBlk _ => bsum sum4 | MBlk _, _ => bsum fsum | _, _ => fsum end.
Lemma m_Multiply_ok m n r k c f g : general m -> MatIs m r k f -> MatIs n k c g -> 1 <= c ->
  gives (m_Multiply m n) r c (fun i j => msum m n k (fun t => (f i t * g t j)%f)).
Proof.
  intros Hg H Hn Hc. gsplit m Hg H; [apply givesA|apply givesB]; cbn [msum].
  - apply a2_Multiply_spec; auto.
  - destruct n as [a'|b'|d'|? ? ?].
    + eapply b_Multiply_other_spec; eauto. discriminate.
    + apply b_Multiply_blk_spec; auto. apply MatIs_blk_inv; auto.
    + eapply b_Multiply_other_spec; eauto. discriminate.
    + eapply b_Multiply_other_spec; eauto. discriminate.
Qed.
Lemma m_Multiply_bad m n r k k' c f g : library m -> MatIs m r k f -> MatIs n k' c g -> k <> k' -> panics (m_Multiply m n).
Proof.
  intros Hl H Hn Hne. pose proof (MatIs_cols _ _ _ _ H) as Ec. pose proof (MatIs_rows _ _ _ _ Hn) as Er'.
  assert (E : checkMultiplicationCompatible m n = Err EDimMismatch) by (apply (checkMultiplication_err _ _ k); auto; lia).
  destruct m; try contradiction; cbn [m_Multiply]; try (first [apply panA|apply panB]);
  unfold a2_Multiply, b_Multiply, d_Multiply; rewrite E; cbn [bind orpanic]; eexists; reflexivity.
Qed.
Lemma a2_Data_spec a r c f : MatIs (MArr a) r c f -> wp (a2_Data a) (fun d => RTab d r c f).
Proof. apply a2_copyOut_spec. Qed.
Lemma m_Data_ok m r c f : library m -> MatIs m r c f -> wp (m_Data m) (fun d => RTab d r c f).
Proof.
  intros Hl H. destruct m as [a|b|d|? ? ?]; try contradiction; cbn [m_Data].
  - apply a2_Data_spec; auto.
  - apply b_Data_spec. apply MatIs_blk_inv; auto.
  - apply MatIs_DIs in H. destruct H as (<- & Hd & H0). eapply wp_conseq; [apply (d_Data_spec d r _ Hd)|].
    intros x Hx. eapply RTab_ext; [exact Hx|]. intros i j Hi Hj. unfold dg. destruct (Z.eqb_spec i j); subst; auto. rewrite H0; auto.
Qed.
Lemma m_Equals_ok m n r c f r' c' g : library m -> MatIs m r c f -> MatIs n r' c' g ->
  exists e, m_Equals m false (Some n) = Ok e /\
  (e = true <-> r' = r /\ c' = c /\ forall i j, 0 <= i < r -> 0 <= j < c -> feq (f i j) (g i j) = true).
Proof.
  intros Hl H Hn.
  assert (Hfne : forall x y, fne x y = false <-> feq x y = true) by (intros; unfold fne; apply negb_false_iff).
  destruct m as [a|b|d|? ? ?]; try contradiction; cbn [m_Equals].
  - destruct (a2_Equals_spec a n r c f r' c' g H Hn) as (e & E & He). exists e. split; auto. rewrite He.
    split; intros (-> & -> & K); repeat split; auto; intros; apply Hfne; auto.
  - destruct (b_Equals_spec b n r c f r' c' g (MatIs_blk_inv _ _ _ _ H) Hn) as (e & E & He). exists e. split; auto. rewrite He.
    split; intros (-> & -> & K); repeat split; auto; intros; apply Hfne; auto.
  - apply MatIs_DIs in H. destruct H as (<- & Hd & H0).
    destruct (d_Equals_spec d r _ n r' c' g Hd Hn) as (e & E & He). exists e. split; auto. rewrite He.
    assert (Hdg : forall i j, 0 <= i < r -> 0 <= j < r -> dg (fun i => f i i) i j = f i j).
    { intros i j Hi Hj. unfold dg. destruct (Z.eqb_spec i j); subst; auto. rewrite H0; auto. }
    split; intros (-> & -> & K); repeat split; auto; intros; [rewrite <- Hdg by auto|rewrite Hdg by auto]; auto.
Qed.

(** ** Walks *)
Definition walk_order (o : order) (m : RealMatrix) r0 r1 c0 c1 : list (Z * Z) :=
  match o with
  | RowOrder => row_order r0 r1 c0 c1
  | ColumnOrder => column_order r0 r1 c0 c1
  | OptimizedOrder => match m with MBlk _ => blk_order r0 r1 c0 c1 | _ => row_order r0 r1 c0 c1 end
  end.
Lemma read_ext {St} (v : MatVisitor St) cs f g st : (forall i j, In (i, j) cs -> f i j = g i j) ->
  read_result v cs f st = read_result v cs g st.
Proof.
  intros H. unfold read_result. f_equal. revert st. induction cs as [|[i j] cs IH]; intros st; auto. cbn [visits].
  rewrite H by (left; auto). apply bind_ext. intros [y st'] _. apply IH. intros. apply H. right; auto.
Qed.
Lemma m_Walk_ok {St} o m r c f (v : MatVisitor St) st : library m -> MatIs m r c f ->
  m_Walk o m v st = read_result v (walk_order o m 0 (r - 1) 0 (c - 1)) f (mv_start v r c 0 (r - 1) 0 (c - 1) st).
Proof.
  intros Hl H. destruct m as [a|b|d|? ? ?]; try contradiction; cbn [m_Walk walk_order].
  - destruct (a2_walks a r c f v st H) as (H1 & H2 & _). destruct o; auto.
  - destruct (b_walks b r c f v st H) as (H1 & H2 & H3 & _). destruct o; auto.
  - apply MatIs_DIs in H. destruct H as (<- & Hd & H0). destruct (d_walks d r _ v st Hd) as (H1 & H2 & _).
    assert (Hdg : forall i j, 0 <= i < r -> 0 <= j < r -> dg (fun i => f i i) i j = f i j).
    { intros i j Hi Hj. unfold dg. destruct (Z.eqb_spec i j); subst; auto. rewrite H0; auto. }
    destruct o; unfold d_WalkInOptimizedOrder; rewrite ?H1, ?H2; apply read_ext; intros i j Hij;
      [apply in_row_order in Hij|apply in_column_order in Hij|apply in_row_order in Hij]; apply Hdg; lia.
Qed.
Lemma m_WalkBounded_ok {St} o m r c f (v : MatVisitor St) r0 r1 c0 c1 st : library m -> MatIs m r c f ->
  0 <= r0 <= r1 -> r1 < r -> 0 <= c0 <= c1 -> c1 < c ->
  m_WalkBounded o m v r0 r1 c0 c1 st = read_result v (walk_order o m r0 r1 c0 c1) f (mv_start v r c r0 r1 c0 c1 st).
Proof.
  intros Hl H B1 B2 B3 B4. destruct m as [a|b|d|? ? ?]; try contradiction; cbn [m_WalkBounded walk_order].
  - destruct (a2_walks_bounded a r c f v r0 r1 c0 c1 st H B1 B2 B3 B4) as (H1 & H2 & _). destruct o; auto.
  - destruct (b_walks_bounded b r c f v r0 r1 c0 c1 st H B1 B2 B3 B4) as (H1 & H2 & H3 & _). destruct o; auto.
  - apply MatIs_DIs in H. destruct H as (<- & Hd & H0).
    destruct (d_walks_bounded d r _ v r0 r1 c0 c1 st Hd ltac:(lia) B2 ltac:(lia) B4) as (H1 & H2 & _).
    assert (Hdg : forall i j, 0 <= i < r -> 0 <= j < r -> dg (fun i => f i i) i j = f i j).
    { intros i j Hi Hj. unfold dg. destruct (Z.eqb_spec i j); subst; auto. rewrite H0; auto. }
    destruct o; unfold d_WalkInOptimizedOrderBounded; rewrite ?H1, ?H2; apply read_ext; intros i j Hij;
      [apply in_row_order in Hij|apply in_column_order in Hij|apply in_row_order in Hij]; apply Hdg; lia.
Qed.
Lemma map_flat {A B} (h : A -> B) l : map h l = flat_map (fun a => [h a]) l.
Proof. induction l; cbn; congruence. Qed.
Lemma column_order_perm r0 r1 c0 c1 : Permutation (column_order r0 r1 c0 c1) (row_order r0 r1 c0 c1).
Proof.
  unfold column_order, row_order.
  rewrite (flat_map_ext' (fun j => map (fun i => (i, j)) (range r0 (r1 + 1))) (fun j => flat_map (fun i => [(i, j)]) (range r0 (r1 + 1)))) by (intros; apply map_flat).
  rewrite (flat_map_ext' (fun i => map (fun j => (i, j)) (range c0 (c1 + 1))) (fun i => flat_map (fun j => [(i, j)]) (range c0 (c1 + 1)))) by (intros; apply map_flat).
  apply flat_map_swap.
Qed.
Lemma walk_order_perm o m r0 r1 c0 c1 : 0 <= r0 <= r1 -> 0 <= c0 <= c1 ->
  Permutation (walk_order o m r0 r1 c0 c1) (row_order r0 r1 c0 c1).
Proof.
  intros. destruct o; cbn [walk_order]; auto.
  - apply column_order_perm.
  - destruct m; auto. apply blk_order_perm; auto.
Qed.
Lemma updatesA {St} x (v : MatVisitor St) r c cs f st : walk_result MArr x v r c cs f st -> updates (liftW MArr x) v r c cs f st.
Proof.
  unfold walk_result, updates. destruct (visits_update v cs f st) as [[g st']|e|e]; try (intros ->; reflexivity).
  intros (m' & -> & H). exists (MArr m'). split; [reflexivity|]. split; [exact I|]. exact H.
Qed.
Lemma updatesB {St} x (v : MatVisitor St) r c cs f st : walk_result MBlk x v r c cs f st -> updates (liftW MBlk x) v r c cs f st.
Proof.
  unfold walk_result, updates. destruct (visits_update v cs f st) as [[g st']|e|e]; try (intros ->; reflexivity).
  intros (m' & -> & H). exists (MBlk m'). split; [reflexivity|]. split; [exact I|]. exact H.
Qed.
Lemma m_WalkUpdate_ok {St} o m r c f (v : MatVisitor St) st : general m -> MatIs m r c f ->
  updates (m_WalkUpdate o m v st) v r c (walk_order o m 0 (r - 1) 0 (c - 1)) f (mv_start v r c 0 (r - 1) 0 (c - 1) st).
Proof.
  intros Hl H. destruct m as [a|b|d|? ? ?]; try contradiction; cbn [m_WalkUpdate walk_order].
  - destruct (a2_walks a r c f v st H) as (_ & _ & H1 & H2). destruct o; apply updatesA; auto.
  - destruct (b_walks b r c f v st H) as (_ & _ & _ & H1 & H2 & H3). destruct o; apply updatesB; auto.
Qed.
Lemma m_WalkUpdateBounded_ok {St} o m r c f (v : MatVisitor St) r0 r1 c0 c1 st : general m -> MatIs m r c f ->
  0 <= r0 <= r1 -> r1 < r -> 0 <= c0 <= c1 -> c1 < c ->
  updates (m_WalkUpdateBounded o m v r0 r1 c0 c1 st) v r c (walk_order o m r0 r1 c0 c1) f (mv_start v r c r0 r1 c0 c1 st).
Proof.
  intros Hl H B1 B2 B3 B4. destruct m as [a|b|d|? ? ?]; try contradiction; cbn [m_WalkUpdateBounded walk_order].
  - destruct (a2_walks_bounded a r c f v r0 r1 c0 c1 st H B1 B2 B3 B4) as (_ & _ & H1 & H2). destruct o; apply updatesA; auto.
  - destruct (b_walks_bounded b r c f v r0 r1 c0 c1 st H B1 B2 B3 B4) as (_ & _ & _ & H1 & H2 & H3). destruct o; apply updatesB; auto.
Qed.
Lemma m_walk_bad {St} o m r c f (v : MatVisitor St) r0 r1 c0 c1 st : general m -> MatIs m r c f ->
  ~ (0 <= r0 <= r1 /\ r1 < r /\ 0 <= c0 <= c1 /\ c1 < c) ->
  panics (m_WalkBounded o m v r0 r1 c0 c1 st) /\ panics (m_WalkUpdateBounded o m v r0 r1 c0 c1 st).
Proof.
  intros Hg H Hn. pose proof (MatIs_rows _ _ _ _ H) as Er. pose proof (MatIs_cols _ _ _ _ H) as Ec.
  destruct (checkSubMatrixIndex_err m c r0 r1 c0 c1 Ec) as (e & E); [rewrite Er; auto|].
  destruct m as [a|b|d|? ? ?]; try contradiction; cbn [m_WalkBounded m_WalkUpdateBounded]; destruct o;
  unfold a2_WalkInOptimizedOrderBounded, a2_WalkInUpdateOptimizedOrderBounded,
    a2_WalkInRowOrderBounded, a2_WalkInColumnOrderBounded, a2_WalkInUpdateRowOrderBounded, a2_WalkInUpdateColumnOrderBounded,
    b_WalkInRowOrderBounded, b_WalkInColumnOrderBounded, b_WalkInOptimizedOrderBounded, b_WalkInUpdateRowOrderBounded,
    b_WalkInUpdateColumnOrderBounded, b_WalkInUpdateOptimizedOrderBounded, liftW; rewrite ?E; split; eexists; reflexivity.
Qed.

(** ** Replacing a row or a column *)
Lemma m_SetColumn_ok m r c f k v g : general m -> MatIs m r c f -> 0 <= k < c -> VecIs (VArr v) r g ->
  gives (m_SetColumn m k v) r c (colset f k g).
Proof.
  intros Hg H Hk Hv. gsplit m Hg H; [apply givesA, a2_SetColumn_spec|apply givesB, b_SetColumn_spec]; auto; apply VecIs_VTab; auto.
Qed.
Lemma m_SetRow_blk_ok b r c f k v g : MatIs (MBlk b) r c f -> 0 <= k < r -> VecIs (VArr v) c g ->
  gives (m_SetRow (MBlk b) k v) r c (rowset f k g).
Proof. intros H Hk Hv. apply givesB, b_SetRow_spec; auto; [apply MatIs_blk_inv; auto|apply VecIs_VTab; auto]. Qed.
Lemma m_SetRowVector_ok m r c f k v g : general m -> MatIs m r c f -> 0 <= k < r -> VecIs v c g ->
  (exists d, v = VArr d) \/ (exists a, m = MArr a) ->
  gives (m_SetRowVector m k v) r c (rowset f k g).
Proof.
  intros Hg H Hk Hv Hor. gsplit m Hg H.
  - apply givesA, a2_SetRowVector_spec; auto.
  - destruct Hor as [[d ->]|[a E]]; [|discriminate]. cbn [m_SetRowVector b_SetRowVector]. apply givesB, b_SetRow_spec; auto. apply VecIs_VTab; auto.
Qed.
Lemma m_SetColumnVector_ok m r c f k v g : general m -> MatIs m r c f -> 0 <= k < c -> VecIs v r g ->
  (exists d, v = VArr d) \/ (exists a, m = MArr a) ->
  gives (m_SetColumnVector m k v) r c (colset f k g).
Proof.
  intros Hg H Hk Hv Hor. gsplit m Hg H.
  - apply givesA, a2_SetColumnVector_spec; auto.
  - destruct Hor as [[d ->]|[a E]]; [|discriminate]. cbn [m_SetColumnVector b_SetColumnVector]. apply givesB, b_SetColumn_spec; auto. apply VecIs_VTab; auto.
Qed.
Lemma m_SetRowMatrix_ok m r c f k n g : general m -> MatIs m r c f -> 0 <= k < r -> MatIs n 1 c g ->
  gives (m_SetRowMatrix m k n) r c (rowset f k (g 0)).
Proof. intros Hg H Hk Hv. gsplit m Hg H; [apply givesA, a2_SetRowMatrix_spec|apply givesB, b_SetRowMatrix_spec]; auto. Qed.
Lemma m_SetColumnMatrix_ok m r c f k n g : general m -> MatIs m r c f -> 0 <= k < c -> MatIs n r 1 g ->
  gives (m_SetColumnMatrix m k n) r c (colset f k (fun i => g i 0)).
Proof. intros Hg H Hk Hv. gsplit m Hg H; [apply givesA, a2_SetColumnMatrix_spec|apply givesB, b_SetColumnMatrix_spec]; auto. Qed.
Lemma m_SetRow_arr_bad a r c f k v : MatIs (MArr a) r c f -> 1 <= k < r -> panics (m_SetRow (MArr a) k v).
Proof.
  intros H Hk. apply panA. unfold a2_SetRow. pose proof (MatIs_rows _ _ _ _ H) as Er. pose proof (MatIs_cols _ _ _ _ H) as Ec.
  rewrite checkRowIndex_ok by (rewrite Er; lia). cbn [bind orpanic]. cbn [m_cols] in Ec. rewrite Ec. cbn [bind].
  destruct (Z.eqb_spec (len v) c) as [Ev|]; [|eexists; reflexivity]. cbn [negb].
  apply MatIs_arr_inv in H. destruct H as (d & -> & Hr & Hc & HT). unfold a2_d. cbn [a2_data].
  destruct (RTab_row _ _ _ _ k HT ltac:(lia)) as (row & -> & Hl & _). cbn [bind].
  unfold slice_copy. rewrite Hl.
  destruct (Z.leb_spec (k + c) c); [lia|]. rewrite ?andb_false_r. eexists; reflexivity.
Qed.
Lemma m_SetRow_arr_0 a r c f v g : MatIs (MArr a) r c f -> VecIs (VArr v) c g ->
  gives (m_SetRow (MArr a) 0 v) r c (rowset f 0 g).
Proof.
  intros H Hv. apply givesA. apply VecIs_VTab in Hv. destruct Hv as [Hl Hv].
  unfold a2_SetRow. pose proof (MatIs_rows _ _ _ _ H) as Er. pose proof (MatIs_cols _ _ _ _ H) as Ec.
  pose proof (MatIs_arr_inv _ _ _ _ H) as (d & -> & Hr & Hc & HT).
  rewrite checkRowIndex_ok by (rewrite Er; lia). cbn [bind orpanic]. cbn [m_cols] in Ec. rewrite Ec. cbn [bind].
  rewrite Hl, Z.eqb_refl. cbn [negb]. unfold a2_d. cbn [a2_data].
  destruct (RTab_row _ _ _ _ 0 HT ltac:(lia)) as (row & -> & Hlr & _). cbn [bind].
  wpb. apply wp_slice_copy; try lia. intros row' Hl' Hr'.
  destruct (RTab_setrow d r c f 0 row' g HT ltac:(lia)) as (d' & -> & HT').
  - lia.
  - intros j Hj. rewrite Hr' by lia. replace (_ && _) with true by (symmetry; zb). rewrite <- Hv by lia. f_equal; lia.
  - cbn [bind]. apply wp_ok. apply MatIs_arr; auto.
Qed.
Lemma m_col_bad m r c f i x w : general m -> MatIs m r c f -> ~ (0 <= i < c) ->
  panics (m_ColumnAt m i) /\ panics (m_ColumnVectorAt m i) /\ panics (m_ColumnMatrixAt m i) /\
  panics (m_SetColumn m i x) /\ panics (m_SetColumnMatrix m i w).
Proof.
  intros Hg H Hi. pose proof (MatIs_cols _ _ _ _ H) as Er.
  assert (E : checkColumnIndex m i = Err EOutOfRange) by (apply (checkColumnIndex_err _ c); auto).
  destruct m as [a|b|d|? ? ?]; try contradiction;
  cbn [m_ColumnAt m_ColumnVectorAt m_ColumnMatrixAt m_SetColumn m_SetColumnMatrix];
  unfold a2_ColumnVectorAt, a2_ColumnAt, a2_ColumnMatrixAt, a2_SetColumn, a2_SetColumnMatrix,
    b_ColumnVectorAt, b_ColumnAt, b_ColumnMatrixAt, b_SetColumn, b_SetColumnMatrix, liftA, liftB;
  rewrite E; repeat split; eexists; reflexivity.
Qed.
End MatrixOps.

(** Properties C01-C05, C08-C13, C23: dense and block matrices.  [general m]:
    [m] is an Array2DRowRealMatrix or a BlockRealMatrix; [library m]: or a
    DiagonalMatrix.  [MatIs m r c f]: [m] is observably the r by c table [f].
    "Every O : Ops" includes IEEE float64. *)
From Coq Require Import ZArith List Lia Bool Permutation Floats.SpecFloat.
From Verif Require Import Base BaseLemmas Scalar Vector VecSpec Matrix Array2D BlockM Diagonal RealMatrixM MatSpec HistSpec MatrixOps MatHist MatProps Float64 ExampleOps.
Import ListNotations.
Open Scope Z_scope.

(** The concrete matrices of the examples: 2 by 3, and 60 by 55 (four blocks,
    none of them full in both directions but the first). *)
Definition exd := flss [[1; 2; 3]; [4; 5; 6]].
Definition exbig := map (fun i => map (fun j => fl (100 * i + j)) (range 0 55)) (range 0 60).
Definition onA {A} (d : list (list (@F E64))) (k : @RealMatrix E64 -> res A) : res A :=
  let* m := liftA (NewArray2DRowRealMatrixFromSlices (O := E64) (Some d) true) in k m.
Definition onB {A} (d : list (list (@F E64))) (k : @RealMatrix E64 -> res A) : res A :=
  let* m := liftB (NewBlockRealMatrixFromSlices (O := E64) d) in k m.

(** C01. *)
Theorem C01_block_table : forall (O : Ops) os b r c f, MatIs (MBlk b) r c f ->
  exists b', fst (e_run (MBlk b) os) = MBlk b' /\
  MatIs (MBlk b') r c (fst (e_table r c f os)) /\ snd (e_run (MBlk b) os) = snd (e_table r c f os).
Proof. exact (@block_table). Qed.
Print Assumptions C01_block_table.
Theorem C01_new_matrices : forall (O : Ops) r c, 1 <= r -> 1 <= c ->
  gives (liftB (NewBlockRealMatrix r c)) r c (fun _ _ => fzero) /\
  gives (liftA (NewArray2DRowRealMatrix r c)) r c (fun _ _ => fzero) /\
  gives (NewRealMatrixWithDimension r c) r c (fun _ _ => fzero).
Proof. exact (@new_zero). Qed.
Print Assumptions C01_new_matrices.
Example C01_ex :
  onB exbig (fun m => let '(m, acc) := e_run m [ESet 59 54 (fl 7); EAdd 59 54 (fl 3); EMul 59 54 (fl 2); ESet 60 0 (fl 1)] in
    let* x := m_At m 59 54 in let* y := m_At m 59 53 in Ok (x, y, acc)) = Ok (fl 20, fl 5953, [true; true; true; false]).
Proof. vm_compute. reflexivity. Qed.

(** C02: under every history of the listed operations a dense and a block
    matrix with the same entries stay alike, and alike matrices cannot be told
    apart by reading. *)
Theorem C02_interchangeable : forall (O : Ops) os m n, same m n -> Forall wf_op os -> same_res (o_run m os) (o_run n os).
Proof. exact (@o_run_same). Qed.
Print Assumptions C02_interchangeable.
Theorem C02_same_reads : forall (O : Ops) m n, same m n -> same_reads m n.
Proof. exact (@same_reads_ok). Qed.
Print Assumptions C02_same_reads.
(** Both follow the table specification. *)
Theorem C02_histories : forall (O : Ops) os m r c f, general m -> MatIs m r c f -> Forall wf_op os ->
  match o_tables (r, c, f) os with
  | Some (r', c', f') => gives (o_run m os) r' c' f'
  | None => panics (o_run m os)
  end.
Proof. exact (@o_run_ok). Qed.
Print Assumptions C02_histories.
Definition ex_hist : list (@mop E64) :=
  [OTranspose; OSetColumn 58 (fls (range 0 55)); OSetSub (flss [[1; 2]; [3; 4]]) 51 51; OSubMatrix 50 54 50 58; OScalarMultiply (fl 2)].
Example C02_ex : onA exbig (fun m => let* m := o_run m ex_hist in m_Data m) = onB exbig (fun m => let* m := o_run m ex_hist in m_Data m) /\
  onB exbig (fun m => let* m := o_run m ex_hist in let* x := m_At m 1 1 in let* y := m_At m 4 8 in let* z := m_At m 0 0 in Ok [x; y; z]) = Ok (fls [2; 108; 10100]) /\
  Forall wf_op ex_hist.
Proof. split; [|split]; [vm_compute; reflexivity..|repeat constructor]. Qed.

(** C03. *)
Theorem C03_from_slices : forall (O : Ops) d, good d ->
  (exists m, liftA (NewArray2DRowRealMatrixFromSlices (Some d) true) = Ok m /\
    MatIs m (len d) (len (nthZ d 0)) (fun i j => nthZ (nthZ d i) j) /\ m_Data m = Ok d) /\
  (exists m, liftA (NewArray2DRowRealMatrixFromSlices (Some d) false) = Ok m /\
    MatIs m (len d) (len (nthZ d 0)) (fun i j => nthZ (nthZ d i) j) /\ m_Data m = Ok d) /\
  (exists m, liftB (NewBlockRealMatrixFromSlices d) = Ok m /\
    MatIs m (len d) (len (nthZ d 0)) (fun i j => nthZ (nthZ d i) j) /\ m_Data m = Ok d) /\
  (exists m, NewRealMatrixFromSlices (Some d) = Ok m /\
    MatIs m (len d) (len (nthZ d 0)) (fun i j => nthZ (nthZ d i) j) /\ m_Data m = Ok d).
Proof. exact (@fromslices_ok). Qed.
Print Assumptions C03_from_slices.
Theorem C03_rejected : forall (O : Ops) d, ~ good d ->
  rejects (NewArray2DRowRealMatrixFromSlices (Some d) true) /\ rejects (NewArray2DRowRealMatrixFromSlices (Some d) false) /\
  rejects (NewBlockRealMatrixFromSlices d) /\ rejects (NewRealMatrixFromSlices (Some d)).
Proof. exact (@fromslices_bad). Qed.
Print Assumptions C03_rejected.
Theorem C03_nil_rejected : forall (O : Ops),
  rejects (NewArray2DRowRealMatrixFromSlices None true) /\ rejects (NewArray2DRowRealMatrixFromSlices None false) /\
  rejects (NewRealMatrixFromSlices None).
Proof. exact (@fromslices_nil). Qed.
Print Assumptions C03_nil_rejected.
Example C03_ex : good exbig /\ ~ good (flss [[1; 2]; [3]]) /\ ~ good (O := E64) [] /\ ~ good (O := E64) [[]] /\
  onB exbig (fun m => m_Data m) = Ok exbig.
Proof.
  split; [split; [vm_compute; discriminate|split; [vm_compute; discriminate|vm_compute; reflexivity]]|].
  split; [intros (_ & _ & H); vm_compute in H; discriminate|].
  split; [intros (H & _); vm_compute in H; auto|].
  split; [intros (_ & H & _); vm_compute in H; auto|]. vm_compute. reflexivity.
Qed.

(** C04 (dense and block; diagonal matrices in P_Diag). *)
Theorem C04_transpose : forall (O : Ops) m r c f, general m -> MatIs m r c f ->
  wp (m_Transpose m) (fun t => general t /\ MatIs t c r (fun i j => f j i) /\ gives (m_Transpose t) r c f).
Proof. exact (@transpose_both). Qed.
Print Assumptions C04_transpose.
Example C04_ex : onA exd (fun m => let* t := m_Transpose m in m_Data t) = Ok (flss [[1; 4]; [2; 5]; [3; 6]]).
Proof. vm_compute. reflexivity. Qed.

(** C05: [n] is any implementation, a foreign one included. *)
Theorem C05_entrywise : forall (O : Ops) m n r c f g x, general m -> MatIs m r c f -> MatIs n r c g ->
  gives (m_Add m n) r c (fun i j => (f i j + g i j)%f) /\ gives (m_Subtract m n) r c (fun i j => (f i j - g i j)%f) /\
  gives (m_ScalarAdd m x) r c (fun i j => (f i j + x)%f) /\ gives (m_ScalarMultiply m x) r c (fun i j => (f i j * x)%f).
Proof. exact (@arith_all). Qed.
Print Assumptions C05_entrywise.
Theorem C05_mismatch : forall (O : Ops) m n r c f r' c' g, library m -> MatIs m r c f -> MatIs n r' c' g -> r <> r' \/ c <> c' ->
  panics (m_Add m n) /\ panics (m_Subtract m n).
Proof. exact (@m_Add_bad). Qed.
Print Assumptions C05_mismatch.
Example C05_ex : onB exd (fun m => onA exd (fun n => let* s := m_Add m n in m_Data s)) = Ok (flss [[2; 4; 6]; [8; 10; 12]]).
Proof. vm_compute. reflexivity. Qed.

(** C08, refuted: every dense or block matrix panics on a RealVector that is
    not an *ArrayRealVector, also one that holds the same values. *)
Theorem C08_any_vector_refuted : forall (O : Ops) m r c f w, general m -> MatIs m r c f ->
  panics (m_OperateVector m (VOther w)) /\ panics (m_PreMultiplyVector m (VOther w)).
Proof. exact (@foreign_panics). Qed.
Print Assumptions C08_any_vector_refuted.
Example C08_ex : onA exd (fun m => let* w := m_OperateVector m (VArr (fls [1; 0; 2])) in Ok (v_data w)) = Ok (fls [7; 16]) /\
  onA exd (fun m => let* w := m_OperateVector m (VOther (fls [1; 0; 2])) in Ok (v_data w)) = Panic ERuntime.
Proof. vm_compute. auto. Qed.

(** C09 (dense and block). *)
Theorem C09_submatrix : forall (O : Ops) m r c f r0 r1 c0 c1, general m -> MatIs m r c f ->
  (0 <= r0 <= r1 -> r1 < r -> 0 <= c0 <= c1 -> c1 < c ->
   gives (m_SubMatrix m r0 r1 c0 c1) (r1 - r0 + 1) (c1 - c0 + 1) (fun i j => f (r0 + i) (c0 + j))) /\
  (~ (0 <= r0 <= r1 /\ r1 < r /\ 0 <= c0 <= c1 /\ c1 < c) -> panics (m_SubMatrix m r0 r1 c0 c1)).
Proof. exact (@submatrix_all). Qed.
Print Assumptions C09_submatrix.
Example C09_ex : onB exbig (fun m => let* s := m_SubMatrix m 51 53 50 52 in m_Data s)
  = Ok (flss [[5150; 5151; 5152]; [5250; 5251; 5252]; [5350; 5351; 5352]]).
Proof. vm_compute. reflexivity. Qed.

(** C10 (dense and block). *)
Theorem C10_set_submatrix : forall (O : Ops) m r c f d row column, general m -> MatIs m r c f ->
  (good d -> fits d row column r c ->
   gives (m_SetSubMatrix m (Some d) row column) r c (fun i j =>
     if (row <=? i) && (i <? row + len d) && (column <=? j) && (j <? column + len (nthZ d 0))
     then nthZ (nthZ d (i - row)) (j - column) else f i j)) /\
  (~ (good d /\ fits d row column r c) -> panics (m_SetSubMatrix m (Some d) row column)) /\
  panics (m_SetSubMatrix m None row column).
Proof. exact (@setsub_all). Qed.
Print Assumptions C10_set_submatrix.
Example C10_ex : onB exbig (fun m => let* m := m_SetSubMatrix m (Some exd) 51 50 in let* s := m_SubMatrix m 50 52 51 53 in m_Data s)
  = Ok (flss [[5051; 5052; 5053]; [2; 3; 5153]; [5; 6; 5253]]).
Proof. vm_compute. reflexivity. Qed.

(** C11: reading rows and columns. *)
Theorem C11_rows : forall (O : Ops) m r c f i, library m -> MatIs m r c f -> 0 <= i < r ->
  wp (m_RowAt m i) (fun v => VecIs (VArr v) c (fun j => f i j)) /\
  wp (m_RowVectorAt m i) (fun v => VecIs v c (fun j => f i j)).
Proof. exact (@rows_read). Qed.
Print Assumptions C11_rows.
Theorem C11_columns : forall (O : Ops) m r c f j, library m -> MatIs m r c f -> 0 <= j < c ->
  wp (m_ColumnAt m j) (fun v => VecIs (VArr v) r (fun i => f i j)) /\
  wp (m_ColumnVectorAt m j) (fun v => VecIs v r (fun i => f i j)).
Proof. exact (@columns_read). Qed.
Print Assumptions C11_columns.
Theorem C11_row_and_column_matrices : forall (O : Ops) m r c f, general m -> MatIs m r c f ->
  (forall i, 0 <= i < r -> gives (m_RowMatrixAt m i) 1 c (fun _ j => f i j)) /\
  (forall j, 0 <= j < c -> gives (m_ColumnMatrixAt m j) r 1 (fun i _ => f i j)).
Proof. exact (@row_matrices). Qed.
Print Assumptions C11_row_and_column_matrices.
(** C11, writing: partial, SetRow is missing (refuted below for the dense
    matrix), as are foreign vectors (the block matrix panics on them). *)
Theorem C11_set_rows_partial : forall (O : Ops) m r c f k, general m -> MatIs m r c f -> 0 <= k < r ->
  (forall v g, VecIs (VArr v) c g -> gives (m_SetRowVector m k (VArr v)) r c (rowset f k g)) /\
  (forall n g, MatIs n 1 c g -> gives (m_SetRowMatrix m k n) r c (rowset f k (g 0))).
Proof. exact (@rows_write). Qed.
Print Assumptions C11_set_rows_partial.
Theorem C11_set_columns : forall (O : Ops) m r c f k, general m -> MatIs m r c f -> 0 <= k < c ->
  (forall v g, VecIs (VArr v) r g -> gives (m_SetColumn m k v) r c (colset f k g)) /\
  (forall v g, VecIs (VArr v) r g -> gives (m_SetColumnVector m k (VArr v)) r c (colset f k g)) /\
  (forall n g, MatIs n r 1 g -> gives (m_SetColumnMatrix m k n) r c (colset f k (fun i => g i 0))).
Proof. exact (@columns_write). Qed.
Print Assumptions C11_set_columns.
Theorem C11_set_row_block : forall (O : Ops) b r c f k v g, MatIs (MBlk b) r c f -> 0 <= k < r -> VecIs (VArr v) c g ->
  gives (m_SetRow (MBlk b) k v) r c (rowset f k g).
Proof. exact (@m_SetRow_blk_ok). Qed.
Print Assumptions C11_set_row_block.
(** The dense SetRow works for row 0 only and panics for every other row. *)
Theorem C11_set_row_dense_refuted : forall (O : Ops) a r c f k v, MatIs (MArr a) r c f -> 1 <= k < r ->
  panics (m_SetRow (MArr a) k v).
Proof. exact (@m_SetRow_arr_bad). Qed.
Print Assumptions C11_set_row_dense_refuted.
Theorem C11_set_row_dense_partial : forall (O : Ops) a r c f v g, MatIs (MArr a) r c f -> VecIs (VArr v) c g ->
  gives (m_SetRow (MArr a) 0 v) r c (rowset f 0 g).
Proof. exact (@m_SetRow_arr_0). Qed.
Print Assumptions C11_set_row_dense_partial.
Theorem C11_bad_arguments : forall (O : Ops) m r c f k, general m -> MatIs m r c f ->
  (~ (0 <= k < r) -> panics (m_RowAt m k) /\ panics (m_RowVectorAt m k) /\ panics (m_RowMatrixAt m k)) /\
  (~ (0 <= k < c) -> panics (m_ColumnAt m k) /\ panics (m_ColumnVectorAt m k) /\ panics (m_ColumnMatrixAt m k)) /\
  (forall v, ~ (0 <= k < r /\ len v = c) -> panics (m_SetRow m k v) /\ panics (m_SetRowVector m k (VArr v))) /\
  (forall v, ~ (0 <= k < c /\ len v = r) -> panics (m_SetColumn m k v) /\ panics (m_SetColumnVector m k (VArr v))) /\
  (forall n r' c' g, MatIs n r' c' g -> ~ (0 <= k < r /\ r' = 1 /\ c' = c) -> panics (m_SetRowMatrix m k n)) /\
  (forall n r' c' g, MatIs n r' c' g -> ~ (0 <= k < c /\ r' = r /\ c' = 1) -> panics (m_SetColumnMatrix m k n)).
Proof. exact (@lines_bad). Qed.
Print Assumptions C11_bad_arguments.
Example C11_ex : onB exd (fun m => let* m := m_SetRow m 1 (fls [7; 8; 9]) in m_Data m) = Ok (flss [[1; 2; 3]; [7; 8; 9]]) /\
  onA exd (fun m => let* m := m_SetRow m 1 (fls [7; 8; 9]) in m_Data m) = Panic ERuntime /\
  onA exd (fun m => let* m := m_SetColumn m 1 (fls [7; 8]) in m_Data m) = Ok (flss [[1; 7; 3]; [4; 8; 6]]) /\
  onA exd (fun m => m_ColumnAt m 2) = Ok (fls [3; 6]).
Proof. vm_compute. auto. Qed.

(** C12: the order lists have every cell of the window once. *)
Theorem C12_orders : forall r0 r1 c0 c1, NoDup (row_order r0 r1 c0 c1) /\
  (forall i j, In (i, j) (row_order r0 r1 c0 c1) <-> r0 <= i <= r1 /\ c0 <= j <= c1) /\
  Permutation (column_order r0 r1 c0 c1) (row_order r0 r1 c0 c1).
Proof. exact (fun r0 r1 c0 c1 => conj (NoDup_row_order r0 r1 c0 c1) (conj (WalkFacts.in_row_order r0 r1 c0 c1) (column_order_perm r0 r1 c0 c1))). Qed.
Print Assumptions C12_orders.
Theorem C12_walks : forall (O : Ops) (St : Type) m r c f (v : MatVisitor St) st, library m -> MatIs m r c f ->
  m_Walk RowOrder m v st = read_result v (row_order 0 (r - 1) 0 (c - 1)) f (mv_start v r c 0 (r - 1) 0 (c - 1) st) /\
  m_Walk ColumnOrder m v st = read_result v (column_order 0 (r - 1) 0 (c - 1)) f (mv_start v r c 0 (r - 1) 0 (c - 1) st) /\
  (exists cs, Permutation cs (row_order 0 (r - 1) 0 (c - 1)) /\
     m_Walk OptimizedOrder m v st = read_result v cs f (mv_start v r c 0 (r - 1) 0 (c - 1) st)).
Proof. exact (@walks_all). Qed.
Print Assumptions C12_walks.
Theorem C12_walks_bounded : forall (O : Ops) (St : Type) m r c f (v : MatVisitor St) r0 r1 c0 c1 st, library m -> MatIs m r c f ->
  0 <= r0 <= r1 -> r1 < r -> 0 <= c0 <= c1 -> c1 < c ->
  m_WalkBounded RowOrder m v r0 r1 c0 c1 st = read_result v (row_order r0 r1 c0 c1) f (mv_start v r c r0 r1 c0 c1 st) /\
  m_WalkBounded ColumnOrder m v r0 r1 c0 c1 st = read_result v (column_order r0 r1 c0 c1) f (mv_start v r c r0 r1 c0 c1 st) /\
  (exists cs, Permutation cs (row_order r0 r1 c0 c1) /\
     m_WalkBounded OptimizedOrder m v r0 r1 c0 c1 st = read_result v cs f (mv_start v r c r0 r1 c0 c1 st)).
Proof. exact (@walks_bounded_all). Qed.
Print Assumptions C12_walks_bounded.
Theorem C12_bad_window : forall (O : Ops) (St : Type) o m r c f (v : MatVisitor St) r0 r1 c0 c1 st, general m -> MatIs m r c f ->
  ~ (0 <= r0 <= r1 /\ r1 < r /\ 0 <= c0 <= c1 /\ c1 < c) ->
  panics (m_WalkBounded o m v r0 r1 c0 c1 st) /\ panics (m_WalkUpdateBounded o m v r0 r1 c0 c1 st).
Proof. exact (@m_walk_bad). Qed.
Print Assumptions C12_bad_window.
(** A visitor that writes down what it is shown. *)
Definition recorder : MatVisitor (O := E64) (list Z * list (Z * Z * @F E64)) :=
  mkMatVisitor (O := E64) (fun r c r0 r1 c0 c1 _ => ([r; c; r0; r1; c0; c1], [])) (fun i j x '(s, l) => Ok (x, (s, l ++ [(i, j, x)]))) (fun '(s, l) => fl (len l)).
Example C12_ex : onB exd (fun m => m_WalkBounded ColumnOrder m recorder 0 1 1 2 ([], []))
  = Ok (([2; 3; 0; 1; 1; 2], [((0, 1), fl 2); ((1, 1), fl 5); ((0, 2), fl 3); ((1, 2), fl 6)]), fl 4).
Proof. vm_compute. reflexivity. Qed.

(** C13. *)
Theorem C13_update_walks : forall (O : Ops) (St : Type) m r c f (v : MatVisitor St) st, general m -> MatIs m r c f ->
  updates (m_WalkUpdate RowOrder m v st) v r c (row_order 0 (r - 1) 0 (c - 1)) f (mv_start v r c 0 (r - 1) 0 (c - 1) st) /\
  updates (m_WalkUpdate ColumnOrder m v st) v r c (column_order 0 (r - 1) 0 (c - 1)) f (mv_start v r c 0 (r - 1) 0 (c - 1) st) /\
  (exists cs, Permutation cs (row_order 0 (r - 1) 0 (c - 1)) /\
     updates (m_WalkUpdate OptimizedOrder m v st) v r c cs f (mv_start v r c 0 (r - 1) 0 (c - 1) st)).
Proof. exact (@update_walks_all). Qed.
Print Assumptions C13_update_walks.
Theorem C13_update_walks_bounded : forall (O : Ops) (St : Type) m r c f (v : MatVisitor St) r0 r1 c0 c1 st, general m -> MatIs m r c f ->
  0 <= r0 <= r1 -> r1 < r -> 0 <= c0 <= c1 -> c1 < c ->
  updates (m_WalkUpdateBounded RowOrder m v r0 r1 c0 c1 st) v r c (row_order r0 r1 c0 c1) f (mv_start v r c r0 r1 c0 c1 st) /\
  updates (m_WalkUpdateBounded ColumnOrder m v r0 r1 c0 c1 st) v r c (column_order r0 r1 c0 c1) f (mv_start v r c r0 r1 c0 c1 st) /\
  (exists cs, Permutation cs (row_order r0 r1 c0 c1) /\
     updates (m_WalkUpdateBounded OptimizedOrder m v r0 r1 c0 c1 st) v r c cs f (mv_start v r c r0 r1 c0 c1 st)).
Proof. exact (@update_walks_bounded_all). Qed.
Print Assumptions C13_update_walks_bounded.
(** In particular, for a visitor without state the window is mapped and the
    rest stays. *)
Theorem C13_map_window : forall (O : Ops) (h : Z -> Z -> F -> F) o m r c f r0 r1 c0 c1, general m -> MatIs m r c f ->
  0 <= r0 <= r1 -> r1 < r -> 0 <= c0 <= c1 -> c1 < c ->
  wp (m_WalkUpdateBounded o m (pure_visitor h) r0 r1 c0 c1 tt) (fun '(m', _, _) => general m' /\
    MatIs m' r c (fun i j => if (r0 <=? i) && (i <=? r1) && (c0 <=? j) && (j <=? c1) then h i j (f i j) else f i j)).
Proof. exact (@update_walk_pure). Qed.
Print Assumptions C13_map_window.
Example C13_ex : onB exd (fun m => let* (m, _, _) := m_WalkUpdateBounded OptimizedOrder m (pure_visitor (O := E64) (fun i j x => fl (10 * i + j))) 0 1 0 1 tt in m_Data m)
  = Ok (flss [[0; 1; 3]; [10; 11; 6]]).
Proof. vm_compute. reflexivity. Qed.

(** C23: Equals on matrices, for any arithmetic and implementations, and the
    equivalence laws for float64. *)
Theorem C23_matrix_equals : forall (O : Ops) m n r c f r' c' g, library m -> MatIs m r c f -> MatIs n r' c' g ->
  exists e, m_Equals m false (Some n) = Ok e /\
  (e = true <-> r' = r /\ c' = c /\ forall i j, 0 <= i < r -> 0 <= j < c -> feq (f i j) (g i j) = true).
Proof. exact (@m_Equals_ok). Qed.
Print Assumptions C23_matrix_equals.
Theorem C23_matrix_reflexive : forall c m r k (f : Z -> Z -> @F (SFOps c)), library m -> MatIs m r k f ->
  (forall i j, 0 <= i < r -> 0 <= j < k -> sf_isnan (f i j) = false) -> m_Equals m false (Some m) = Ok true.
Proof. exact mequals_refl. Qed.
Print Assumptions C23_matrix_reflexive.
Theorem C23_matrix_symmetric : forall c (m n : RealMatrix (O := SFOps c)), library m -> library n ->
  (exists r k f, MatIs m r k f) -> (exists r k f, MatIs n r k f) -> m_Equals m false (Some n) = m_Equals n false (Some m).
Proof. exact mequals_sym. Qed.
Print Assumptions C23_matrix_symmetric.
Theorem C23_matrix_transitive : forall c (m n p : RealMatrix (O := SFOps c)), library m -> library n ->
  (exists r k f, MatIs m r k f) -> (exists r k f, MatIs n r k f) -> (exists r k f, MatIs p r k f) ->
  m_Equals m false (Some n) = Ok true -> m_Equals n false (Some p) = Ok true -> m_Equals m false (Some p) = Ok true.
Proof. exact mequals_trans. Qed.
Print Assumptions C23_matrix_transitive.
Example C23_ex : onA exd (fun m => onB exd (fun n => m_Equals m false (Some n))) = Ok true /\
  onA exd (fun m => onB (flss [[1; 2; 3]; [4; 5; 7]]) (fun n => m_Equals m false (Some n))) = Ok false /\
  onA [[nzero64]] (fun m => onB [[fl 0]] (fun n => m_Equals m false (Some n))) = Ok true /\
  onA [[NaN64]] (fun m => m_Equals m false (Some m)) = Ok false.
Proof. vm_compute. auto. Qed.

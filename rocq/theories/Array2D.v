(** Model of /repo/array_2d_row_real_matrix.go (entry access is in Matrix.v). *)
From Coq Require Import ZArith List Lia Bool.
From Verif Require Import Base Scalar Vector Matrix.
Import ListNotations.
Open Scope Z_scope.

Section Array2D.
Context {O : Ops}.

(** A nil slice reads as an empty one. *)
Definition a2_d (a : A2D) : mat := match a2_data a with None => [] | Some d => d end.

(** [data := make([][]float64, r); for i { data[i] = make([]float64, c) }] *)
Definition make2 (r c : Z) : res mat :=
  let* data := make [] r in
  for_ 0 r (fun i data => let* row := make fzero c in zset data i row) data.

(** NewArray2DRowRealMatrix: array_2d_row_real_matrix.go:24-38. *)
Definition NewArray2DRowRealMatrix (rowDimension columnDimension : Z) : res A2D :=
  if rowDimension <? 1 then Err ENotStrictlyPositive else
  if columnDimension <? 1 then Err ENotStrictlyPositive else
  let* data := make2 rowDimension columnDimension in
  Ok (mkA2D (Some data)).

(** SetSubMatrix: array_2d_row_real_matrix.go:278-343; [None] is nil. *)
Definition a2_SetSubMatrix (a : A2D) (subMatrix : option mat) (row column : Z) : res A2D :=
  match subMatrix with
  | None => Panic EInvalidArgument
  | Some sub =>
    let nRows := len sub in
    if nRows =? 0 then Panic ENoData else
    let* sub0 := zget sub 0 in
    let nCols := len sub0 in
    if nCols =? 0 then Panic ENoData else
    match a2_data a with
    | None =>
        if 0 <? row then Panic EIllegalState else
        if 0 <? column then Panic EIllegalState else
        let* data := make [] (len sub) in
        let* data := for_ 0 nRows (fun i data => let* r := make fzero nCols in zset data i r) data in
        let* data := for_ 0 (len data) (fun i data =>
          let* si := zget sub i in
          if negb (len si =? nCols) then Panic EDimMismatch else
          let* r := zget data (i + row) in
          let* r := slice_copy r column (column + nCols) si 0 nCols in
          zset data (i + row) r) data in
        Ok (mkA2D (Some data))
    | Some _ =>
        let* _ := for_ 1 nRows (fun r _ =>
          let* sr := zget sub r in
          if negb (len sr =? nCols) then Panic EDimMismatch else Ok tt) tt in
        let* _ := orpanic (checkRowIndex (MArr a) row) in
        let* _ := orpanic (checkColumnIndex (MArr a) column) in
        let* _ := orpanic (checkRowIndex (MArr a) (nRows + row - 1)) in
        let* _ := orpanic (checkColumnIndex (MArr a) (nCols + column - 1)) in
        for_ 0 nRows (fun i a =>
          for_ 0 nCols (fun j a =>
            let* x := mget sub i j in
            a2_SetEntry a (row + i) (column + j) x) a) a
    end
  end.

(** copyIn: array_2d_row_real_matrix.go:274-276. *)
Definition a2_copyIn (a : A2D) (inp : option mat) : res A2D := a2_SetSubMatrix a inp 0 0.

(** copyOut: array_2d_row_real_matrix.go:681-689. *)
Definition a2_copyOut (a : A2D) : res mat :=
  let nRows := a2_rows a in
  let* out := make [] nRows in
  for_ 0 nRows (fun i out =>
    let* c := a2_cols a in
    let* r := make fzero c in
    let* di := zget (a2_d a) i in
    let* r := slice_copy r 0 (len di) di 0 (len di) in
    zset out i r) out.

(** NewArray2DRowRealMatrixFromSlices: array_2d_row_real_matrix.go:40-65
    (sharing is not visible here). *)
Definition NewArray2DRowRealMatrixFromSlices (data : option mat) (copyArray : bool) : res A2D :=
  if copyArray then a2_copyIn (mkA2D None) data
  else match data with
  | None => Err EInvalidArgument
  | Some d =>
      let nRows := len d in
      if nRows =? 0 then Err ENoData else
      let* d0 := zget d 0 in
      let nCols := len d0 in
      if nCols =? 0 then Err ENoData else
      let* _ := for_ 1 nRows (fun r _ =>
        let* dr := zget d r in
        if negb (len dr =? nCols) then Err EDimMismatch else Ok tt) tt in
      Ok (mkA2D (Some d))
  end.

(** NewArray2DRowRealMatrixFromSlice: array_2d_row_real_matrix.go:67-85. *)
Definition NewArray2DRowRealMatrixFromSlice (v : option vec) : res A2D :=
  match v with
  | None => Err EInvalidArgument
  | Some v =>
      let nRows := len v in
      let* data := make [] nRows in
      let* data := for_ 0 nRows (fun i data => let* r := make fzero 1 in zset data i r) data in
      let* data := for_ 0 nRows (fun row data => let* x := zget v row in mset data row 0 x) data in
      Ok (mkA2D (Some data))
  end.

(** Copy: array_2d_row_real_matrix.go:87-91. *)
Definition a2_Copy (a : A2D) : res A2D :=
  let* out := a2_copyOut a in a2_copyIn (mkA2D None) (Some out).

(** Data: array_2d_row_real_matrix.go:266-268. *)
Definition a2_Data (a : A2D) : res mat := a2_copyOut a.

(** Add: array_2d_row_real_matrix.go:93-132. *)
Definition a2_Add (a : A2D) (m : RealMatrix) : res A2D :=
  let* _ := orpanic (checkAdditionCompatible (MArr a) m) in
  match m with
  | MArr ma =>
      let rowCount := a2_rows a in
      let* columnCount := a2_cols a in
      let* outData := make [] rowCount in
      let* outData := for_ 0 rowCount (fun row outData =>
        let* dataRow := zget (a2_d a) row in
        let* mRow := zget (a2_d ma) row in
        let* outDataRow := make fzero columnCount in
        let* outDataRow := for_ 0 columnCount (fun col outDataRow =>
          let* x := zget dataRow col in
          let* y := zget mRow col in
          zset outDataRow col (x + y)%f) outDataRow in
        zset outData row outDataRow) outData in
      Ok (mkA2D (Some outData))
  | _ =>
      let rowCount := a2_rows a in
      let* columnCount := a2_cols a in
      let* outData := make [] rowCount in
      let* outData := for_ 0 rowCount (fun row outData =>
        let* dataRow := zget (a2_d a) row in
        let* outDataRow := make fzero columnCount in
        let* outDataRow := for_ 0 columnCount (fun col outDataRow =>
          let* x := zget dataRow col in
          let* y := m_At m row col in
          zset outDataRow col (x + y)%f) outDataRow in
        zset outData row outDataRow) outData in
      Ok (mkA2D (Some outData))
  end.

(** Subtract: array_2d_row_real_matrix.go:134-172. *)
Definition a2_Subtract (a : A2D) (m : RealMatrix) : res A2D :=
  let* _ := orpanic (checkAdditionCompatible (MArr a) m) in
  match m with
  | MArr ma =>
      let rowCount := a2_rows a in
      let* columnCount := a2_cols a in
      let* outData := make [] rowCount in
      let* outData := for_ 0 rowCount (fun row outData =>
        let* dataRow := zget (a2_d a) row in
        let* mRow := zget (a2_d ma) row in
        let* outDataRow := make fzero columnCount in
        let* outDataRow := for_ 0 columnCount (fun col outDataRow =>
          let* x := zget dataRow col in
          let* y := zget mRow col in
          zset outDataRow col (x - y)%f) outDataRow in
        zset outData row outDataRow) outData in
      Ok (mkA2D (Some outData))
  | _ =>
      let rowCount := a2_rows a in
      let* columnCount := a2_cols a in
      let* outData := make [] rowCount in
      let* outData := for_ 0 rowCount (fun row outData =>
        let* dataRow := zget (a2_d a) row in
        let* outDataRow := make fzero columnCount in
        let* outDataRow := for_ 0 columnCount (fun col outDataRow =>
          let* x := zget dataRow col in
          let* y := m_At m row col in
          zset outDataRow col (x - y)%f) outDataRow in
        zset outData row outDataRow) outData in
      Ok (mkA2D (Some outData))
  end.

(** Multiply: array_2d_row_real_matrix.go:174-230.  In the first branch a row
    of [outData] is nil ([None]) until its first column is written. *)
Definition a2_Multiply (a : A2D) (m : RealMatrix) : res A2D :=
  let* _ := orpanic (checkMultiplicationCompatible (MArr a) m) in
  match m with
  | MArr ma =>
      let nRows := a2_rows a in
      let* nCols := a2_cols ma in
      let* nSum := a2_cols a in
      let* outData := make None nRows in
      let* mCol := make fzero nSum in
      let* (outData, mCol) := for_ 0 nCols (fun col '(outData, mCol) =>
        let* mCol := for_ 0 nSum (fun mRow mCol =>
          let* x := mget (a2_d ma) mRow col in zset mCol mRow x) mCol in
        let* outData := for_ 0 nRows (fun row outData =>
          let* sum := for_ 0 nSum (fun i sum =>
            let* x := mget (a2_d a) row i in
            let* y := zget mCol i in Ok (sum + x * y)%f) fzero in
          let* o := zget outData row in
          let* r := match o with None => make fzero nCols | Some r => Ok r end in
          let* r := zset r col sum in
          zset outData row (Some r)) outData in
        Ok (outData, mCol)) (outData, mCol) in
      Ok (mkA2D (Some (map (fun o => match o with None => [] | Some r => r end) outData)))
  | _ =>
      let nRows := a2_rows a in
      let* nCols := m_cols m in
      let* nSum := a2_cols a in
      let* outData := make [] nRows in
      let* outData := for_ 0 nRows (fun row outData =>
        let* outRow := make fzero nCols in
        let* dataRow := zget (a2_d a) row in
        let* outRow := for_ 0 nCols (fun col outRow =>
          let* sum := for_ 0 nSum (fun i sum =>
            let* x := zget dataRow i in
            let* y := m_At m i col in Ok (sum + x * y)%f) fzero in
          zset outRow col sum) outRow in
        zset outData row outRow) outData in
      Ok (mkA2D (Some outData))
  end.

(** ScalarAdd, ScalarMultiply: array_2d_row_real_matrix.go:232-264. *)
Definition a2_ScalarAdd (a : A2D) (d : F) : res A2D :=
  let rowCount := a2_rows a in
  let* columnCount := a2_cols a in
  let* outData := make [] rowCount in
  let* outData := for_ 0 rowCount (fun row outData =>
    let* r := make fzero columnCount in
    let* r := for_ 0 columnCount (fun col r =>
      let* x := mget (a2_d a) row col in zset r col (x + d)%f) r in
    zset outData row r) outData in
  Ok (mkA2D (Some outData)).
Definition a2_ScalarMultiply (a : A2D) (d : F) : res A2D :=
  let rowCount := a2_rows a in
  let* columnCount := a2_cols a in
  let* outData := make [] rowCount in
  let* outData := for_ 0 rowCount (fun row outData =>
    let* r := make fzero columnCount in
    let* r := for_ 0 columnCount (fun col r =>
      let* x := mget (a2_d a) row col in zset r col (x * d)%f) r in
    zset outData row r) outData in
  Ok (mkA2D (Some outData)).

(** ColumnAt, SetColumn: array_2d_row_real_matrix.go:352-376. *)
Definition a2_ColumnAt (a : A2D) (column : Z) : res vec :=
  let* _ := orpanic (checkColumnIndex (MArr a) column) in
  let nRows := a2_rows a in
  let* out := make fzero nRows in
  for_ 0 nRows (fun i out => let* x := mget (a2_d a) i column in zset out i x) out.
Definition a2_SetColumn (a : A2D) (column : Z) (array : vec) : res A2D :=
  let* _ := orpanic (checkColumnIndex (MArr a) column) in
  let nRows := a2_rows a in
  if negb (len array =? nRows) then Panic EMatDimMismatch else
  let* d := for_ 0 nRows (fun i d => let* x := zget array i in mset d i column x) (a2_d a) in
  Ok (mkA2D (Some d)).

(** Transpose: array_2d_row_real_matrix.go:418-434. *)
Definition a2_Transpose (a : A2D) : res A2D :=
  let nRows := a2_rows a in
  let* nCols := a2_cols a in
  let* data := make [] nCols in
  let* data := for_ 0 (len data) (fun i data => let* r := make fzero nRows in zset data i r) data in
  let* data := for_ 0 nRows (fun i data =>
    for_ 0 nCols (fun j data =>
      let* x := mget (a2_d a) i j in mset data j i x) data) data in
  Ok (mkA2D (Some data)).

(** Trace: array_2d_row_real_matrix.go:436-447. *)
Definition a2_Trace (a : A2D) : res F :=
  let nRows := a2_rows a in
  let* nCols := a2_cols a in
  if negb (nRows =? nCols) then Panic ENonSquare else
  for_ 0 nRows (fun i trace => let* x := mget (a2_d a) i i in Ok (trace + x)%f) fzero.

(** Operate: array_2d_row_real_matrix.go:449-464. *)
Definition a2_Operate (a : A2D) (v : vec) : res vec :=
  let nRows := a2_rows a in
  let* nCols := a2_cols a in
  if negb (len v =? nCols) then Panic EDimMismatch else
  let* out := make fzero nRows in
  for_ 0 nRows (fun row out =>
    let* sum := for_ 0 nCols (fun i sum =>
      let* x := mget (a2_d a) row i in
      let* y := zget v i in Ok (sum + x * y)%f) fzero in
    zset out row sum) out.

(** OperateVector: array_2d_row_real_matrix.go:466-490.  In the else branch
    [v] is the nil *ArrayRealVector of the failed assertion, so
    [v.Dimension()] dereferences nil. *)
Definition a2_OperateVector (a : A2D) (v : RealVector) : res RealVector :=
  match v with
  | VArr d => let* out := a2_Operate a d in Ok (VArr out)
  | VOther _ => let* _ := a2_cols a in Panic ERuntime
  end.

(** PreMultiply: array_2d_row_real_matrix.go:522-540. *)
Definition a2_PreMultiply (a : A2D) (v : vec) : res vec :=
  let nRows := a2_rows a in
  let* nCols := a2_cols a in
  if negb (len v =? nRows) then Panic EDimMismatch else
  let* out := make fzero nCols in
  for_ 0 nCols (fun col out =>
    let* sum := for_ 0 nRows (fun i sum =>
      let* x := mget (a2_d a) i col in
      let* y := zget v i in Ok (sum + x * y)%f) fzero in
    zset out col sum) out.

(** PreMultiplyVector: array_2d_row_real_matrix.go:496-520 (nil dereference as
    in OperateVector). *)
Definition a2_PreMultiplyVector (a : A2D) (v : RealVector) : res RealVector :=
  match v with
  | VArr d => let* out := a2_PreMultiply a d in Ok (VArr ([] ++ out))
  | VOther _ => let* _ := a2_cols a in Panic ERuntime
  end.

(** SubMatrix: array_2d_row_real_matrix.go:542-557. *)
Definition a2_SubMatrix (a : A2D) (startRow endRow startColumn endColumn : Z) : res A2D :=
  let* _ := orpanic (checkSubMatrixIndex (MArr a) startRow endRow startColumn endColumn) in
  let rowCount := endRow - startRow + 1 in
  let columnCount := endColumn - startColumn + 1 in
  let* outData := make [] rowCount in
  let* outData := for_ 0 rowCount (fun i outData =>
    let* r := make fzero columnCount in
    let* src := zget (a2_d a) (startRow + i) in
    let* r := slice_copy r 0 columnCount src startColumn (startColumn + columnCount) in
    zset outData i r) outData in
  Ok (mkA2D (Some outData)).

(** [visitor.Visit(i, j, data[i][j])] and
    [data[i][j] = visitor.Visit(i, j, data[i][j])]. *)
Definition a2_cell {St} (v : MatVisitor St) (d : mat) (i j : Z) (st : St) : res St :=
  let* x := mget d i j in
  let* (_, st) := mv_visit v i j x st in Ok st.
Definition a2_ucell {St} (v : MatVisitor St) (i j : Z) '((d, st) : mat * St) : res (mat * St) :=
  let* x := mget d i j in
  let* (y, st) := mv_visit v i j x st in
  let* d := mset d i j y in Ok (d, st).

(** WalkInRowOrder: array_2d_row_real_matrix.go:559-570. *)
Definition a2_WalkInRowOrder {St} (a : A2D) (v : MatVisitor St) (st : St) : res (St * F) :=
  let rows := a2_rows a in
  let* columns := a2_cols a in
  let st := mv_start v rows columns 0 (rows - 1) 0 (columns - 1) st in
  let* st := for_ 0 rows (fun i st =>
    for_ 0 columns (fun j st => a2_cell v (a2_d a) i j st) st) st in
  Ok (st, mv_end v st).
(** WalkInRowOrderBounded: array_2d_row_real_matrix.go:572-584. *)
Definition a2_WalkInRowOrderBounded {St} (a : A2D) (v : MatVisitor St)
    (startRow endRow startColumn endColumn : Z) (st : St) : res (St * F) :=
  let* _ := orpanic (checkSubMatrixIndex (MArr a) startRow endRow startColumn endColumn) in
  let* columns := a2_cols a in
  let st := mv_start v (a2_rows a) columns startRow endRow startColumn endColumn st in
  let* st := for_ startRow (endRow + 1) (fun i st =>
    for_ startColumn (endColumn + 1) (fun j st => a2_cell v (a2_d a) i j st) st) st in
  Ok (st, mv_end v st).
(** WalkInUpdateRowOrder: array_2d_row_real_matrix.go:586-597. *)
Definition a2_WalkInUpdateRowOrder {St} (a : A2D) (v : MatVisitor St) (st : St) : res (A2D * St * F) :=
  let rows := a2_rows a in
  let* columns := a2_cols a in
  let st := mv_start v rows columns 0 (rows - 1) 0 (columns - 1) st in
  let* (d, st) := for_ 0 rows (fun i ds =>
    for_ 0 columns (fun j ds => a2_ucell v i j ds) ds) (a2_d a, st) in
  Ok (mkA2D (Some d), st, mv_end v st).
(** WalkInUpdateRowOrderBounded: array_2d_row_real_matrix.go:599-611. *)
Definition a2_WalkInUpdateRowOrderBounded {St} (a : A2D) (v : MatVisitor St)
    (startRow endRow startColumn endColumn : Z) (st : St) : res (A2D * St * F) :=
  let* _ := orpanic (checkSubMatrixIndex (MArr a) startRow endRow startColumn endColumn) in
  let* columns := a2_cols a in
  let st := mv_start v (a2_rows a) columns startRow endRow startColumn endColumn st in
  let* (d, st) := for_ startRow (endRow + 1) (fun i ds =>
    for_ startColumn (endColumn + 1) (fun j ds => a2_ucell v i j ds) ds) (a2_d a, st) in
  Ok (mkA2D (Some d), st, mv_end v st).
(** WalkInUpdateColumnOrder: array_2d_row_real_matrix.go:613-624. *)
Definition a2_WalkInUpdateColumnOrder {St} (a : A2D) (v : MatVisitor St) (st : St) : res (A2D * St * F) :=
  let rows := a2_rows a in
  let* columns := a2_cols a in
  let st := mv_start v rows columns 0 (rows - 1) 0 (columns - 1) st in
  let* (d, st) := for_ 0 columns (fun j ds =>
    for_ 0 rows (fun i ds => a2_ucell v i j ds) ds) (a2_d a, st) in
  Ok (mkA2D (Some d), st, mv_end v st).
(** WalkInColumnOrder: array_2d_row_real_matrix.go:626-636. *)
Definition a2_WalkInColumnOrder {St} (a : A2D) (v : MatVisitor St) (st : St) : res (St * F) :=
  let rows := a2_rows a in
  let* columns := a2_cols a in
  let st := mv_start v rows columns 0 (rows - 1) 0 (columns - 1) st in
  let* st := for_ 0 columns (fun j st =>
    for_ 0 rows (fun i st => a2_cell v (a2_d a) i j st) st) st in
  Ok (st, mv_end v st).
(** WalkInUpdateColumnOrderBounded: array_2d_row_real_matrix.go:638-650. *)
Definition a2_WalkInUpdateColumnOrderBounded {St} (a : A2D) (v : MatVisitor St)
    (startRow endRow startColumn endColumn : Z) (st : St) : res (A2D * St * F) :=
  let* _ := orpanic (checkSubMatrixIndex (MArr a) startRow endRow startColumn endColumn) in
  let* columns := a2_cols a in
  let st := mv_start v (a2_rows a) columns startRow endRow startColumn endColumn st in
  let* (d, st) := for_ startColumn (endColumn + 1) (fun j ds =>
    for_ startRow (endRow + 1) (fun i ds => a2_ucell v i j ds) ds) (a2_d a, st) in
  Ok (mkA2D (Some d), st, mv_end v st).
(** WalkInColumnOrderBounded: array_2d_row_real_matrix.go:652-663. *)
Definition a2_WalkInColumnOrderBounded {St} (a : A2D) (v : MatVisitor St)
    (startRow endRow startColumn endColumn : Z) (st : St) : res (St * F) :=
  let* _ := orpanic (checkSubMatrixIndex (MArr a) startRow endRow startColumn endColumn) in
  let* columns := a2_cols a in
  let st := mv_start v (a2_rows a) columns startRow endRow startColumn endColumn st in
  let* st := for_ startColumn (endColumn + 1) (fun j st =>
    for_ startRow (endRow + 1) (fun i st => a2_cell v (a2_d a) i j st) st) st in
  Ok (st, mv_end v st).
(** The optimized-order walks (array_2d_row_real_matrix.go:665-679) call the
    row-order ones. *)
Definition a2_WalkInUpdateOptimizedOrder {St} (a : A2D) (v : MatVisitor St) st :=
  a2_WalkInUpdateRowOrder a v st.
Definition a2_WalkInOptimizedOrder {St} (a : A2D) (v : MatVisitor St) st :=
  a2_WalkInRowOrder a v st.
Definition a2_WalkInUpdateOptimizedOrderBounded {St} (a : A2D) (v : MatVisitor St) r0 r1 c0 c1 st :=
  a2_WalkInUpdateRowOrderBounded a v r0 r1 c0 c1 st.
Definition a2_WalkInOptimizedOrderBounded {St} (a : A2D) (v : MatVisitor St) r0 r1 c0 c1 st :=
  a2_WalkInRowOrderBounded a v r0 r1 c0 c1 st.

(** RowAt: array_2d_row_real_matrix.go:691-700. *)
Definition a2_RowAt (a : A2D) (row : Z) : res vec :=
  let* _ := orpanic (checkRowIndex (MArr a) row) in
  let* nCols := a2_cols a in
  let* out := make fzero nCols in
  let* src := zget (a2_d a) row in
  slice_copy out 0 nCols src 0 nCols.

(** SetRow: array_2d_row_real_matrix.go:702-711, the destination slice being
    [data[row][0:row+nCols]]; capacity equals length. *)
Definition a2_SetRow (a : A2D) (row : Z) (array : vec) : res A2D :=
  let* _ := orpanic (checkRowIndex (MArr a) row) in
  let* nCols := a2_cols a in
  if negb (len array =? nCols) then Panic EMatDimMismatch else
  let* dst := zget (a2_d a) row in
  let* dst := slice_copy dst 0 (row + nCols) array 0 nCols in
  let* d := zset (a2_d a) row dst in
  Ok (mkA2D (Some d)).

(** RowMatrixAt: array_2d_row_real_matrix.go:713-727. *)
Definition a2_RowMatrixAt (a : A2D) (row : Z) : res A2D :=
  let* _ := orpanic (checkRowIndex (MArr a) row) in
  let* nCols := a2_cols a in
  let* out := orpanic (NewArray2DRowRealMatrix 1 nCols) in
  let* d := for_ 0 nCols (fun i d => let* x := mget (a2_d a) row i in mset d 0 i x) (a2_d out) in
  Ok (mkA2D (Some d)).

(** SetRowMatrix: array_2d_row_real_matrix.go:729-740. *)
Definition a2_SetRowMatrix (a : A2D) (row : Z) (m : RealMatrix) : res A2D :=
  let* _ := orpanic (checkRowIndex (MArr a) row) in
  let* nCols := a2_cols a in
  let* mc := m_cols m in
  if negb (m_rows m =? 1) || negb (mc =? nCols) then Panic EMatDimMismatch else
  let* d := for_ 0 nCols (fun i d => let* x := m_At m 0 i in mset d row i x) (a2_d a) in
  Ok (mkA2D (Some d)).

(** ColumnMatrixAt: array_2d_row_real_matrix.go:742-756. *)
Definition a2_ColumnMatrixAt (a : A2D) (column : Z) : res A2D :=
  let* _ := orpanic (checkColumnIndex (MArr a) column) in
  let nRows := a2_rows a in
  let* out := orpanic (NewArray2DRowRealMatrix nRows 1) in
  let* d := for_ 0 nRows (fun i d => let* x := mget (a2_d a) i column in mset d i 0 x) (a2_d out) in
  Ok (mkA2D (Some d)).

(** SetColumnMatrix: array_2d_row_real_matrix.go:758-769. *)
Definition a2_SetColumnMatrix (a : A2D) (column : Z) (m : RealMatrix) : res A2D :=
  let* _ := orpanic (checkColumnIndex (MArr a) column) in
  let nRows := a2_rows a in
  let* mc := m_cols m in
  if negb (m_rows m =? nRows) || negb (mc =? 1) then Panic EMatDimMismatch else
  let* d := for_ 0 nRows (fun i d => let* x := m_At m i 0 in mset d i column x) (a2_d a) in
  Ok (mkA2D (Some d)).

(** RowVectorAt, SetRowVector: array_2d_row_real_matrix.go:771-789. *)
Definition a2_RowVectorAt (a : A2D) (row : Z) : res RealVector :=
  let* r := a2_RowAt a row in Ok (VArr ([] ++ r)).
Definition a2_SetRowVector (a : A2D) (row : Z) (v : RealVector) : res A2D :=
  let* _ := orpanic (checkRowIndex (MArr a) row) in
  let* nCols := a2_cols a in
  if negb (v_Dimension v =? nCols) then Panic EMatDimMismatch else
  let* d := for_ 0 nCols (fun i d => let* x := v_At v i in mset d row i x) (a2_d a) in
  Ok (mkA2D (Some d)).

(** ColumnVectorAt, SetColumnVector: array_2d_row_real_matrix.go:791-807; the
    result of the index check is ignored. *)
Definition a2_ColumnVectorAt (a : A2D) (column : Z) : res RealVector :=
  let* r := a2_ColumnAt a column in Ok (VArr ([] ++ r)).
Definition a2_SetColumnVector (a : A2D) (column : Z) (v : RealVector) : res A2D :=
  let* _ := match checkColumnIndex (MArr a) column with
            | Panic e => Panic e | _ => Ok tt end in
  let nRows := a2_rows a in
  if negb (v_Dimension v =? nRows) then Panic EMatDimMismatch else
  let* d := for_ 0 nRows (fun i d => let* x := v_At v i in mset d i column x) (a2_d a) in
  Ok (mkA2D (Some d)).

(** Equals: array_2d_row_real_matrix.go:809-831; [same] is pointer identity,
    [None] an object that is not a RealMatrix. *)
Definition a2_Equals (a : A2D) (same : bool) (object : option RealMatrix) : res bool :=
  if same then Ok true else
  match object with
  | None => Ok false
  | Some m =>
      let nRows := a2_rows a in
      let* nCols := a2_cols a in
      let* mc := m_cols m in
      if negb (mc =? nCols) || negb (m_rows m =? nRows) then Ok false else
      let* r := for_brk 0 nRows (fun row _ =>
        for_brk 0 nCols (fun col _ =>
          let* x := a2_At a row col in
          let* y := m_At m row col in
          Ok (fne x y, tt)) tt) tt in
      Ok (negb (fst r))
  end.
End Array2D.

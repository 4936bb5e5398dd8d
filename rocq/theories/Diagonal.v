(** Model of /repo/diagonal_matrix.go (entry access is in Matrix.v). *)
From Coq Require Import ZArith List Lia Bool.
From Verif Require Import Base Scalar Vector Matrix Array2D.
Import ListNotations.
Open Scope Z_scope.

Section Diagonal.
Context {O : Ops}.

(** NewDiagonalMatrixWithDimension: diagonal_matrix.go:28-36. *)
Definition NewDiagonalMatrixWithDimension (dimension : Z) : res Diag :=
  if dimension <? 1 then Err ENotStrictlyPositive else
  let* data := make fzero dimension in Ok (mkDiag data).
(** NewDiagonalMatrix: diagonal_matrix.go:42-55 (sharing not visible here). *)
Definition NewDiagonalMatrix (data : option vec) (copyArray : bool) : res Diag :=
  match data with
  | None => Err EInvalidArgument
  | Some data => if copyArray then Ok (mkDiag ([] ++ data)) else Ok (mkDiag data)
  end.
(** NewDiagonalMatrixFromSlice: diagonal_matrix.go:38-40. *)
Definition NewDiagonalMatrixFromSlice (data : option vec) : res Diag := NewDiagonalMatrix data true.
(** Copy: diagonal_matrix.go:57-61. *)
Definition d_Copy (d : Diag) : res Diag := Ok (mkDiag ([] ++ d_data d)).

(** Add: diagonal_matrix.go:63-100. *)
Definition d_Add (d : Diag) (mat : RealMatrix) : res Diag :=
  let* _ := orpanic (checkAdditionCompatible (MDiag d) mat) in
  match mat with
  | MDiag m =>
      let dim := len (d_data d) in
      let* outData := make fzero dim in
      let* outData := for_ 0 dim (fun i outData =>
        let* x := zget (d_data d) i in
        let* y := zget (d_data m) i in
        zset outData i (x + y)%f) outData in
      Ok (mkDiag outData)
  | _ =>
      let rowCount := m_rows mat in
      let* columnCount := m_cols mat in
      if negb (rowCount =? columnCount) then Panic EDimMismatch else
      let* out := orpanic (NewDiagonalMatrixWithDimension rowCount) in
      for_ 0 rowCount (fun row out =>
        for_ 0 columnCount (fun col out =>
          let* x := d_At d row col in
          let* y := m_At mat row col in
          d_SetEntry out row col (x + y)%f) out) out
  end.

(** Subtract: diagonal_matrix.go:102-137. *)
Definition d_Subtract (d : Diag) (mat : RealMatrix) : res Diag :=
  let* _ := orpanic (checkAdditionCompatible (MDiag d) mat) in
  match mat with
  | MDiag m =>
      let dim := len (d_data d) in
      let* outData := make fzero dim in
      let* outData := for_ 0 dim (fun i outData =>
        let* x := zget (d_data d) i in
        let* y := zget (d_data m) i in
        zset outData i (x - y)%f) outData in
      Ok (mkDiag outData)
  | _ =>
      let rowCount := m_rows mat in
      let* columnCount := m_cols mat in
      if negb (rowCount =? columnCount) then Panic EDimMismatch else
      let* out := orpanic (NewDiagonalMatrixWithDimension rowCount) in
      for_ 0 rowCount (fun row out =>
        for_ 0 columnCount (fun col out =>
          let* x := d_At d row col in
          let* y := m_At mat row col in
          d_SetEntry out row col (x - y)%f) out) out
  end.

(** The diagonal-by-diagonal branch of Multiply: diagonal_matrix.go:144-153. *)
Definition d_MultiplyDiag (d m : Diag) : res Diag :=
  let dim := len (d_data d) in
  let* outData := make fzero dim in
  let* outData := for_ 0 dim (fun i outData =>
    let* x := zget (d_data d) i in
    let* y := zget (d_data m) i in
    zset outData i (x * y)%f) outData in
  Ok (mkDiag outData).
(** Multiply: diagonal_matrix.go:139-170. *)
Definition d_Multiply (d : Diag) (mat : RealMatrix) : res RealMatrix :=
  let* _ := orpanic (checkMultiplicationCompatible (MDiag d) mat) in
  match mat with
  | MDiag m => let* r := d_MultiplyDiag d m in Ok (MDiag r)
  | _ =>
      let nRows := m_rows mat in
      let* nCols := m_cols mat in
      let* product := make [] nRows in
      let* product := for_ 0 nRows (fun r product =>
        let* row := make fzero nCols in
        let* row := for_ 0 nCols (fun c row =>
          let* x := zget (d_data d) r in
          let* y := m_At mat r c in
          zset row c (x * y)%f) row in
        zset product r row) product in
      let* rm := a2_copyIn (mkA2D None) (Some product) in
      Ok (MArr rm)
  end.

(** Data: diagonal_matrix.go:172-185; every row is nil before its iteration. *)
Definition d_Data (d : Diag) : res mat :=
  let dim := len (d_data d) in
  let* out := make [] dim in
  for_ 0 dim (fun i out =>
    let* r := make fzero dim in
    let* x := zget (d_data d) i in
    let* r := zset r i x in
    zset out i r) out.

(** Operate: diagonal_matrix.go:254-259, i.e. Multiply by the diagonal matrix
    sharing [v].  PreMultiply: diagonal_matrix.go:288-290 is the same. *)
Definition d_Operate (d : Diag) (v : vec) : res vec :=
  let* _ := orpanic (checkMultiplicationCompatible (MDiag d) (MDiag (mkDiag v))) in
  let* r := d_MultiplyDiag d (mkDiag v) in Ok (d_data r).
Definition d_PreMultiply (d : Diag) (v : vec) : res vec := d_Operate d v.

(** OperateVector: diagonal_matrix.go:261-286. *)
Definition d_OperateVector (d : Diag) (v : RealVector) : res RealVector :=
  match v with
  | VArr a => let* r := d_Operate d a in Ok (VArr ([] ++ r))
  | VOther _ =>
      let nRows := len (d_data d) in
      let nCols := len (d_data d) in
      if negb (v_Dimension v =? nCols) then Panic EDimMismatch else
      let* out := make fzero nRows in
      let* out := for_ 0 nRows (fun row out =>
        let* sum := for_ 0 nCols (fun i sum =>
          let* x := d_At d row i in
          let* y := v_At v i in Ok (sum + x * y)%f) fzero in
        zset out row sum) out in
      Ok (VArr ([] ++ out))
  end.

(** PreMultiplyVector: diagonal_matrix.go:292-305; a foreign vector's ToArray
    is assumed to return its values (non-nil). *)
Definition d_PreMultiplyVector (d : Diag) (v : RealVector) : res RealVector :=
  let* r := d_PreMultiply d (v_data v) in
  orpanic (NewRealVector (Some r)).

(** equalsWithError: utils.go:78-80 ([equals]: utils.go:74-76 is [fulp1]). *)
Definition equalsWithError (x y eps : F) : bool := fulp1 x y || fle (fabs (y - x)%f) eps.

(** IsSingular, InverseWithThreshold, Inverse: diagonal_matrix.go:311-337. *)
Definition d_IsSingular (d : Diag) (threshold : F) : res bool :=
  let* r := for_brk 0 (len (d_data d)) (fun i _ =>
    let* x := zget (d_data d) i in Ok (equalsWithError x fzero threshold, tt)) tt in
  Ok (fst r).
Definition d_InverseWithThreshold (d : Diag) (threshold : F) : res Diag :=
  let* s := d_IsSingular d threshold in
  if s then Panic ESingular else
  let* result := make fzero (len (d_data d)) in
  let* result := for_ 0 (len (d_data d)) (fun i result =>
    let* x := zget (d_data d) i in zset result i (fone / x)%f) result in
  Ok (mkDiag result).
Definition d_Inverse (d : Diag) : res Diag := d_InverseWithThreshold d fzero.

(** ColumnAt: diagonal_matrix.go:339-350. *)
Definition d_ColumnAt (d : Diag) (column : Z) : res vec :=
  let* _ := orpanic (checkColumnIndex (MDiag d) column) in
  let nRows := len (d_data d) in
  let* out := make fzero nRows in
  for_ 0 nRows (fun i out => let* x := d_At d i column in zset out i x) out.
(** ColumnMatrixAt: diagonal_matrix.go:352-369. *)
Definition d_ColumnMatrixAt (d : Diag) (column : Z) : res Diag :=
  let* _ := orpanic (checkColumnIndex (MDiag d) column) in
  let nRows := len (d_data d) in
  if negb (1 =? nRows) then Panic EDimMismatch else
  let* out := orpanic (NewDiagonalMatrixWithDimension 1) in
  for_ 0 nRows (fun i out => let* x := d_At d i column in d_SetEntry out i 0 x) out.
(** SetColumnMatrix: diagonal_matrix.go:371-382. *)
Definition d_SetColumnMatrix (d : Diag) (column : Z) (m : RealMatrix) : res Diag :=
  let* _ := orpanic (checkColumnIndex (MDiag d) column) in
  let nRows := len (d_data d) in
  let* mc := m_cols m in
  if negb (m_rows m =? nRows) || negb (mc =? 1) then Panic EMatDimMismatch else
  for_ 0 nRows (fun i d => let* x := m_At m i 0 in d_SetEntry d i column x) d.
(** ColumnVectorAt: diagonal_matrix.go:384-388. *)
Definition d_ColumnVectorAt (d : Diag) (column : Z) : res RealVector :=
  let* r := d_ColumnAt d column in Ok (VArr r).
(** SetColumnVector: diagonal_matrix.go:390-401. *)
Definition d_SetColumnVector (d : Diag) (column : Z) (v : RealVector) : res Diag :=
  let* _ := orpanic (checkColumnIndex (MDiag d) column) in
  let nRows := len (d_data d) in
  if negb (v_Dimension v =? nRows) then Panic EMatDimMismatch else
  for_ 0 nRows (fun i d => let* x := v_At v i in d_SetEntry d i column x) d.
(** Equals: diagonal_matrix.go:403-425. *)
Definition d_Equals (d : Diag) (same : bool) (object : option RealMatrix) : res bool :=
  if same then Ok true else
  match object with
  | None => Ok false
  | Some m =>
      let nRows := len (d_data d) in
      let nCols := len (d_data d) in
      let* mc := m_cols m in
      if negb (mc =? nCols) || negb (m_rows m =? nRows) then Ok false else
      let* r := for_brk 0 nRows (fun row _ =>
        for_brk 0 nCols (fun col _ =>
          let* x := d_At d row col in
          let* y := m_At m row col in
          Ok (fne x y, tt)) tt) tt in
      Ok (negb (fst r))
  end.
(** RowAt: diagonal_matrix.go:427-438. *)
Definition d_RowAt (d : Diag) (row : Z) : res vec :=
  let* _ := orpanic (checkRowIndex (MDiag d) row) in
  let nCols := len (d_data d) in
  let* out := make fzero nCols in
  for_ 0 nCols (fun i out => let* x := d_At d row i in zset out i x) out.
(** RowMatrixAt: diagonal_matrix.go:440-457. *)
Definition d_RowMatrixAt (d : Diag) (row : Z) : res Diag :=
  let* _ := orpanic (checkRowIndex (MDiag d) row) in
  let nCols := len (d_data d) in
  if negb (1 =? nCols) then Panic EDimMismatch else
  let* out := orpanic (NewDiagonalMatrixWithDimension 1) in
  for_ 0 nCols (fun i out => let* x := d_At d row i in d_SetEntry out 0 i x) out.
(** RowVectorAt: diagonal_matrix.go:459-463. *)
Definition d_RowVectorAt (d : Diag) (row : Z) : res RealVector :=
  let* r := d_RowAt d row in Ok (VArr ([] ++ r)).

(** ScalarAdd: diagonal_matrix.go:465-482. *)
Definition d_ScalarAdd (d : Diag) (x : F) : res Diag :=
  let rowCount := len (d_data d) in
  let columnCount := len (d_data d) in
  if negb (rowCount =? columnCount) then Panic EDimMismatch else
  let* out := orpanic (NewDiagonalMatrixWithDimension rowCount) in
  for_ 0 rowCount (fun row out =>
    for_ 0 columnCount (fun col out =>
      let* y := d_At d row col in d_SetEntry out row col (y + x)%f) out) out.
(** ScalarMultiply: diagonal_matrix.go:484-501. *)
Definition d_ScalarMultiply (d : Diag) (x : F) : res Diag :=
  let rowCount := len (d_data d) in
  let columnCount := len (d_data d) in
  if negb (rowCount =? columnCount) then Panic EDimMismatch else
  let* out := orpanic (NewDiagonalMatrixWithDimension rowCount) in
  for_ 0 rowCount (fun row out =>
    for_ 0 columnCount (fun col out =>
      let* y := d_At d row col in d_SetEntry out row col (y * x)%f) out) out.

(** SetColumn, SetRow: diagonal_matrix.go:503-529. *)
Definition d_SetColumn (d : Diag) (column : Z) (array : vec) : res Diag :=
  let* _ := orpanic (checkColumnIndex (MDiag d) column) in
  let nRows := len (d_data d) in
  if negb (len array =? nRows) then Panic EMatDimMismatch else
  for_ 0 nRows (fun i d => let* x := zget array i in d_SetEntry d i column x) d.
Definition d_SetRow (d : Diag) (row : Z) (array : vec) : res Diag :=
  let* _ := orpanic (checkRowIndex (MDiag d) row) in
  let nCols := len (d_data d) in
  if negb (len array =? nCols) then Panic EMatDimMismatch else
  for_ 0 nCols (fun i d => let* x := zget array i in d_SetEntry d row i x) d.
(** SetRowMatrix: diagonal_matrix.go:531-542. *)
Definition d_SetRowMatrix (d : Diag) (row : Z) (m : RealMatrix) : res Diag :=
  let* _ := orpanic (checkRowIndex (MDiag d) row) in
  let nCols := len (d_data d) in
  let* mc := m_cols m in
  if negb (m_rows m =? 1) || negb (mc =? nCols) then Panic EMatDimMismatch else
  for_ 0 nCols (fun i d => let* x := m_At m 0 i in d_SetEntry d row i x) d.
(** SetRowVector: diagonal_matrix.go:544-556. *)
Definition d_SetRowVector (d : Diag) (row : Z) (v : RealVector) : res Diag :=
  let* _ := orpanic (checkRowIndex (MDiag d) row) in
  let nCols := len (d_data d) in
  if negb (v_Dimension v =? nCols) then Panic EMatDimMismatch else
  for_ 0 nCols (fun i d => let* x := v_At v i in d_SetEntry d row i x) d.

(** SetSubMatrix: diagonal_matrix.go:558-588; the results of the index checks
    are ignored. *)
Definition d_SetSubMatrix (d : Diag) (subMatrix : option mat) (row column : Z) : res Diag :=
  match subMatrix with
  | None => Panic EInvalidArgument
  | Some sub =>
      let nRows := len sub in
      if nRows =? 0 then Panic ENoData else
      let* sub0 := zget sub 0 in
      let nCols := len sub0 in
      if nCols =? 0 then Panic ENoData else
      let* _ := for_ 1 nRows (fun r _ =>
        let* sr := zget sub r in
        if negb (len sr =? nCols) then Panic EDimMismatch else Ok tt) tt in
      for_ 0 nRows (fun i d =>
        for_ 0 nCols (fun j d =>
          let* x := mget sub i j in d_SetEntry d (row + i) (column + j) x) d) d
  end.

(** SubMatrix: diagonal_matrix.go:590-608; the result of the index check is
    ignored. *)
Definition d_SubMatrix (d : Diag) (startRow endRow startColumn endColumn : Z) : res Diag :=
  if negb (endRow - startRow + 1 =? endColumn - startColumn + 1) then Panic EDimMismatch else
  let* sub := orpanic (NewDiagonalMatrixWithDimension (endRow - startRow + 1)) in
  for_ startRow (endRow + 1) (fun i sub =>
    for_ startColumn (endColumn + 1) (fun j sub =>
      let* x := d_At d i j in d_SetEntry sub (i - startRow) (j - startColumn) x) sub) sub.

(** Trace: diagonal_matrix.go:610-621. *)
Definition d_Trace (d : Diag) : res F :=
  let nRows := len (d_data d) in
  for_ 0 nRows (fun i trace => let* x := d_At d i i in Ok (trace + x)%f) fzero.

(** [visitor.Visit(i, j, dm.At(i, j))] and
    [dm.SetEntry(i, j, visitor.Visit(i, j, dm.At(i, j)))]. *)
Definition d_cell {St} (v : MatVisitor St) (d : Diag) (i j : Z) (st : St) : res St :=
  let* x := d_At d i j in
  let* (_, st) := mv_visit v i j x st in Ok st.
Definition d_ucell {St} (v : MatVisitor St) (i j : Z) '((d, st) : Diag * St) : res (Diag * St) :=
  let* x := d_At d i j in
  let* (y, st) := mv_visit v i j x st in
  let* d := d_SetEntry d i j y in Ok (d, st).

(** The walks: diagonal_matrix.go:666-772.  In the bounded ones the result of
    the index check is ignored. *)
Definition d_WalkInRowOrder {St} (d : Diag) (v : MatVisitor St) (st : St) : res (St * F) :=
  let rows := len (d_data d) in
  let columns := len (d_data d) in
  let st := mv_start v rows columns 0 (rows - 1) 0 (columns - 1) st in
  let* st := for_ 0 rows (fun i st => for_ 0 columns (fun j st => d_cell v d i j st) st) st in
  Ok (st, mv_end v st).
Definition d_WalkInRowOrderBounded {St} (d : Diag) (v : MatVisitor St)
    (startRow endRow startColumn endColumn : Z) (st : St) : res (St * F) :=
  let rows := len (d_data d) in
  let st := mv_start v rows rows startRow endRow startColumn endColumn st in
  let* st := for_ startRow (endRow + 1) (fun i st =>
    for_ startColumn (endColumn + 1) (fun j st => d_cell v d i j st) st) st in
  Ok (st, mv_end v st).
Definition d_WalkInUpdateRowOrder {St} (d : Diag) (v : MatVisitor St) (st : St) : res (Diag * St * F) :=
  let rows := len (d_data d) in
  let columns := len (d_data d) in
  let st := mv_start v rows columns 0 (rows - 1) 0 (columns - 1) st in
  let* (d, st) := for_ 0 rows (fun i s => for_ 0 columns (fun j s => d_ucell v i j s) s) (d, st) in
  Ok (d, st, mv_end v st).
Definition d_WalkInUpdateRowOrderBounded {St} (d : Diag) (v : MatVisitor St)
    (startRow endRow startColumn endColumn : Z) (st : St) : res (Diag * St * F) :=
  let rows := len (d_data d) in
  let st := mv_start v rows rows startRow endRow startColumn endColumn st in
  let* (d, st) := for_ startRow (endRow + 1) (fun i s =>
    for_ startColumn (endColumn + 1) (fun j s => d_ucell v i j s) s) (d, st) in
  Ok (d, st, mv_end v st).
Definition d_WalkInUpdateColumnOrder {St} (d : Diag) (v : MatVisitor St) (st : St) : res (Diag * St * F) :=
  let rows := len (d_data d) in
  let columns := len (d_data d) in
  let st := mv_start v rows columns 0 (rows - 1) 0 (columns - 1) st in
  let* (d, st) := for_ 0 columns (fun j s => for_ 0 rows (fun i s => d_ucell v i j s) s) (d, st) in
  Ok (d, st, mv_end v st).
Definition d_WalkInColumnOrder {St} (d : Diag) (v : MatVisitor St) (st : St) : res (St * F) :=
  let rows := len (d_data d) in
  let columns := len (d_data d) in
  let st := mv_start v rows columns 0 (rows - 1) 0 (columns - 1) st in
  let* st := for_ 0 columns (fun j st => for_ 0 rows (fun i st => d_cell v d i j st) st) st in
  Ok (st, mv_end v st).
Definition d_WalkInUpdateColumnOrderBounded {St} (d : Diag) (v : MatVisitor St)
    (startRow endRow startColumn endColumn : Z) (st : St) : res (Diag * St * F) :=
  let rows := len (d_data d) in
  let st := mv_start v rows rows startRow endRow startColumn endColumn st in
  let* (d, st) := for_ startColumn (endColumn + 1) (fun j s =>
    for_ startRow (endRow + 1) (fun i s => d_ucell v i j s) s) (d, st) in
  Ok (d, st, mv_end v st).
Definition d_WalkInColumnOrderBounded {St} (d : Diag) (v : MatVisitor St)
    (startRow endRow startColumn endColumn : Z) (st : St) : res (St * F) :=
  let rows := len (d_data d) in
  let st := mv_start v rows rows startRow endRow startColumn endColumn st in
  let* st := for_ startColumn (endColumn + 1) (fun j st =>
    for_ startRow (endRow + 1) (fun i st => d_cell v d i j st) st) st in
  Ok (st, mv_end v st).
Definition d_WalkInUpdateOptimizedOrder {St} (d : Diag) (v : MatVisitor St) st :=
  d_WalkInUpdateRowOrder d v st.
Definition d_WalkInOptimizedOrder {St} (d : Diag) (v : MatVisitor St) st :=
  d_WalkInRowOrder d v st.
Definition d_WalkInUpdateOptimizedOrderBounded {St} (d : Diag) (v : MatVisitor St) r0 r1 c0 c1 st :=
  d_WalkInUpdateRowOrderBounded d v r0 r1 c0 c1 st.
Definition d_WalkInOptimizedOrderBounded {St} (d : Diag) (v : MatVisitor St) r0 r1 c0 c1 st :=
  d_WalkInRowOrderBounded d v r0 r1 c0 c1 st.

(** Transpose: diagonal_matrix.go:641-664: a walk whose visitor writes into
    the copy. *)
Definition d_Transpose (d : Diag) : res Diag :=
  let nCols := len (d_data d) in
  let* data := make fzero nCols in
  let v := mkMatVisitor (fun _ _ _ _ _ _ st => st)
             (fun row column value (copy : Diag) =>
                let* copy := d_SetEntry copy column row value in Ok (value, copy))
             (fun _ => fzero) in
  let* (copy, _) := d_WalkInOptimizedOrder d v (mkDiag data) in
  Ok copy.
End Diagonal.

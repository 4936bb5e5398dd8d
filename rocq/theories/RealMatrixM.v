(** Interface dispatch and model of the functions of /repo/real_matrix.go. *)
From Coq Require Import ZArith List Lia Bool.
From Verif Require Import Base Scalar Vector Matrix Array2D BlockM Diagonal.
Import ListNotations.
Open Scope Z_scope.

Section RealMatrixM.
Context {O : Ops}.

(** ** Method calls through the interface RealMatrix: one case per type. *)
Definition liftA (m : res A2D) : res RealMatrix := let* a := m in Ok (MArr a).
Definition liftB (m : res Block) : res RealMatrix := let* a := m in Ok (MBlk a).
Definition liftD (m : res Diag) : res RealMatrix := let* a := m in Ok (MDiag a).

Definition m_Copy (m : RealMatrix) : res RealMatrix :=
  match m with
  | MArr a => liftA (a2_Copy a) | MBlk b => liftB (b_Copy b) | MDiag d => liftD (d_Copy d)
  | MOther _ _ _ => Panic EForeign end.
Definition m_Add (m n : RealMatrix) : res RealMatrix :=
  match m with
  | MArr a => liftA (a2_Add a n) | MBlk b => liftB (b_Add b n) | MDiag d => liftD (d_Add d n)
  | MOther _ _ _ => Panic EForeign end.
Definition m_Subtract (m n : RealMatrix) : res RealMatrix :=
  match m with
  | MArr a => liftA (a2_Subtract a n) | MBlk b => liftB (b_Subtract b n) | MDiag d => liftD (d_Subtract d n)
  | MOther _ _ _ => Panic EForeign end.
Definition m_Multiply (m n : RealMatrix) : res RealMatrix :=
  match m with
  | MArr a => liftA (a2_Multiply a n) | MBlk b => liftB (b_Multiply b n) | MDiag d => d_Multiply d n
  | MOther _ _ _ => Panic EForeign end.
(** PreMultiplyMatrix: array_2d_row_real_matrix.go:492-494,
    block_real_matrix.go:1038-1040, diagonal_matrix.go:307-309. *)
Definition m_PreMultiplyMatrix (m n : RealMatrix) : res RealMatrix := m_Multiply n m.
Definition m_ScalarAdd (m : RealMatrix) (x : F) : res RealMatrix :=
  match m with
  | MArr a => liftA (a2_ScalarAdd a x) | MBlk b => liftB (b_ScalarAdd b x) | MDiag d => liftD (d_ScalarAdd d x)
  | MOther _ _ _ => Panic EForeign end.
Definition m_ScalarMultiply (m : RealMatrix) (x : F) : res RealMatrix :=
  match m with
  | MArr a => liftA (a2_ScalarMultiply a x) | MBlk b => liftB (b_ScalarMultiply b x)
  | MDiag d => liftD (d_ScalarMultiply d x)
  | MOther _ _ _ => Panic EForeign end.
Definition m_Data (m : RealMatrix) : res mat :=
  match m with
  | MArr a => a2_Data a | MBlk b => b_Data b | MDiag d => d_Data d
  | MOther _ _ _ => Panic EForeign end.
Definition m_Trace (m : RealMatrix) : res F :=
  match m with
  | MArr a => a2_Trace a | MBlk b => b_Trace b | MDiag d => d_Trace d
  | MOther _ _ _ => Panic EForeign end.
Definition m_Transpose (m : RealMatrix) : res RealMatrix :=
  match m with
  | MArr a => liftA (a2_Transpose a) | MBlk b => liftB (b_Transpose b) | MDiag d => liftD (d_Transpose d)
  | MOther _ _ _ => Panic EForeign end.
Definition m_SubMatrix (m : RealMatrix) (r0 r1 c0 c1 : Z) : res RealMatrix :=
  match m with
  | MArr a => liftA (a2_SubMatrix a r0 r1 c0 c1) | MBlk b => liftB (b_SubMatrix b r0 r1 c0 c1)
  | MDiag d => liftD (d_SubMatrix d r0 r1 c0 c1)
  | MOther _ _ _ => Panic EForeign end.
Definition m_SetSubMatrix (m : RealMatrix) (s : option mat) (r c : Z) : res RealMatrix :=
  match m with
  | MArr a => liftA (a2_SetSubMatrix a s r c) | MBlk b => liftB (b_SetSubMatrix b s r c)
  | MDiag d => liftD (d_SetSubMatrix d s r c)
  | MOther _ _ _ => Panic EForeign end.
Definition m_RowAt (m : RealMatrix) (i : Z) : res vec :=
  match m with
  | MArr a => a2_RowAt a i | MBlk b => b_RowAt b i | MDiag d => d_RowAt d i
  | MOther _ _ _ => Panic EForeign end.
Definition m_ColumnAt (m : RealMatrix) (i : Z) : res vec :=
  match m with
  | MArr a => a2_ColumnAt a i | MBlk b => b_ColumnAt b i | MDiag d => d_ColumnAt d i
  | MOther _ _ _ => Panic EForeign end.
Definition m_RowVectorAt (m : RealMatrix) (i : Z) : res RealVector :=
  match m with
  | MArr a => a2_RowVectorAt a i | MBlk b => b_RowVectorAt b i | MDiag d => d_RowVectorAt d i
  | MOther _ _ _ => Panic EForeign end.
Definition m_ColumnVectorAt (m : RealMatrix) (i : Z) : res RealVector :=
  match m with
  | MArr a => a2_ColumnVectorAt a i | MBlk b => b_ColumnVectorAt b i | MDiag d => d_ColumnVectorAt d i
  | MOther _ _ _ => Panic EForeign end.
Definition m_RowMatrixAt (m : RealMatrix) (i : Z) : res RealMatrix :=
  match m with
  | MArr a => liftA (a2_RowMatrixAt a i) | MBlk b => liftB (b_RowMatrixAt b i) | MDiag d => liftD (d_RowMatrixAt d i)
  | MOther _ _ _ => Panic EForeign end.
Definition m_ColumnMatrixAt (m : RealMatrix) (i : Z) : res RealMatrix :=
  match m with
  | MArr a => liftA (a2_ColumnMatrixAt a i) | MBlk b => liftB (b_ColumnMatrixAt b i)
  | MDiag d => liftD (d_ColumnMatrixAt d i)
  | MOther _ _ _ => Panic EForeign end.
Definition m_SetRow (m : RealMatrix) (i : Z) (x : vec) : res RealMatrix :=
  match m with
  | MArr a => liftA (a2_SetRow a i x) | MBlk b => liftB (b_SetRow b i x) | MDiag d => liftD (d_SetRow d i x)
  | MOther _ _ _ => Panic EForeign end.
Definition m_SetColumn (m : RealMatrix) (i : Z) (x : vec) : res RealMatrix :=
  match m with
  | MArr a => liftA (a2_SetColumn a i x) | MBlk b => liftB (b_SetColumn b i x) | MDiag d => liftD (d_SetColumn d i x)
  | MOther _ _ _ => Panic EForeign end.
Definition m_SetRowVector (m : RealMatrix) (i : Z) (x : RealVector) : res RealMatrix :=
  match m with
  | MArr a => liftA (a2_SetRowVector a i x) | MBlk b => liftB (b_SetRowVector b i x)
  | MDiag d => liftD (d_SetRowVector d i x)
  | MOther _ _ _ => Panic EForeign end.
Definition m_SetColumnVector (m : RealMatrix) (i : Z) (x : RealVector) : res RealMatrix :=
  match m with
  | MArr a => liftA (a2_SetColumnVector a i x) | MBlk b => liftB (b_SetColumnVector b i x)
  | MDiag d => liftD (d_SetColumnVector d i x)
  | MOther _ _ _ => Panic EForeign end.
Definition m_SetRowMatrix (m : RealMatrix) (i : Z) (x : RealMatrix) : res RealMatrix :=
  match m with
  | MArr a => liftA (a2_SetRowMatrix a i x) | MBlk b => liftB (b_SetRowMatrix b i x)
  | MDiag d => liftD (d_SetRowMatrix d i x)
  | MOther _ _ _ => Panic EForeign end.
Definition m_SetColumnMatrix (m : RealMatrix) (i : Z) (x : RealMatrix) : res RealMatrix :=
  match m with
  | MArr a => liftA (a2_SetColumnMatrix a i x) | MBlk b => liftB (b_SetColumnMatrix b i x)
  | MDiag d => liftD (d_SetColumnMatrix d i x)
  | MOther _ _ _ => Panic EForeign end.
Definition m_Operate (m : RealMatrix) (v : vec) : res vec :=
  match m with
  | MArr a => a2_Operate a v | MBlk b => b_Operate b v | MDiag d => d_Operate d v
  | MOther _ _ _ => Panic EForeign end.
Definition m_OperateVector (m : RealMatrix) (v : RealVector) : res RealVector :=
  match m with
  | MArr a => a2_OperateVector a v | MBlk b => b_OperateVector b v | MDiag d => d_OperateVector d v
  | MOther _ _ _ => Panic EForeign end.
Definition m_PreMultiply (m : RealMatrix) (v : vec) : res vec :=
  match m with
  | MArr a => a2_PreMultiply a v | MBlk b => b_PreMultiply b v | MDiag d => d_PreMultiply d v
  | MOther _ _ _ => Panic EForeign end.
Definition m_PreMultiplyVector (m : RealMatrix) (v : RealVector) : res RealVector :=
  match m with
  | MArr a => a2_PreMultiplyVector a v | MBlk b => b_PreMultiplyVector b v | MDiag d => d_PreMultiplyVector d v
  | MOther _ _ _ => Panic EForeign end.
Definition m_Equals (m : RealMatrix) (same : bool) (o : option RealMatrix) : res bool :=
  match m with
  | MArr a => a2_Equals a same o | MBlk b => b_Equals b same o | MDiag d => d_Equals d same o
  | MOther _ _ _ => Panic EForeign end.

(** The walks; [order] selects the method. *)
Inductive order := RowOrder | ColumnOrder | OptimizedOrder.
Definition m_Walk {St} (o : order) (m : RealMatrix) (v : MatVisitor St) (st : St) : res (St * F) :=
  match m with
  | MArr a => match o with RowOrder => a2_WalkInRowOrder a v st | ColumnOrder => a2_WalkInColumnOrder a v st
              | OptimizedOrder => a2_WalkInOptimizedOrder a v st end
  | MBlk a => match o with RowOrder => b_WalkInRowOrder a v st | ColumnOrder => b_WalkInColumnOrder a v st
              | OptimizedOrder => b_WalkInOptimizedOrder a v st end
  | MDiag a => match o with RowOrder => d_WalkInRowOrder a v st | ColumnOrder => d_WalkInColumnOrder a v st
              | OptimizedOrder => d_WalkInOptimizedOrder a v st end
  | MOther _ _ _ => Panic EForeign
  end.
Definition m_WalkBounded {St} (o : order) (m : RealMatrix) (v : MatVisitor St) (r0 r1 c0 c1 : Z) (st : St)
  : res (St * F) :=
  match m with
  | MArr a => match o with RowOrder => a2_WalkInRowOrderBounded a v r0 r1 c0 c1 st
              | ColumnOrder => a2_WalkInColumnOrderBounded a v r0 r1 c0 c1 st
              | OptimizedOrder => a2_WalkInOptimizedOrderBounded a v r0 r1 c0 c1 st end
  | MBlk a => match o with RowOrder => b_WalkInRowOrderBounded a v r0 r1 c0 c1 st
              | ColumnOrder => b_WalkInColumnOrderBounded a v r0 r1 c0 c1 st
              | OptimizedOrder => b_WalkInOptimizedOrderBounded a v r0 r1 c0 c1 st end
  | MDiag a => match o with RowOrder => d_WalkInRowOrderBounded a v r0 r1 c0 c1 st
              | ColumnOrder => d_WalkInColumnOrderBounded a v r0 r1 c0 c1 st
              | OptimizedOrder => d_WalkInOptimizedOrderBounded a v r0 r1 c0 c1 st end
  | MOther _ _ _ => Panic EForeign
  end.
Definition liftW {M St} (f : M -> RealMatrix) (m : res (M * St * F)) : res (RealMatrix * St * F) :=
  let* (a, st, x) := m in Ok (f a, st, x).
Definition m_WalkUpdate {St} (o : order) (m : RealMatrix) (v : MatVisitor St) (st : St)
  : res (RealMatrix * St * F) :=
  match m with
  | MArr a => liftW MArr (match o with RowOrder => a2_WalkInUpdateRowOrder a v st
              | ColumnOrder => a2_WalkInUpdateColumnOrder a v st
              | OptimizedOrder => a2_WalkInUpdateOptimizedOrder a v st end)
  | MBlk a => liftW MBlk (match o with RowOrder => b_WalkInUpdateRowOrder a v st
              | ColumnOrder => b_WalkInUpdateColumnOrder a v st
              | OptimizedOrder => b_WalkInUpdateOptimizedOrder a v st end)
  | MDiag a => liftW MDiag (match o with RowOrder => d_WalkInUpdateRowOrder a v st
              | ColumnOrder => d_WalkInUpdateColumnOrder a v st
              | OptimizedOrder => d_WalkInUpdateOptimizedOrder a v st end)
  | MOther _ _ _ => Panic EForeign
  end.
Definition m_WalkUpdateBounded {St} (o : order) (m : RealMatrix) (v : MatVisitor St) (r0 r1 c0 c1 : Z) (st : St)
  : res (RealMatrix * St * F) :=
  match m with
  | MArr a => liftW MArr (match o with RowOrder => a2_WalkInUpdateRowOrderBounded a v r0 r1 c0 c1 st
              | ColumnOrder => a2_WalkInUpdateColumnOrderBounded a v r0 r1 c0 c1 st
              | OptimizedOrder => a2_WalkInUpdateOptimizedOrderBounded a v r0 r1 c0 c1 st end)
  | MBlk a => liftW MBlk (match o with RowOrder => b_WalkInUpdateRowOrderBounded a v r0 r1 c0 c1 st
              | ColumnOrder => b_WalkInUpdateColumnOrderBounded a v r0 r1 c0 c1 st
              | OptimizedOrder => b_WalkInUpdateOptimizedOrderBounded a v r0 r1 c0 c1 st end)
  | MDiag a => liftW MDiag (match o with RowOrder => d_WalkInUpdateRowOrderBounded a v r0 r1 c0 c1 st
              | ColumnOrder => d_WalkInUpdateColumnOrderBounded a v r0 r1 c0 c1 st
              | OptimizedOrder => d_WalkInUpdateOptimizedOrderBounded a v r0 r1 c0 c1 st end)
  | MOther _ _ _ => Panic EForeign
  end.

(** ** real_matrix.go *)

(** NewRealMatrixWithDimension: real_matrix.go:327-333. *)
Definition NewRealMatrixWithDimension (rows columns : Z) : res RealMatrix :=
  if rows * columns <=? 4096 then liftA (NewArray2DRowRealMatrix rows columns)
  else liftB (NewBlockRealMatrix rows columns).

(** NewRealMatrixFromSlices: real_matrix.go:335-345; [None] is nil.
    Simplification: a nil first row is written as an empty row; the code
    returns an error for it and panics for an empty non-nil one. *)
Definition NewRealMatrixFromSlices (data : option mat) : res RealMatrix :=
  match data with
  | None => Err EInvalidArgument
  | Some d =>
      let* d0 := zget d 0 in
      if len d * len d0 <=? 4096 then liftA (NewArray2DRowRealMatrixFromSlices (Some d) true)
      else liftB (NewBlockRealMatrixFromSlices d)
  end.

(** NewRealIdentityMatrix: real_matrix.go:347-358. *)
Definition NewRealIdentityMatrix (dimension : Z) : res RealMatrix :=
  let* m := NewRealMatrixWithDimension dimension dimension in
  for_ 0 dimension (fun i m => m_SetEntry m i i fone) m.

(** NewRealMatrixWithDiagonal: real_matrix.go:360-371. *)
Definition NewRealMatrixWithDiagonal (diagonal : vec) : res RealMatrix :=
  let size := len diagonal in
  let* m := NewRealMatrixWithDimension size size in
  for_ 0 size (fun i m => let* x := zget diagonal i in m_SetEntry m i i x) m.

(** NewRealDiagonalMatrix: real_matrix.go:373-375. *)
Definition NewRealDiagonalMatrix (diagonal : option vec) : res RealMatrix :=
  liftD (NewDiagonalMatrix diagonal true).

(** CopySubMatrix: real_matrix.go:398-420; returns the new [destination]. *)
Definition CopySubMatrix (m : RealMatrix) (startRow endRow startColumn endColumn : Z) (destination : mat) : res mat :=
  let* _ := orpanic (checkSubMatrixIndex m startRow endRow startColumn endColumn) in
  let rowsCount := endRow + 1 - startRow in
  let columnsCount := endColumn + 1 - startColumn in
  let* bad := if len destination <? rowsCount then Ok true
              else let* d0 := zget destination 0 in Ok (len d0 <? columnsCount) in
  if bad then let* _ := zget destination 0 in Panic EMatDimMismatch else
  let* _ := for_ 1 rowsCount (fun i _ =>
    let* di := zget destination i in
    if len di <? columnsCount then Panic EMatDimMismatch else Ok tt) tt in
  for_ startRow (endRow + 1) (fun i destination =>
    for_ startColumn (endColumn + 1) (fun j destination =>
      let* x := m_At m i j in
      mset destination (i - startRow) (j - startColumn) x) destination) destination.

(** CopySubMatrixFromIndices: real_matrix.go:425-444. *)
Definition CopySubMatrixFromIndices (m : RealMatrix) (selectedRows selectedColumns : option (list Z))
    (destination : mat) : res mat :=
  let* _ := orpanic (checkSubMatrixIndexFromIndices m selectedRows selectedColumns) in
  match selectedRows, selectedColumns with
  | Some rs, Some cs =>
      let nCols := len cs in
      let* bad := if len destination <? len rs then Ok true
                  else let* d0 := zget destination 0 in Ok (len d0 <? nCols) in
      if bad then let* _ := zget destination 0 in Panic EMatDimMismatch else
      for_ 0 (len rs) (fun i destination =>
        let* di := zget destination i in
        if len di <? nCols then Panic EMatDimMismatch else
        for_ 0 (len cs) (fun j destination =>
          let* r := zget rs i in
          let* c := zget cs j in
          let* x := m_At m r c in
          mset destination i j x) destination) destination
  | _, _ => Panic EInvalidArgument
  end.

(** SubMatrix: real_matrix.go:462-477 with the visitor of real_matrix.go:446-457; the result of the index check is
    ignored; a nil index list has length 0.  Inside the walk the visitor reads
    [m], which must be a different matrix from [subMatrix]. *)
Definition SubMatrix (m : RealMatrix) (selectedRows selectedColumns : list Z) : res RealMatrix :=
  let* sub := orpanic (NewRealMatrixWithDimension (len selectedRows) (len selectedColumns)) in
  let v := mkMatVisitor (fun _ _ _ _ _ _ (st : unit) => st)
             (fun row column _ st =>
                let* r := zget selectedRows row in
                let* c := zget selectedColumns column in
                let* x := m_At m r c in Ok (x, st))
             (fun _ => fzero) in
  let* (sub, _, _) := m_WalkUpdate RowOrder sub v tt in
  Ok sub.

(** IsSquare: real_matrix.go:482-484. *)
Definition IsSquare (m : RealMatrix) : res bool :=
  let* c := m_cols m in Ok (c =? m_rows m).

(** strconv.FormatInt(power, 2): the binary digits of a positive number, most
    significant first (Go standard library, modelled by its documentation). *)
Fixpoint pos_bits (p : positive) : list bool :=
  match p with
  | xH => [true]
  | xO p => pos_bits p ++ [false]
  | xI p => pos_bits p ++ [true]
  end.
Definition FormatInt2 (n : Z) : list bool :=
  match n with Zpos p => pos_bits p | _ => [false] end.

(** Power: real_matrix.go:490-551. *)
Definition Power (m : RealMatrix) (p : Z) : res RealMatrix :=
  if p <? 0 then Panic ENotPositive else
  let* sq := IsSquare m in
  if negb sq then Panic ENonSquare else
  if p =? 0 then orpanic (NewRealIdentityMatrix (m_rows m)) else
  if p =? 1 then m_Copy m else
  let power := p - 1 in
  let binaryRepresentation := FormatInt2 power in
  let* (nonZeroPositions, maxI) := for_ 0 (len binaryRepresentation)
    (fun i '(nonZeroPositions, maxI) =>
      let* bit := zget binaryRepresentation i in
      if (bit : bool) then
        let pos := len binaryRepresentation - i - 1 in
        Ok (nonZeroPositions ++ [pos], if maxI =? -1 then pos else maxI)
      else Ok (nonZeroPositions, maxI)) ([], -1) in
  let* results := make None (maxI + 1) in
  let* r0 := m_Copy m in
  let* results := zset results 0 (Some r0) in
  let* results := for_ 1 (maxI + 1) (fun i results =>
    let* o := zget results (i - 1) in
    match o with
    | None => Panic ERuntime
    | Some prev => let* sq := m_Multiply prev prev in zset results i (Some sq)
    end) results in
  let* result := m_Copy m in
  for_ 0 (len nonZeroPositions) (fun k result =>
    let* i := zget nonZeroPositions k in
    let* o := zget results i in
    match o with
    | None => Panic ERuntime
    | Some ri => m_Multiply result ri
    end) result.

(** normPreservingVisitorImpl: real_matrix.go:553-574; state is
    (endRow, columnSum, maxColSum). *)
Definition normVisitor : MatVisitor (Z * F * F) :=
  mkMatVisitor
    (fun _ _ _ endRow _ _ _ => (endRow, fzero, fzero))
    (fun row _ value '(endRow, columnSum, maxColSum) =>
       let columnSum := (columnSum + fabs value)%f in
       if row =? endRow then Ok (value, (endRow, fzero, fmax maxColSum columnSum))
       else Ok (value, (endRow, columnSum, maxColSum)))
    (fun '(_, _, maxColSum) => maxColSum).
(** MatLInfNorm: real_matrix.go:576-581. *)
Definition MatLInfNorm (m : RealMatrix) : res F :=
  let* r := m_Walk ColumnOrder m normVisitor (0, fzero, fzero) in Ok (snd r).

(** frobeniusNormPreservingVisitorImpl, MatFrobeniusNorm: real_matrix.go:583-604. *)
Definition frobVisitor : MatVisitor F :=
  mkMatVisitor (fun _ _ _ _ _ _ _ => fzero)
    (fun _ _ value sum => Ok (value, (sum + value * value)%f))
    (fun sum => fsqrt sum).
Definition MatFrobeniusNorm (m : RealMatrix) : res F :=
  let* r := m_Walk OptimizedOrder m frobVisitor fzero in Ok (snd r).

(** OuterProduct: real_matrix.go:609-628. *)
Definition OuterProduct (v1 v2 : RealVector) : res RealMatrix :=
  let m := v_Dimension v1 in
  let n := v_Dimension v2 in
  let* out := orpanic (NewRealMatrixWithDimension m n) in
  for_ 0 m (fun i out =>
    for_ 0 n (fun j out =>
      let* x := v_At v1 i in
      let* y := v_At v2 j in
      m_SetEntry out i j (x * y)%f) out) out.

(** _isSymmetric: utils.go:35-59 with raiseException false;
    isSymmetric: utils.go:61-63. *)
Definition isSymmetric (m : RealMatrix) (tol : F) : res bool :=
  let rows := m_rows m in
  let* cols := m_cols m in
  if negb (rows =? cols) then Ok false else
  let* r := for_brk 0 rows (fun i _ =>
    for_brk (i + 1) rows (fun j _ =>
      let* mij := m_At m i j in
      let* mji := m_At m j i in
      Ok (fgt (fabs (mij - mji)%f) (fmax (fabs mij) (fabs mji) * tol)%f, tt)) tt) tt in
  Ok (negb (fst r)).
End RealMatrixM.

(** The three matrix types of /repo, entry access and the check functions. *)
From Coq Require Import ZArith List Lia Bool.
From Verif Require Import Base Scalar Vector.
Import ListNotations.
Open Scope Z_scope.

(** BLOCK_SIZE: block_real_matrix.go:23-25. *)
Definition BLOCK_SIZE : Z := 52.

Section Matrix.
Context {O : Ops}.

(** [d[i][j]] as a read, and as a write. *)
Definition mget (d : mat) (i j : Z) : res F := let* r := zget d i in zget r j.
Definition mset (d : mat) (i j : Z) (v : F) : res mat :=
  let* r := zget d i in let* r := zset r j v in zset d i r.

(** Array2DRowRealMatrix: array_2d_row_real_matrix.go:20-22.  [None] is the
    nil slice of the zero value. *)
Record A2D := mkA2D { a2_data : option mat }.

(** BlockRealMatrix: block_real_matrix.go:59-62. *)
Record Block := mkBlock {
  b_blocks : mat;
  b_rows : Z;
  b_columns : Z;
  b_blockRows : Z;
  b_blockColumns : Z
}.

(** DiagonalMatrix: diagonal_matrix.go:24-26. *)
Record Diag := mkDiag { d_data : vec }.

(** A value of interface type RealMatrix (real_matrix.go:25-325): one of the
    library's types, or a lawful foreign implementation with the given
    dimensions and entries, used only as an argument. *)
Inductive RealMatrix : Type :=
| MArr (a : A2D)
| MBlk (b : Block)
| MDiag (d : Diag)
| MOther (rows columns : Z) (entry : Z -> Z -> F).

(** RowDimension: array_2d_row_real_matrix.go:402-409. *)
Definition a2_rows (a : A2D) : Z := match a2_data a with None => 0 | Some d => len d end.
(** ColumnDimension: array_2d_row_real_matrix.go:411-416; [data[0]] panics
    on an empty non-nil slice. *)
Definition a2_cols (a : A2D) : res Z :=
  match a2_data a with None => Ok 0 | Some d => let* r := zget d 0 in Ok (len r) end.

(** RowDimension/ColumnDimension: array_2d_row_real_matrix.go:402-416,
    block_real_matrix.go:965-971, diagonal_matrix.go:246-252. *)
Definition m_rows (m : RealMatrix) : Z :=
  match m with
  | MArr a => a2_rows a
  | MBlk b => b_rows b
  | MDiag d => len (d_data d)
  | MOther r _ _ => r
  end.
Definition m_cols (m : RealMatrix) : res Z :=
  match m with
  | MArr a => a2_cols a
  | MBlk b => Ok (b_columns b)
  | MDiag d => Ok (len (d_data d))
  | MOther _ c _ => Ok c
  end.

(** checkRowIndex, checkColumnIndex, checkMatrixIndex, checkSubMatrixIndex:
    array_2d_row_real_matrix.go:857-910. *)
Definition checkRowIndex (m : RealMatrix) (row : Z) : res unit :=
  if (row <? 0) || (m_rows m <=? row) then Err EOutOfRange else Ok tt.
Definition checkColumnIndex (m : RealMatrix) (column : Z) : res unit :=
  if column <? 0 then Err EOutOfRange else
  let* c := m_cols m in
  if c <=? column then Err EOutOfRange else Ok tt.
Definition checkMatrixIndex (m : RealMatrix) (row column : Z) : res unit :=
  let* _ := checkRowIndex m row in checkColumnIndex m column.
Definition checkSubMatrixIndex (m : RealMatrix) (startRow endRow startColumn endColumn : Z) : res unit :=
  let* _ := checkRowIndex m startRow in
  let* _ := checkRowIndex m endRow in
  if endRow <? startRow then Err ETooSmall else
  let* _ := checkColumnIndex m startColumn in
  let* _ := checkColumnIndex m endColumn in
  if endColumn <? startColumn then Err ETooSmall else Ok tt.

(** checkSubMatrixIndexFromIndices: array_2d_row_real_matrix.go:912-939;
    [None] is nil. *)
Definition checkSubMatrixIndexFromIndices (m : RealMatrix) (rows cols : option (list Z)) : res unit :=
  match rows, cols with
  | Some rows, Some cols =>
      if len rows =? 0 then Err ENoData else
      if len cols =? 0 then Err ENoData else
      let* _ := fold_left (fun acc row => let* _ := acc in checkRowIndex m row) rows (Ok tt) in
      fold_left (fun acc col => let* _ := acc in checkColumnIndex m col) cols (Ok tt)
  | _, _ => Err EInvalidArgument
  end.

(** checkAdditionCompatible, canAdd, checkMultiplicationCompatible,
    canMultiply: array_2d_row_real_matrix.go:833-855. *)
Definition checkAdditionCompatible (l r : RealMatrix) : res unit :=
  if m_rows l =? m_rows r then
    let* cl := m_cols l in let* cr := m_cols r in
    if cl =? cr then Ok tt else Err EMatDimMismatch
  else
    (* the error arguments evaluate both column dimensions *)
    let* _ := m_cols l in let* _ := m_cols r in Err EMatDimMismatch.
Definition checkMultiplicationCompatible (l r : RealMatrix) : res unit :=
  let* cl := m_cols l in
  if cl =? m_rows r then Ok tt else Err EDimMismatch.

(** ** Array2DRowRealMatrix entry access *)
(** At: array_2d_row_real_matrix.go:345-350. *)
Definition a2_At (a : A2D) (row column : Z) : res F :=
  let* _ := orpanic (checkMatrixIndex (MArr a) row column) in
  match a2_data a with None => Panic ERuntime | Some d => mget d row column end.
(** SetEntry, AddToEntry, MultiplyEntry: array_2d_row_real_matrix.go:378-400. *)
Definition a2_update (a : A2D) (row column : Z) (g : F -> F) : res A2D :=
  let* _ := orpanic (checkMatrixIndex (MArr a) row column) in
  match a2_data a with
  | None => Panic ERuntime
  | Some d =>
      let* x := mget d row column in
      let* d := mset d row column (g x) in Ok (mkA2D (Some d))
  end.
Definition a2_SetEntry (a : A2D) (row column : Z) (value : F) : res A2D :=
  let* _ := orpanic (checkMatrixIndex (MArr a) row column) in
  match a2_data a with
  | None => Panic ERuntime
  | Some d => let* d := mset d row column value in Ok (mkA2D (Some d))
  end.
Definition a2_AddToEntry (a : A2D) (row column : Z) (increment : F) : res A2D :=
  a2_update a row column (fun x => (x + increment)%f).
Definition a2_MultiplyEntry (a : A2D) (row column : Z) (factor : F) : res A2D :=
  a2_update a row column (fun x => (x * factor)%f).

(** ** BlockRealMatrix entry access *)
(** blockHeight, blockWidth: block_real_matrix.go:1354-1368. *)
Definition blockHeight (b : Block) (blockRow : Z) : Z :=
  if blockRow =? b_blockRows b - 1 then b_rows b - blockRow * BLOCK_SIZE else BLOCK_SIZE.
Definition blockWidth (b : Block) (blockColumn : Z) : Z :=
  if blockColumn =? b_blockColumns b - 1 then b_columns b - blockColumn * BLOCK_SIZE else BLOCK_SIZE.
Definition with_blocks (b : Block) (bl : mat) : Block :=
  mkBlock bl (b_rows b) (b_columns b) (b_blockRows b) (b_blockColumns b).

(** At: block_real_matrix.go:887-895.  Go's [/] on non-negative integers is
    [Z.div]. *)
Definition b_At (b : Block) (row column : Z) : res F :=
  let* _ := orpanic (checkMatrixIndex (MBlk b) row column) in
  let iBlock := row / BLOCK_SIZE in
  let jBlock := column / BLOCK_SIZE in
  let k := (row - iBlock * BLOCK_SIZE) * blockWidth b jBlock + (column - jBlock * BLOCK_SIZE) in
  mget (b_blocks b) (iBlock * b_blockColumns b + jBlock) k.
(** SetEntry: block_real_matrix.go:897-905. *)
Definition b_SetEntry (b : Block) (row column : Z) (value : F) : res Block :=
  let* _ := orpanic (checkMatrixIndex (MBlk b) row column) in
  let iBlock := row / BLOCK_SIZE in
  let jBlock := column / BLOCK_SIZE in
  let k := (row - iBlock * BLOCK_SIZE) * blockWidth b jBlock + (column - jBlock * BLOCK_SIZE) in
  let* bl := mset (b_blocks b) (iBlock * b_blockColumns b + jBlock) k value in
  Ok (with_blocks b bl).
(** AddToEntry: block_real_matrix.go:907-915. *)
Definition b_AddToEntry (b : Block) (row column : Z) (increment : F) : res Block :=
  let* _ := orpanic (checkMatrixIndex (MBlk b) row column) in
  let iBlock := row / BLOCK_SIZE in
  let jBlock := column / BLOCK_SIZE in
  let k := (row - iBlock * BLOCK_SIZE) * blockWidth b jBlock + (column - jBlock * BLOCK_SIZE) in
  let* x := mget (b_blocks b) (iBlock * b_blockColumns b + jBlock) k in
  let* bl := mset (b_blocks b) (iBlock * b_blockColumns b + jBlock) k (x + increment)%f in
  Ok (with_blocks b bl).
(** MultiplyEntry: block_real_matrix.go:917-925. *)
Definition b_MultiplyEntry (b : Block) (row column : Z) (factor : F) : res Block :=
  let* _ := orpanic (checkMatrixIndex (MBlk b) row column) in
  let iBlock := row / BLOCK_SIZE in
  let jBlock := column / BLOCK_SIZE in
  let k := (row - iBlock * BLOCK_SIZE) * blockWidth b jBlock + (column - jBlock * BLOCK_SIZE) in
  let* x := mget (b_blocks b) (iBlock * b_blockColumns b + jBlock) k in
  let* bl := mset (b_blocks b) (iBlock * b_blockColumns b + jBlock) k (x * factor)%f in
  Ok (with_blocks b bl).

(** ** DiagonalMatrix entry access *)
(** At: diagonal_matrix.go:191-200. *)
Definition d_At (d : Diag) (row column : Z) : res F :=
  let* _ := orpanic (checkMatrixIndex (MDiag d) row column) in
  if row =? column then zget (d_data d) row else Ok fzero.
(** ensureZero: diagonal_matrix.go:228-234. *)
Definition ensureZero (value : F) : res unit :=
  if fulp1 fzero value then Ok tt else Err ETooLarge.
(** SetEntry: diagonal_matrix.go:202-213. *)
Definition d_SetEntry (d : Diag) (row column : Z) (value : F) : res Diag :=
  if row =? column then
    let* _ := orpanic (checkRowIndex (MDiag d) row) in
    let* v := zset (d_data d) row value in Ok (mkDiag v)
  else
    let* _ := orpanic (ensureZero value) in Ok d.
(** AddToEntry: diagonal_matrix.go:215-226. *)
Definition d_AddToEntry (d : Diag) (row column : Z) (increment : F) : res Diag :=
  if row =? column then
    let* _ := orpanic (checkRowIndex (MDiag d) row) in
    let* x := zget (d_data d) row in
    let* v := zset (d_data d) row (x + increment)%f in Ok (mkDiag v)
  else
    let* _ := orpanic (ensureZero increment) in Ok d.
(** MultiplyEntry: diagonal_matrix.go:236-244. *)
Definition d_MultiplyEntry (d : Diag) (row column : Z) (factor : F) : res Diag :=
  if row =? column then
    let* _ := orpanic (checkRowIndex (MDiag d) row) in
    let* x := zget (d_data d) row in
    let* v := zset (d_data d) row (x * factor)%f in Ok (mkDiag v)
  else Ok d.

(** ** Interface dispatch *)
Definition m_At (m : RealMatrix) (row column : Z) : res F :=
  match m with
  | MArr a => a2_At a row column
  | MBlk b => b_At b row column
  | MDiag d => d_At d row column
  | MOther r c f =>
      if inb row r && inb column c then Ok (f row column) else Panic EOutOfRange
  end.
Definition m_SetEntry (m : RealMatrix) (row column : Z) (v : F) : res RealMatrix :=
  match m with
  | MArr a => let* a := a2_SetEntry a row column v in Ok (MArr a)
  | MBlk b => let* b := b_SetEntry b row column v in Ok (MBlk b)
  | MDiag d => let* d := d_SetEntry d row column v in Ok (MDiag d)
  | MOther _ _ _ => Panic EForeign
  end.
Definition m_AddToEntry (m : RealMatrix) (row column : Z) (v : F) : res RealMatrix :=
  match m with
  | MArr a => let* a := a2_AddToEntry a row column v in Ok (MArr a)
  | MBlk b => let* b := b_AddToEntry b row column v in Ok (MBlk b)
  | MDiag d => let* d := d_AddToEntry d row column v in Ok (MDiag d)
  | MOther _ _ _ => Panic EForeign
  end.
Definition m_MultiplyEntry (m : RealMatrix) (row column : Z) (v : F) : res RealMatrix :=
  match m with
  | MArr a => let* a := a2_MultiplyEntry a row column v in Ok (MArr a)
  | MBlk b => let* b := b_MultiplyEntry b row column v in Ok (MBlk b)
  | MDiag d => let* d := d_MultiplyEntry d row column v in Ok (MDiag d)
  | MOther _ _ _ => Panic EForeign
  end.

(** Visitors (real_matrix_visitor.go) are arbitrary state machines which may
    themselves panic.  A preserving visitor's returned value is ignored. *)
Record MatVisitor (St : Type) := mkMatVisitor {
  mv_start : Z -> Z -> Z -> Z -> Z -> Z -> St -> St;
  mv_visit : Z -> Z -> F -> St -> res (F * St);
  mv_end : St -> F
}.
End Matrix.
Arguments mkMatVisitor {O St}.
Arguments mv_start {O St}. Arguments mv_visit {O St}. Arguments mv_end {O St}.

(** Writes of many entries of a BlockRealMatrix on the heap of Heap.v. *)
From Coq Require Import ZArith List.
From Verif Require Import Base Scalar Matrix Heap.
Import ListNotations.
Open Scope Z_scope.

Section HeapBlk.
Context {O : Ops}.
(** SetRow: block_real_matrix.go:822-840. *)
Definition hb_SetRow (b : HBlk) (row : Z) (array : slice) : M unit :=
  let! _ := hb_ckrow b row in
  let nCols := hb_columns b in
  if negb (sl_len array =? nCols) then mpanic EMatDimMismatch else
  let iBlock := row / BLOCK_SIZE in
  let iRow := row - iBlock * BLOCK_SIZE in
  let! _ := mfor 0 (hb_blockColumns b) (fun jBlock outIndex =>
    let jWidth := hb_width b jBlock in
    let! d := rdS (hb_blocks b) (iBlock * hb_blockColumns b + jBlock) in
    let! _ := copyrange d (iRow * jWidth) (iRow * jWidth + jWidth) array outIndex (outIndex + jWidth) in
    ret (outIndex + jWidth)) 0 in
  ret tt.
(** SetColumn: block_real_matrix.go:864-885. *)
Definition hb_SetColumn (b : HBlk) (column : Z) (array : slice) : M unit :=
  let! _ := hb_ckcol b column in
  let nRows := hb_rows b in
  if negb (sl_len array =? nRows) then mpanic EMatDimMismatch else
  let jBlock := column / BLOCK_SIZE in
  let jColumn := column - jBlock * BLOCK_SIZE in
  let jWidth := hb_width b jBlock in
  let! _ := mfor 0 (hb_blockRows b) (fun iBlock outIndex =>
    mfor 0 (hb_height b iBlock) (fun i outIndex =>
      let! x := rdF array outIndex in
      let! _ := wr2 (hb_blocks b) (iBlock * hb_blockColumns b + jBlock) (i * jWidth + jColumn) x in
      ret (outIndex + 1)) outIndex) 0 in
  ret tt.
(** SetSubMatrix: block_real_matrix.go:542-591; the indices are below 2^53, so
    that [math.Max] and [math.Min] of their float64 values are exact. *)
Definition hb_SetSubMatrix (b : HBlk) (sub : slice) (row column : Z) : M unit :=
  if isnil sub then mpanic EInvalidArgument else
  let! sub0 := rdS sub 0 in
  let refLength := sl_len sub0 in
  if refLength =? 0 then mpanic ENoData else
  let endRow := row + sl_len sub - 1 in
  let endColumn := column + refLength - 1 in
  let! _ := hb_ckrow b row in
  let! _ := hb_ckrow b endRow in
  if endRow <? row then mpanic ETooSmall else
  let! _ := hb_ckcol b column in
  let! _ := hb_ckcol b endColumn in
  if endColumn <? column then mpanic ETooSmall else
  let! _ := mfor 0 (sl_len sub) (fun i (_ : unit) =>
    let! subRow := rdS sub i in
    if negb (sl_len subRow =? refLength) then mpanic EDimMismatch else ret tt) tt in
  let blockStartRow := row / BLOCK_SIZE in
  let blockEndRow := (endRow + BLOCK_SIZE) / BLOCK_SIZE in
  let blockStartColumn := column / BLOCK_SIZE in
  let blockEndColumn := (endColumn + BLOCK_SIZE) / BLOCK_SIZE in
  mfor blockStartRow blockEndRow (fun iBlock (_ : unit) =>
    let iHeight := hb_height b iBlock in
    let firstRow := iBlock * BLOCK_SIZE in
    let iStart := Z.max row firstRow in
    let iEnd := Z.min (endRow + 1) (firstRow + iHeight) in
    mfor blockStartColumn blockEndColumn (fun jBlock (_ : unit) =>
      let jWidth := hb_width b jBlock in
      let firstColumn := jBlock * BLOCK_SIZE in
      let jStart := Z.max column firstColumn in
      let jEnd := Z.min (endColumn + 1) (firstColumn + jWidth) in
      let jLength := jEnd - jStart in
      mfor iStart iEnd (fun i (_ : unit) =>
        let pos := (i - firstRow) * jWidth + (jStart - firstColumn) in
        let! d := rdS (hb_blocks b) (iBlock * hb_blockColumns b + jBlock) in
        let! s := rdS sub (i - row) in
        copyrange d pos (pos + jLength) s (jStart - column) ((jStart - column) + jLength)) tt) tt) tt.
End HeapBlk.

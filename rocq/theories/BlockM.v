(** Model of /repo/block_real_matrix.go (entry access is in Matrix.v).
    [int(math.Min(float64(a), float64(b)))] is [Z.min a b] (exact below 2^53),
    likewise [Z.max]; Go's [/] and [%] on non-negative integers are [Z.div] and
    [Z.modulo].  Overflow of [rows*columns] is not modelled. *)
From Coq Require Import ZArith List Lia Bool.
From Verif Require Import Base Scalar Vector Matrix.
Import ListNotations.
Open Scope Z_scope.

Section BlockM.
Context {O : Ops}.

(** createBlocksLayout: block_real_matrix.go:160-180. *)
Definition createBlocksLayout (rows columns : Z) : res mat :=
  let blockRows := (rows + BLOCK_SIZE - 1) / BLOCK_SIZE in
  let blockColumns := (columns + BLOCK_SIZE - 1) / BLOCK_SIZE in
  let* blocks := make [] (blockRows * blockColumns) in
  let* (blocks, _) := for_ 0 blockRows (fun iBlock s =>
    let pStart := iBlock * BLOCK_SIZE in
    let pEnd := Z.min (pStart + BLOCK_SIZE) rows in
    let iHeight := pEnd - pStart in
    for_ 0 blockColumns (fun jBlock '(blocks, blockIndex) =>
      let qStart := jBlock * BLOCK_SIZE in
      let qEnd := Z.min (qStart + BLOCK_SIZE) columns in
      let jWidth := qEnd - qStart in
      let* blk := make fzero (iHeight * jWidth) in
      let* blocks := zset blocks blockIndex blk in
      Ok (blocks, blockIndex + 1)) s) (blocks, 0) in
  Ok blocks.

(** NewBlockRealMatrix: block_real_matrix.go:64-79. *)
Definition NewBlockRealMatrix (rowDimension columnDimension : Z) : res Block :=
  if rowDimension <? 1 then Err ENotStrictlyPositive else
  if columnDimension <? 1 then Err ENotStrictlyPositive else
  let* blocks := createBlocksLayout rowDimension columnDimension in
  Ok (mkBlock blocks rowDimension columnDimension
        ((rowDimension + BLOCK_SIZE - 1) / BLOCK_SIZE)
        ((columnDimension + BLOCK_SIZE - 1) / BLOCK_SIZE)).

(** NewBlockRealMatrixFromBlockData: block_real_matrix.go:85-116; the number
    of blocks is not checked, only that enough are there (index panic). *)
Definition NewBlockRealMatrixFromBlockData (rows columns : Z) (blockData : mat) : res Block :=
  if rows <? 1 then Err ENotStrictlyPositive else
  if columns <? 1 then Err ENotStrictlyPositive else
  let ans := mkBlock blockData rows columns
        ((rows + BLOCK_SIZE - 1) / BLOCK_SIZE) ((columns + BLOCK_SIZE - 1) / BLOCK_SIZE) in
  let* _ := for_ 0 (b_blockRows ans) (fun iBlock index =>
    let iHeight := blockHeight ans iBlock in
    for_ 0 (b_blockColumns ans) (fun jBlock index =>
      let* blk := zget (b_blocks ans) index in
      if negb (len blk =? iHeight * blockWidth ans jBlock) then Err EDimMismatch
      else Ok (index + 1)) index) 0 in
  Ok ans.

(** toBlocksLayout: block_real_matrix.go:118-158. *)
Definition toBlocksLayout (rawData : mat) : res mat :=
  let rows := len rawData in
  let* raw0 := zget rawData 0 in
  let columns := len raw0 in
  let blockRows := (rows + BLOCK_SIZE - 1) / BLOCK_SIZE in
  let blockColumns := (columns + BLOCK_SIZE - 1) / BLOCK_SIZE in
  let* _ := for_ 0 (len rawData) (fun i _ =>
    let* ri := zget rawData i in
    if negb (len ri =? columns) then Panic EDimMismatch else Ok tt) tt in
  let* blocks := make [] (blockRows * blockColumns) in
  let* (blocks, _) := for_ 0 blockRows (fun iBlock s =>
    let pStart := iBlock * BLOCK_SIZE in
    let pEnd := Z.min (pStart + BLOCK_SIZE) rows in
    let iHeight := pEnd - pStart in
    for_ 0 blockColumns (fun jBlock '(blocks, blockIndex) =>
      let qStart := jBlock * BLOCK_SIZE in
      let qEnd := Z.min (qStart + BLOCK_SIZE) columns in
      let jWidth := qEnd - qStart in
      let* blk := make fzero (iHeight * jWidth) in
      let* (blk, _) := for_ pStart pEnd (fun p '(blk, index) =>
        let* rp := zget rawData p in
        let* blk := slice_copy blk index (index + jWidth) rp qStart (qStart + jWidth) in
        Ok (blk, index + jWidth)) (blk, 0) in
      let* blocks := zset blocks blockIndex blk in
      Ok (blocks, blockIndex + 1)) s) (blocks, 0) in
  Ok blocks.

(** NewBlockRealMatrixFromSlices: block_real_matrix.go:81-83. *)
Definition NewBlockRealMatrixFromSlices (rawData : mat) : res Block :=
  let* raw0 := zget rawData 0 in
  let* blocks := toBlocksLayout rawData in
  NewBlockRealMatrixFromBlockData (len rawData) (len raw0) blocks.

(** Copy: block_real_matrix.go:182-194. [copy(c.blocks[i], brm.blocks[i])]
    copies min(len, len) elements. *)
Definition b_Copy (b : Block) : res Block :=
  let* blocks := createBlocksLayout (b_rows b) (b_columns b) in
  let* blocks := for_ 0 (len (b_blocks b)) (fun i blocks =>
    let* ci := zget blocks i in
    let* bi := zget (b_blocks b) i in
    let* ci := slice_copy ci 0 (len ci) bi 0 (len bi) in
    zset blocks i ci) blocks in
  Ok (mkBlock blocks (b_rows b) (b_columns b)
        ((b_rows b + BLOCK_SIZE - 1) / BLOCK_SIZE)
        ((b_columns b + BLOCK_SIZE - 1) / BLOCK_SIZE)).

(** Add: block_real_matrix.go:196-239. *)
Definition b_Add (b : Block) (mat : RealMatrix) : res Block :=
  let* _ := orpanic (checkAdditionCompatible (MBlk b) mat) in
  let* out := orpanic (NewBlockRealMatrix (b_rows b) (b_columns b)) in
  match mat with
  | MBlk m =>
      let* bl := for_ 0 (len (b_blocks out)) (fun blockIndex bl =>
        let* tBlock := zget (b_blocks b) blockIndex in
        let* mBlock := zget (b_blocks m) blockIndex in
        let* oBlock := zget bl blockIndex in
        for_ 0 (len oBlock) (fun k bl =>
          let* x := zget tBlock k in
          let* y := zget mBlock k in
          mset bl blockIndex k (x + y)%f) bl) (b_blocks out) in
      Ok (with_blocks out bl)
  | _ =>
      let* (bl, _) := for_ 0 (b_blockRows out) (fun iBlock s =>
        for_ 0 (b_blockColumns out) (fun jBlock '(bl, blockIndex) =>
          let* tBlock := zget (b_blocks b) blockIndex in
          let pStart := iBlock * BLOCK_SIZE in
          let pEnd := Z.min (pStart + BLOCK_SIZE) (b_rows b) in
          let qStart := jBlock * BLOCK_SIZE in
          let qEnd := Z.min (qStart + BLOCK_SIZE) (b_columns b) in
          let* (bl, _) := for_ pStart pEnd (fun p s =>
            for_ qStart qEnd (fun q '(bl, k) =>
              let* x := zget tBlock k in
              let* y := m_At mat p q in
              let* bl := mset bl blockIndex k (x + y)%f in
              Ok (bl, k + 1)) s) (bl, 0) in
          Ok (bl, blockIndex + 1)) s) (b_blocks out, 0) in
      Ok (with_blocks out bl)
  end.

(** Subtract: block_real_matrix.go:241-284. *)
Definition b_Subtract (b : Block) (mat : RealMatrix) : res Block :=
  let* _ := orpanic (checkAdditionCompatible (MBlk b) mat) in
  let* out := orpanic (NewBlockRealMatrix (b_rows b) (b_columns b)) in
  match mat with
  | MBlk m =>
      let* bl := for_ 0 (len (b_blocks out)) (fun blockIndex bl =>
        let* tBlock := zget (b_blocks b) blockIndex in
        let* mBlock := zget (b_blocks m) blockIndex in
        let* oBlock := zget bl blockIndex in
        for_ 0 (len oBlock) (fun k bl =>
          let* x := zget tBlock k in
          let* y := zget mBlock k in
          mset bl blockIndex k (x - y)%f) bl) (b_blocks out) in
      Ok (with_blocks out bl)
  | _ =>
      let* (bl, _) := for_ 0 (b_blockRows out) (fun iBlock s =>
        for_ 0 (b_blockColumns out) (fun jBlock '(bl, blockIndex) =>
          let* tBlock := zget (b_blocks b) blockIndex in
          let pStart := iBlock * BLOCK_SIZE in
          let pEnd := Z.min (pStart + BLOCK_SIZE) (b_rows b) in
          let qStart := jBlock * BLOCK_SIZE in
          let qEnd := Z.min (qStart + BLOCK_SIZE) (b_columns b) in
          let* (bl, _) := for_ pStart pEnd (fun p s =>
            for_ qStart qEnd (fun q '(bl, k) =>
              let* x := zget tBlock k in
              let* y := m_At mat p q in
              let* bl := mset bl blockIndex k (x - y)%f in
              Ok (bl, k + 1)) s) (bl, 0) in
          Ok (bl, blockIndex + 1)) s) (b_blocks out, 0) in
      Ok (with_blocks out bl)
  end.

(** ScalarAdd, ScalarMultiply: block_real_matrix.go:286-319. *)
Definition b_ScalarAdd (b : Block) (d : F) : res Block :=
  let* out := orpanic (NewBlockRealMatrix (b_rows b) (b_columns b)) in
  let* bl := for_ 0 (len (b_blocks out)) (fun blockIndex bl =>
    let* tBlock := zget (b_blocks b) blockIndex in
    let* oBlock := zget bl blockIndex in
    for_ 0 (len oBlock) (fun k bl =>
      let* x := zget tBlock k in
      mset bl blockIndex k (x + d)%f) bl) (b_blocks out) in
  Ok (with_blocks out bl).
Definition b_ScalarMultiply (b : Block) (d : F) : res Block :=
  let* out := orpanic (NewBlockRealMatrix (b_rows b) (b_columns b)) in
  let* bl := for_ 0 (len (b_blocks out)) (fun blockIndex bl =>
    let* tBlock := zget (b_blocks b) blockIndex in
    let* oBlock := zget bl blockIndex in
    for_ 0 (len oBlock) (fun k bl =>
      let* x := zget tBlock k in
      mset bl blockIndex k (x * d)%f) bl) (b_blocks out) in
  Ok (with_blocks out bl).

(** The inner dot product of Multiply, block_real_matrix.go:356-373: four
    products at a time, then one at a time.  At most BLOCK_SIZE iterations of
    each loop are possible, used as fuel. *)
Definition b_dot4 (tBlock mBlock : vec) (jWidth lStart lEnd nStart : Z) : res F :=
  let jWidth2 := jWidth + jWidth in
  let jWidth3 := jWidth2 + jWidth in
  let jWidth4 := jWidth3 + jWidth in
  let* (sum, l, n) := while_ (Z.to_nat (BLOCK_SIZE + 1))
    (fun '(sum, l, n) => l <? lEnd - 3)
    (fun '(sum, l, n) =>
      let* t0 := zget tBlock l in let* m0 := zget mBlock n in
      let* t1 := zget tBlock (l + 1) in let* m1 := zget mBlock (n + jWidth) in
      let* t2 := zget tBlock (l + 2) in let* m2 := zget mBlock (n + jWidth2) in
      let* t3 := zget tBlock (l + 3) in let* m3 := zget mBlock (n + jWidth3) in
      Ok ((sum + (t0 * m0 + t1 * m1 + t2 * m2 + t3 * m3))%f, l + 4, n + jWidth4))
    (fzero, lStart, nStart) in
  let* (sum, _, _) := while_ (Z.to_nat (BLOCK_SIZE + 1))
    (fun '(sum, l, n) => l <? lEnd)
    (fun '(sum, l, n) =>
      let* t0 := zget tBlock l in let* m0 := zget mBlock n in
      Ok ((sum + t0 * m0)%f, l + 1, n + jWidth))
    (sum, l, n) in
  Ok sum.

(** Multiply: block_real_matrix.go:321-424. *)
Definition b_Multiply (b : Block) (mat : RealMatrix) : res Block :=
  let* _ := orpanic (checkMultiplicationCompatible (MBlk b) mat) in
  match mat with
  | MBlk m =>
      let* out := orpanic (NewBlockRealMatrix (b_rows b) (b_columns m)) in
      let* (bl, _) := for_ 0 (b_blockRows out) (fun iBlock s =>
        let pStart := iBlock * BLOCK_SIZE in
        let pEnd := Z.min (pStart + BLOCK_SIZE) (b_rows b) in
        for_ 0 (b_blockColumns out) (fun jBlock '(bl, blockIndex) =>
          let jWidth := blockWidth out jBlock in
          let* bl := for_ 0 (b_blockColumns b) (fun kBlock bl =>
            let kWidth := blockWidth b kBlock in
            let* tBlock := zget (b_blocks b) (iBlock * b_blockColumns b + kBlock) in
            let* mBlock := zget (b_blocks m) (kBlock * b_blockColumns m + jBlock) in
            let* (bl, _) := for_ pStart pEnd (fun p s =>
              let lStart := (p - pStart) * kWidth in
              let lEnd := lStart + kWidth in
              for_ 0 jWidth (fun nStart '(bl, k) =>
                let* sum := b_dot4 tBlock mBlock jWidth lStart lEnd nStart in
                let* o := mget bl blockIndex k in
                let* bl := mset bl blockIndex k (o + sum)%f in
                Ok (bl, k + 1)) s) (bl, 0) in
            Ok bl) bl in
          Ok (bl, blockIndex + 1)) s) (b_blocks out, 0) in
      Ok (with_blocks out bl)
  | _ =>
      let* mcols := m_cols mat in
      let* out := orpanic (NewBlockRealMatrix (b_rows b) mcols) in
      let* (bl, _) := for_ 0 (b_blockRows out) (fun iBlock s =>
        let pStart := iBlock * BLOCK_SIZE in
        let pEnd := Z.min (pStart + BLOCK_SIZE) (b_rows b) in
        for_ 0 (b_blockColumns out) (fun jBlock '(bl, blockIndex) =>
          let qStart := jBlock * BLOCK_SIZE in
          let qEnd := Z.min (qStart + BLOCK_SIZE) mcols in
          let* bl := for_ 0 (b_blockColumns b) (fun kBlock bl =>
            let kWidth := blockWidth b kBlock in
            let* tBlock := zget (b_blocks b) (iBlock * b_blockColumns b + kBlock) in
            let rStart := kBlock * BLOCK_SIZE in
            let* (bl, _) := for_ pStart pEnd (fun p s =>
              let lStart := (p - pStart) * kWidth in
              let lEnd := lStart + kWidth in
              for_ qStart qEnd (fun q '(bl, k) =>
                let* (sum, _) := for_ lStart lEnd (fun l '(sum, r) =>
                  let* t := zget tBlock l in
                  let* y := m_At mat r q in
                  Ok ((sum + t * y)%f, r + 1)) (fzero, rStart) in
                let* o := mget bl blockIndex k in
                let* bl := mset bl blockIndex k (o + sum)%f in
                Ok (bl, k + 1)) s) (bl, 0) in
            Ok bl) bl in
          Ok (bl, blockIndex + 1)) s) (b_blocks out, 0) in
      Ok (with_blocks out bl)
  end.

(** Data: block_real_matrix.go:426-450. *)
Definition b_Data (b : Block) : res mat :=
  let* data := make [] (b_rows b) in
  let lastColumns := b_columns b - (b_blockColumns b - 1) * BLOCK_SIZE in
  for_ 0 (b_blockRows b) (fun iBlock data =>
    let pStart := iBlock * BLOCK_SIZE in
    let pEnd := Z.min (pStart + BLOCK_SIZE) (b_rows b) in
    let* (data, _, _) := for_ pStart pEnd (fun p '(data, regularPos, lastPos) =>
      let* dp := make fzero (b_columns b) in
      let* (dp, blockIndex, dataPos) := for_ 0 (b_blockColumns b - 1)
        (fun jBlock '(dp, blockIndex, dataPos) =>
          let* blk := zget (b_blocks b) blockIndex in
          let* dp := slice_copy dp dataPos (dataPos + BLOCK_SIZE) blk regularPos (regularPos + BLOCK_SIZE) in
          Ok (dp, blockIndex + 1, dataPos + BLOCK_SIZE)) (dp, iBlock * b_blockColumns b, 0) in
      let* blk := zget (b_blocks b) blockIndex in
      let* dp := slice_copy dp dataPos (dataPos + lastColumns) blk lastPos (lastPos + lastColumns) in
      let* data := zset data p dp in
      Ok (data, regularPos + BLOCK_SIZE, lastPos + lastColumns)) (data, 0, 0) in
    Ok data) data.

(** Trace: block_real_matrix.go:452-463. *)
Definition b_Trace (b : Block) : res F :=
  if negb (b_rows b =? b_columns b) then Panic ENonSquare else
  for_ 0 (b_rows b) (fun i trace => let* x := b_At b i i in Ok (trace + x)%f) fzero.

(** copyBlockPart: block_real_matrix.go:531-540; returns the new [dstBlock]. *)
Definition copyBlockPart (srcBlock : vec) (srcWidth srcStartRow srcEndRow srcStartColumn srcEndColumn : Z)
    (dstBlock : vec) (dstWidth dstStartRow dstStartColumn : Z) : res vec :=
  let length := srcEndColumn - srcStartColumn in
  let* (dst, _, _) := for_ srcStartRow srcEndRow (fun srcRow '(dst, srcPos, dstPos) =>
    let* dst := slice_copy dst dstPos (dstPos + length) srcBlock srcPos (srcPos + length) in
    Ok (dst, srcPos + srcWidth, dstPos + dstWidth))
    (dstBlock, srcStartRow * srcWidth + srcStartColumn, dstStartRow * dstWidth + dstStartColumn) in
  Ok dst.

(** SubMatrix: block_real_matrix.go:465-529. *)
Definition b_SubMatrix (b : Block) (startRow endRow startColumn endColumn : Z) : res Block :=
  let* _ := orpanic (checkSubMatrixIndex (MBlk b) startRow endRow startColumn endColumn) in
  let* out := orpanic (NewBlockRealMatrix (endRow - startRow + 1) (endColumn - startColumn + 1)) in
  let blockStartRow := startRow / BLOCK_SIZE in
  let rowsShift := startRow mod BLOCK_SIZE in
  let blockStartColumn := startColumn / BLOCK_SIZE in
  let columnsShift := startColumn mod BLOCK_SIZE in
  let blk i := zget (b_blocks b) i in
  let* (bl, _) := for_ 0 (b_blockRows out) (fun iBlock '(bl, pBlock) =>
    let iHeight := blockHeight out iBlock in
    let* (bl, _) := for_ 0 (b_blockColumns out) (fun jBlock '(bl, qBlock) =>
      let jWidth := blockWidth out jBlock in
      let outIndex := iBlock * b_blockColumns out + jBlock in
      let index := pBlock * b_blockColumns b + qBlock in
      let width := blockWidth b qBlock in
      let heightExcess := iHeight + rowsShift - BLOCK_SIZE in
      let widthExcess := jWidth + columnsShift - BLOCK_SIZE in
      let* bl :=
        if 0 <? heightExcess then
          if 0 <? widthExcess then
            let width2 := blockWidth b (qBlock + 1) in
            let* s := blk index in let* o := zget bl outIndex in
            let* o := copyBlockPart s width rowsShift BLOCK_SIZE columnsShift BLOCK_SIZE o jWidth 0 0 in
            let* bl := zset bl outIndex o in
            let* s := blk (index + 1) in let* o := zget bl outIndex in
            let* o := copyBlockPart s width2 rowsShift BLOCK_SIZE 0 widthExcess o jWidth 0 (jWidth - widthExcess) in
            let* bl := zset bl outIndex o in
            let* s := blk (index + b_blockColumns b) in let* o := zget bl outIndex in
            let* o := copyBlockPart s width 0 heightExcess columnsShift BLOCK_SIZE o jWidth (iHeight - heightExcess) 0 in
            let* bl := zset bl outIndex o in
            let* s := blk (index + b_blockColumns b + 1) in let* o := zget bl outIndex in
            let* o := copyBlockPart s width2 0 heightExcess 0 widthExcess o jWidth (iHeight - heightExcess) (jWidth - widthExcess) in
            zset bl outIndex o
          else
            let* s := blk index in let* o := zget bl outIndex in
            let* o := copyBlockPart s width rowsShift BLOCK_SIZE columnsShift (jWidth + columnsShift) o jWidth 0 0 in
            let* bl := zset bl outIndex o in
            let* s := blk (index + b_blockColumns b) in let* o := zget bl outIndex in
            let* o := copyBlockPart s width 0 heightExcess columnsShift (jWidth + columnsShift) o jWidth (iHeight - heightExcess) 0 in
            zset bl outIndex o
        else
          if 0 <? widthExcess then
            let width2 := blockWidth b (qBlock + 1) in
            let* s := blk index in let* o := zget bl outIndex in
            let* o := copyBlockPart s width rowsShift (iHeight + rowsShift) columnsShift BLOCK_SIZE o jWidth 0 0 in
            let* bl := zset bl outIndex o in
            let* s := blk (index + 1) in let* o := zget bl outIndex in
            let* o := copyBlockPart s width2 rowsShift (iHeight + rowsShift) 0 widthExcess o jWidth 0 (jWidth - widthExcess) in
            zset bl outIndex o
          else
            let* s := blk index in let* o := zget bl outIndex in
            let* o := copyBlockPart s width rowsShift (iHeight + rowsShift) columnsShift (jWidth + columnsShift) o jWidth 0 0 in
            zset bl outIndex o in
      Ok (bl, qBlock + 1)) (bl, blockStartColumn) in
    Ok (bl, pBlock + 1)) (b_blocks out, blockStartRow) in
  Ok (with_blocks out bl).

(** SetSubMatrix: block_real_matrix.go:542-591; [None] is nil. *)
Definition b_SetSubMatrix (b : Block) (subMatrix : option mat) (row column : Z) : res Block :=
  match subMatrix with
  | None => Panic EInvalidArgument
  | Some sub =>
    let* sub0 := zget sub 0 in
    let refLength := len sub0 in
    if refLength =? 0 then Panic ENoData else
    let endRow := row + len sub - 1 in
    let endColumn := column + refLength - 1 in
    let* _ := orpanic (checkSubMatrixIndex (MBlk b) row endRow column endColumn) in
    let* _ := for_ 0 (len sub) (fun i _ =>
      let* subRow := zget sub i in
      if negb (len subRow =? refLength) then Panic EDimMismatch else Ok tt) tt in
    let blockStartRow := row / BLOCK_SIZE in
    let blockEndRow := (endRow + BLOCK_SIZE) / BLOCK_SIZE in
    let blockStartColumn := column / BLOCK_SIZE in
    let blockEndColumn := (endColumn + BLOCK_SIZE) / BLOCK_SIZE in
    let* bl := for_ blockStartRow blockEndRow (fun iBlock bl =>
      let iHeight := blockHeight b iBlock in
      let firstRow := iBlock * BLOCK_SIZE in
      let iStart := Z.max row firstRow in
      let iEnd := Z.min (endRow + 1) (firstRow + iHeight) in
      for_ blockStartColumn blockEndColumn (fun jBlock bl =>
        let jWidth := blockWidth b jBlock in
        let firstColumn := jBlock * BLOCK_SIZE in
        let jStart := Z.max column firstColumn in
        let jEnd := Z.min (endColumn + 1) (firstColumn + jWidth) in
        let jLength := jEnd - jStart in
        for_ iStart iEnd (fun i bl =>
          let pos := (i - firstRow) * jWidth + (jStart - firstColumn) in
          let idx := iBlock * b_blockColumns b + jBlock in
          let* dst := zget bl idx in
          let* src := zget sub (i - row) in
          let* dst := slice_copy dst pos (pos + jLength) src (jStart - column) ((jStart - column) + jLength) in
          zset bl idx dst) bl) bl) (b_blocks b) in
    Ok (with_blocks b bl)
  end.

(** RowMatrixAt: block_real_matrix.go:593-622. *)
Definition b_RowMatrixAt (b : Block) (row : Z) : res Block :=
  let* _ := orpanic (checkRowIndex (MBlk b) row) in
  let* out := orpanic (NewBlockRealMatrix 1 (b_columns b)) in
  let iBlock := row / BLOCK_SIZE in
  let iRow := row - iBlock * BLOCK_SIZE in
  let* (bl, _, _) := for_ 0 (b_blockColumns b) (fun jBlock '(bl, outBlockIndex, outIndex) =>
    let jWidth := blockWidth b jBlock in
    let* ob := zget bl outBlockIndex in
    let available := len ob - outIndex in
    let* src := zget (b_blocks b) (iBlock * b_blockColumns b + jBlock) in
    if available <? jWidth then
      let* ob := slice_copy ob outIndex (outIndex + available) src (iRow * jWidth) (iRow * jWidth + available) in
      let* bl := zset bl outBlockIndex ob in
      let outBlockIndex := outBlockIndex + 1 in
      let* ob := zget bl outBlockIndex in
      let* ob := slice_copy ob 0 (jWidth - available) src (iRow * jWidth) (iRow * jWidth + (jWidth - available)) in
      let* bl := zset bl outBlockIndex ob in
      Ok (bl, outBlockIndex, jWidth - available)
    else
      let* ob := slice_copy ob outIndex (outIndex + jWidth) src (iRow * jWidth) (iRow * jWidth + jWidth) in
      let* bl := zset bl outBlockIndex ob in
      Ok (bl, outBlockIndex, outIndex + jWidth)) (b_blocks out, 0, 0) in
  Ok (with_blocks out bl).

(** SetRowMatrix: block_real_matrix.go:624-658. *)
Definition b_SetRowMatrix (b : Block) (row : Z) (mat : RealMatrix) : res Block :=
  let* _ := orpanic (checkRowIndex (MBlk b) row) in
  let nCols := b_columns b in
  let* mc := m_cols mat in
  if negb (m_rows mat =? 1) || negb (mc =? nCols) then Panic EMatDimMismatch else
  match mat with
  | MBlk m =>
      let iBlock := row / BLOCK_SIZE in
      let iRow := row - iBlock * BLOCK_SIZE in
      let* (bl, _, _) := for_ 0 (b_blockColumns b) (fun jBlock '(bl, mBlockIndex, mIndex) =>
        let jWidth := blockWidth b jBlock in
        let* mb := zget (b_blocks m) mBlockIndex in
        let available := len mb - mIndex in
        let idx := iBlock * b_blockColumns b + jBlock in
        let* dst := zget bl idx in
        if available <? jWidth then
          let* dst := slice_copy dst (iRow * jWidth) (iRow * jWidth + available) mb mIndex (mIndex + available) in
          let mBlockIndex := mBlockIndex + 1 in
          let* mb := zget (b_blocks m) mBlockIndex in
          let* dst := slice_copy dst (iRow * jWidth) (iRow * jWidth + (jWidth - available)) mb 0 (jWidth - available) in
          let* bl := zset bl idx dst in
          Ok (bl, mBlockIndex, jWidth - available)
        else
          let* dst := slice_copy dst (iRow * jWidth) (iRow * jWidth + jWidth) mb mIndex (mIndex + jWidth) in
          let* bl := zset bl idx dst in
          Ok (bl, mBlockIndex, mIndex + jWidth)) (b_blocks b, 0, 0) in
      Ok (with_blocks b bl)
  | _ =>
      for_ 0 nCols (fun i b => let* x := m_At mat 0 i in b_SetEntry b row i x) b
  end.

(** ColumnMatrixAt: block_real_matrix.go:660-688. *)
Definition b_ColumnMatrixAt (b : Block) (column : Z) : res Block :=
  let* _ := orpanic (checkColumnIndex (MBlk b) column) in
  let* out := orpanic (NewBlockRealMatrix (b_rows b) 1) in
  let jBlock := column / BLOCK_SIZE in
  let jColumn := column - jBlock * BLOCK_SIZE in
  let jWidth := blockWidth b jBlock in
  let* (bl, _, _) := for_ 0 (b_blockRows b) (fun iBlock s =>
    let iHeight := blockHeight b iBlock in
    for_ 0 iHeight (fun i '(bl, outBlockIndex, outIndex) =>
      let* ob := zget bl outBlockIndex in
      let '(outBlockIndex, outIndex) :=
        if len ob <=? outIndex then (outBlockIndex + 1, 0) else (outBlockIndex, outIndex) in
      let* x := mget (b_blocks b) (iBlock * b_blockColumns b + jBlock) (i * jWidth + jColumn) in
      let* bl := mset bl outBlockIndex outIndex x in
      Ok (bl, outBlockIndex, outIndex + 1)) s) (b_blocks out, 0, 0) in
  Ok (with_blocks out bl).

(** SetColumnMatrix: block_real_matrix.go:690-722. *)
Definition b_SetColumnMatrix (b : Block) (column : Z) (mat : RealMatrix) : res Block :=
  let* _ := orpanic (checkColumnIndex (MBlk b) column) in
  let nRows := b_rows b in
  let* mc := m_cols mat in
  if negb (m_rows mat =? nRows) || negb (mc =? 1) then Panic EMatDimMismatch else
  match mat with
  | MBlk m =>
      let jBlock := column / BLOCK_SIZE in
      let jColumn := column - jBlock * BLOCK_SIZE in
      let jWidth := blockWidth b jBlock in
      let* (bl, _, _) := for_ 0 (b_blockRows b) (fun iBlock s =>
        let iHeight := blockHeight b iBlock in
        for_ 0 iHeight (fun i '(bl, mBlockIndex, mIndex) =>
          let* mb := zget (b_blocks m) mBlockIndex in
          let '(mBlockIndex, mIndex) :=
            if len mb <=? mIndex then (mBlockIndex + 1, 0) else (mBlockIndex, mIndex) in
          let* x := mget (b_blocks m) mBlockIndex mIndex in
          let* bl := mset bl (iBlock * b_blockColumns b + jBlock) (i * jWidth + jColumn) x in
          Ok (bl, mBlockIndex, mIndex + 1)) s) (b_blocks b, 0, 0) in
      Ok (with_blocks b bl)
  | _ =>
      for_ 0 nRows (fun i b => let* x := m_At mat i 0 in b_SetEntry b i column x) b
  end.

(** RowAt: block_real_matrix.go:803-820; RowVectorAt:
    block_real_matrix.go:724-743 has the same body. *)
Definition b_RowAt (b : Block) (row : Z) : res vec :=
  let* _ := orpanic (checkRowIndex (MBlk b) row) in
  let* out := make fzero (b_columns b) in
  let iBlock := row / BLOCK_SIZE in
  let iRow := row - iBlock * BLOCK_SIZE in
  let* (out, _) := for_ 0 (b_blockColumns b) (fun jBlock '(out, outIndex) =>
    let jWidth := blockWidth b jBlock in
    let* src := zget (b_blocks b) (iBlock * b_blockColumns b + jBlock) in
    let* out := slice_copy out outIndex (outIndex + jWidth) src (iRow * jWidth) (iRow * jWidth + jWidth) in
    Ok (out, outIndex + jWidth)) (out, 0) in
  Ok out.
Definition b_RowVectorAt (b : Block) (row : Z) : res RealVector :=
  let* out := b_RowAt b row in Ok (VArr out).

(** SetRow: block_real_matrix.go:822-840. *)
Definition b_SetRow (b : Block) (row : Z) (array : vec) : res Block :=
  let* _ := orpanic (checkRowIndex (MBlk b) row) in
  let nCols := b_columns b in
  if negb (len array =? nCols) then Panic EMatDimMismatch else
  let iBlock := row / BLOCK_SIZE in
  let iRow := row - iBlock * BLOCK_SIZE in
  let* (bl, _) := for_ 0 (b_blockColumns b) (fun jBlock '(bl, outIndex) =>
    let jWidth := blockWidth b jBlock in
    let idx := iBlock * b_blockColumns b + jBlock in
    let* dst := zget bl idx in
    let* dst := slice_copy dst (iRow * jWidth) (iRow * jWidth + jWidth) array outIndex (outIndex + jWidth) in
    let* bl := zset bl idx dst in
    Ok (bl, outIndex + jWidth)) (b_blocks b, 0) in
  Ok (with_blocks b bl).

(** SetRowVector: block_real_matrix.go:745-760.  The name [vec] is shadowed, so
    in the else branch it is a nil *ArrayRealVector and [vec.Dimension()]
    dereferences nil. *)
Definition b_SetRowVector (b : Block) (row : Z) (v : RealVector) : res Block :=
  match v with
  | VArr d => b_SetRow b row d
  | VOther _ =>
      let* _ := orpanic (checkRowIndex (MBlk b) row) in Panic ERuntime
  end.

(** ColumnAt: block_real_matrix.go:842-862; ColumnVectorAt:
    block_real_matrix.go:762-784 has the same body. *)
Definition b_ColumnAt (b : Block) (column : Z) : res vec :=
  let* _ := orpanic (checkColumnIndex (MBlk b) column) in
  let* out := make fzero (b_rows b) in
  let jBlock := column / BLOCK_SIZE in
  let jColumn := column - jBlock * BLOCK_SIZE in
  let jWidth := blockWidth b jBlock in
  let* (out, _) := for_ 0 (b_blockRows b) (fun iBlock s =>
    let iHeight := blockHeight b iBlock in
    for_ 0 iHeight (fun i '(out, outIndex) =>
      let* x := mget (b_blocks b) (iBlock * b_blockColumns b + jBlock) (i * jWidth + jColumn) in
      let* out := zset out outIndex x in
      Ok (out, outIndex + 1)) s) (out, 0) in
  Ok out.
Definition b_ColumnVectorAt (b : Block) (column : Z) : res RealVector :=
  let* out := b_ColumnAt b column in Ok (VArr out).

(** SetColumn: block_real_matrix.go:864-885. *)
Definition b_SetColumn (b : Block) (column : Z) (array : vec) : res Block :=
  let* _ := orpanic (checkColumnIndex (MBlk b) column) in
  let nRows := b_rows b in
  if negb (len array =? nRows) then Panic EMatDimMismatch else
  let jBlock := column / BLOCK_SIZE in
  let jColumn := column - jBlock * BLOCK_SIZE in
  let jWidth := blockWidth b jBlock in
  let* (bl, _) := for_ 0 (b_blockRows b) (fun iBlock s =>
    let iHeight := blockHeight b iBlock in
    for_ 0 iHeight (fun i '(bl, outIndex) =>
      let* x := zget array outIndex in
      let* bl := mset bl (iBlock * b_blockColumns b + jBlock) (i * jWidth + jColumn) x in
      Ok (bl, outIndex + 1)) s) (b_blocks b, 0) in
  Ok (with_blocks b bl).

(** SetColumnVector: block_real_matrix.go:786-801 (shadowed [vec] as in
    SetRowVector). *)
Definition b_SetColumnVector (b : Block) (column : Z) (v : RealVector) : res Block :=
  match v with
  | VArr d => b_SetColumn b column d
  | VOther _ =>
      let* _ := orpanic (checkColumnIndex (MBlk b) column) in Panic ERuntime
  end.

(** Transpose: block_real_matrix.go:927-963. *)
Definition b_Transpose (b : Block) : res Block :=
  let nRows := b_rows b in
  let nCols := b_columns b in
  let* blocks := createBlocksLayout nCols nRows in
  let* (blocks, _) := for_ 0 (b_blockColumns b) (fun iBlock s =>
    for_ 0 (b_blockRows b) (fun jBlock '(bl, blockIndex) =>
      let pStart := iBlock * BLOCK_SIZE in
      let pEnd := Z.min (pStart + BLOCK_SIZE) (b_columns b) in
      let qStart := jBlock * BLOCK_SIZE in
      let qEnd := Z.min (qStart + BLOCK_SIZE) (b_rows b) in
      let* (bl, _) := for_ pStart pEnd (fun p '(bl, k) =>
        let lInc := pEnd - pStart in
        let* (bl, k, _) := for_ qStart qEnd (fun q '(bl, k, l) =>
          let* x := mget (b_blocks b) (jBlock * b_blockColumns b + iBlock) l in
          let* bl := mset bl blockIndex k x in
          Ok (bl, k + 1, l + lInc)) (bl, k, p - pStart) in
        Ok (bl, k)) (bl, 0) in
      Ok (bl, blockIndex + 1)) s) (blocks, 0) in
  Ok (mkBlock blocks nCols nRows
        ((nCols + BLOCK_SIZE - 1) / BLOCK_SIZE) ((nRows + BLOCK_SIZE - 1) / BLOCK_SIZE)).

(** Operate: block_real_matrix.go:1000-1036. *)
Definition b_Operate (b : Block) (v : vec) : res vec :=
  if negb (len v =? b_columns b) then Panic EDimMismatch else
  let* out := make fzero (b_rows b) in
  for_ 0 (b_blockRows b) (fun iBlock out =>
    let pStart := iBlock * BLOCK_SIZE in
    let pEnd := Z.min (pStart + BLOCK_SIZE) (b_rows b) in
    for_ 0 (b_blockColumns b) (fun jBlock out =>
      let qStart := jBlock * BLOCK_SIZE in
      let qEnd := Z.min (qStart + BLOCK_SIZE) (b_columns b) in
      let idx := iBlock * b_blockColumns b + jBlock in
      let* (out, _) := for_ pStart pEnd (fun p '(out, k) =>
        let* (sum, k, q) := while_ (Z.to_nat (BLOCK_SIZE + 1))
          (fun '(sum, k, q) => q <? qEnd - 3)
          (fun '(sum, k, q) =>
            let* x0 := mget (b_blocks b) idx k in let* y0 := zget v q in
            let* x1 := mget (b_blocks b) idx (k + 1) in let* y1 := zget v (q + 1) in
            let* x2 := mget (b_blocks b) idx (k + 2) in let* y2 := zget v (q + 2) in
            let* x3 := mget (b_blocks b) idx (k + 3) in let* y3 := zget v (q + 3) in
            Ok ((sum + (x0 * y0 + x1 * y1 + x2 * y2 + x3 * y3))%f, k + 4, q + 4))
          (fzero, k, qStart) in
        let* (sum, k, _) := while_ (Z.to_nat (BLOCK_SIZE + 1))
          (fun '(sum, k, q) => q <? qEnd)
          (fun '(sum, k, q) =>
            let* x0 := mget (b_blocks b) idx k in let* y0 := zget v q in
            Ok ((sum + x0 * y0)%f, k + 1, q + 1))
          (sum, k, q) in
        let* o := zget out p in
        let* out := zset out p (o + sum)%f in
        Ok (out, k)) (out, 0) in
      Ok out) out) out.

(** OperateVector: block_real_matrix.go:973-998 (nil dereference in the else
    branch as in Array2DRowRealMatrix). *)
Definition b_OperateVector (b : Block) (v : RealVector) : res RealVector :=
  match v with
  | VArr d => let* out := b_Operate b d in Ok (VArr out)
  | VOther _ => Panic ERuntime
  end.

(** PreMultiply: block_real_matrix.go:1068-1108. *)
Definition b_PreMultiply (b : Block) (v : vec) : res vec :=
  if negb (len v =? b_rows b) then Panic EDimMismatch else
  let* out := make fzero (b_columns b) in
  for_ 0 (b_blockColumns b) (fun jBlock out =>
    let jWidth := blockWidth b jBlock in
    let jWidth2 := jWidth + jWidth in
    let jWidth3 := jWidth2 + jWidth in
    let jWidth4 := jWidth3 + jWidth in
    let qStart := jBlock * BLOCK_SIZE in
    let qEnd := Z.min (qStart + BLOCK_SIZE) (b_columns b) in
    for_ 0 (b_blockRows b) (fun iBlock out =>
      let pStart := iBlock * BLOCK_SIZE in
      let pEnd := Z.min (pStart + BLOCK_SIZE) (b_rows b) in
      let idx := iBlock * b_blockColumns b + jBlock in
      for_ qStart qEnd (fun q out =>
        let* (sum, k, p) := while_ (Z.to_nat (BLOCK_SIZE + 1))
          (fun '(sum, k, p) => p <? pEnd - 3)
          (fun '(sum, k, p) =>
            let* x0 := mget (b_blocks b) idx k in let* y0 := zget v p in
            let* x1 := mget (b_blocks b) idx (k + jWidth) in let* y1 := zget v (p + 1) in
            let* x2 := mget (b_blocks b) idx (k + jWidth2) in let* y2 := zget v (p + 2) in
            let* x3 := mget (b_blocks b) idx (k + jWidth3) in let* y3 := zget v (p + 3) in
            Ok ((sum + (x0 * y0 + x1 * y1 + x2 * y2 + x3 * y3))%f, k + jWidth4, p + 4))
          (fzero, q - qStart, pStart) in
        let* (sum, _, _) := while_ (Z.to_nat (BLOCK_SIZE + 1))
          (fun '(sum, k, p) => p <? pEnd)
          (fun '(sum, k, p) =>
            let* x0 := mget (b_blocks b) idx k in let* y0 := zget v p in
            Ok ((sum + x0 * y0)%f, k + jWidth, p + 1))
          (sum, k, p) in
        let* o := zget out q in
        zset out q (o + sum)%f) out) out) out.

(** PreMultiplyVector: block_real_matrix.go:1042-1066. *)
Definition b_PreMultiplyVector (b : Block) (v : RealVector) : res RealVector :=
  match v with
  | VArr d => let* out := b_PreMultiply b d in Ok (VArr out)
  | VOther _ => Panic ERuntime
  end.

(** One visit of the cell stored at [blocks[idx][k]]. *)
Definition b_cell {St} (v : MatVisitor St) (bl : mat) (idx k p q : Z) (st : St) : res St :=
  let* x := mget bl idx k in
  let* (_, st) := mv_visit v p q x st in Ok st.
Definition b_ucell {St} (v : MatVisitor St) (idx k p q : Z) '((bl, st) : mat * St) : res (mat * St) :=
  let* x := mget bl idx k in
  let* (y, st) := mv_visit v p q x st in
  let* bl := mset bl idx k y in Ok (bl, st).

(** WalkInUpdateRowOrder: block_real_matrix.go:1110-1129. *)
Definition b_WalkInUpdateRowOrder {St} (b : Block) (v : MatVisitor St) (st : St) : res (Block * St * F) :=
  let st := mv_start v (b_rows b) (b_columns b) 0 (b_rows b - 1) 0 (b_columns b - 1) st in
  let* (bl, st) := for_ 0 (b_blockRows b) (fun iBlock s =>
    let pStart := iBlock * BLOCK_SIZE in
    let pEnd := Z.min (pStart + BLOCK_SIZE) (b_rows b) in
    for_ pStart pEnd (fun p s =>
      for_ 0 (b_blockColumns b) (fun jBlock s =>
        let jWidth := blockWidth b jBlock in
        let qStart := jBlock * BLOCK_SIZE in
        let qEnd := Z.min (qStart + BLOCK_SIZE) (b_columns b) in
        let* (s, _) := for_ qStart qEnd (fun q '(s, k) =>
          let* s := b_ucell v (iBlock * b_blockColumns b + jBlock) k p q s in
          Ok (s, k + 1)) (s, (p - pStart) * jWidth) in
        Ok s) s) s) (b_blocks b, st) in
  Ok (with_blocks b bl, st, mv_end v st).

(** WalkInRowOrder: block_real_matrix.go:1131-1150. *)
Definition b_WalkInRowOrder {St} (b : Block) (v : MatVisitor St) (st : St) : res (St * F) :=
  let st := mv_start v (b_rows b) (b_columns b) 0 (b_rows b - 1) 0 (b_columns b - 1) st in
  let* st := for_ 0 (b_blockRows b) (fun iBlock s =>
    let pStart := iBlock * BLOCK_SIZE in
    let pEnd := Z.min (pStart + BLOCK_SIZE) (b_rows b) in
    for_ pStart pEnd (fun p s =>
      for_ 0 (b_blockColumns b) (fun jBlock s =>
        let jWidth := blockWidth b jBlock in
        let qStart := jBlock * BLOCK_SIZE in
        let qEnd := Z.min (qStart + BLOCK_SIZE) (b_columns b) in
        let* (s, _) := for_ qStart qEnd (fun q '(s, k) =>
          let* s := b_cell v (b_blocks b) (iBlock * b_blockColumns b + jBlock) k p q s in
          Ok (s, k + 1)) (s, (p - pStart) * jWidth) in
        Ok s) s) s) st in
  Ok (st, mv_end v st).

(** WalkInUpdateRowOrderBounded: block_real_matrix.go:1152-1176. *)
Definition b_WalkInUpdateRowOrderBounded {St} (b : Block) (v : MatVisitor St)
    (startRow endRow startColumn endColumn : Z) (st : St) : res (Block * St * F) :=
  let* _ := orpanic (checkSubMatrixIndex (MBlk b) startRow endRow startColumn endColumn) in
  let st := mv_start v (b_rows b) (b_columns b) startRow endRow startColumn endColumn st in
  let* (bl, st) := for_ (startRow / BLOCK_SIZE) (1 + endRow / BLOCK_SIZE) (fun iBlock s =>
    let p0 := iBlock * BLOCK_SIZE in
    let pStart := Z.max startRow p0 in
    let pEnd := Z.min ((iBlock + 1) * BLOCK_SIZE) (1 + endRow) in
    for_ pStart pEnd (fun p s =>
      for_ (startColumn / BLOCK_SIZE) (1 + endColumn / BLOCK_SIZE) (fun jBlock s =>
        let jWidth := blockWidth b jBlock in
        let q0 := jBlock * BLOCK_SIZE in
        let qStart := Z.max startColumn q0 in
        let qEnd := Z.min ((jBlock + 1) * BLOCK_SIZE) (1 + endColumn) in
        let* (s, _) := for_ qStart qEnd (fun q '(s, k) =>
          let* s := b_ucell v (iBlock * b_blockColumns b + jBlock) k p q s in
          Ok (s, k + 1)) (s, (p - p0) * jWidth + qStart - q0) in
        Ok s) s) s) (b_blocks b, st) in
  Ok (with_blocks b bl, st, mv_end v st).

(** WalkInRowOrderBounded: block_real_matrix.go:1178-1202. *)
Definition b_WalkInRowOrderBounded {St} (b : Block) (v : MatVisitor St)
    (startRow endRow startColumn endColumn : Z) (st : St) : res (St * F) :=
  let* _ := orpanic (checkSubMatrixIndex (MBlk b) startRow endRow startColumn endColumn) in
  let st := mv_start v (b_rows b) (b_columns b) startRow endRow startColumn endColumn st in
  let* st := for_ (startRow / BLOCK_SIZE) (1 + endRow / BLOCK_SIZE) (fun iBlock s =>
    let p0 := iBlock * BLOCK_SIZE in
    let pStart := Z.max startRow p0 in
    let pEnd := Z.min ((iBlock + 1) * BLOCK_SIZE) (1 + endRow) in
    for_ pStart pEnd (fun p s =>
      for_ (startColumn / BLOCK_SIZE) (1 + endColumn / BLOCK_SIZE) (fun jBlock s =>
        let jWidth := blockWidth b jBlock in
        let q0 := jBlock * BLOCK_SIZE in
        let qStart := Z.max startColumn q0 in
        let qEnd := Z.min ((jBlock + 1) * BLOCK_SIZE) (1 + endColumn) in
        let* (s, _) := for_ qStart qEnd (fun q '(s, k) =>
          let* s := b_cell v (b_blocks b) (iBlock * b_blockColumns b + jBlock) k p q s in
          Ok (s, k + 1)) (s, (p - p0) * jWidth + qStart - q0) in
        Ok s) s) s) st in
  Ok (st, mv_end v st).

(** WalkInUpdateColumnOrder: block_real_matrix.go:1204-1216. *)
Definition b_WalkInUpdateColumnOrder {St} (b : Block) (v : MatVisitor St) (st : St) : res (Block * St * F) :=
  let rows := b_rows b in
  let columns := b_columns b in
  let st := mv_start v rows columns 0 (rows - 1) 0 (columns - 1) st in
  let* (b, st) := for_ 0 columns (fun column s =>
    for_ 0 rows (fun row '(b, st) =>
      let* oldValue := b_At b row column in
      let* (newValue, st) := mv_visit v row column oldValue st in
      let* b := b_SetEntry b row column newValue in Ok (b, st)) s) (b, st) in
  Ok (b, st, mv_end v st).

(** WalkInColumnOrder: block_real_matrix.go:1218-1228. *)
Definition b_WalkInColumnOrder {St} (b : Block) (v : MatVisitor St) (st : St) : res (St * F) :=
  let rows := b_rows b in
  let columns := b_columns b in
  let st := mv_start v rows columns 0 (rows - 1) 0 (columns - 1) st in
  let* st := for_ 0 columns (fun column s =>
    for_ 0 rows (fun row st =>
      let* x := b_At b row column in
      let* (_, st) := mv_visit v row column x st in Ok st) s) st in
  Ok (st, mv_end v st).

(** WalkInUpdateColumnOrderBounded: block_real_matrix.go:1230-1243. *)
Definition b_WalkInUpdateColumnOrderBounded {St} (b : Block) (v : MatVisitor St)
    (startRow endRow startColumn endColumn : Z) (st : St) : res (Block * St * F) :=
  let* _ := orpanic (checkSubMatrixIndex (MBlk b) startRow endRow startColumn endColumn) in
  let st := mv_start v (b_rows b) (b_columns b) startRow endRow startColumn endColumn st in
  let* (b, st) := for_ startColumn (endColumn + 1) (fun column s =>
    for_ startRow (endRow + 1) (fun row '(b, st) =>
      let* oldValue := b_At b row column in
      let* (newValue, st) := mv_visit v row column oldValue st in
      let* b := b_SetEntry b row column newValue in Ok (b, st)) s) (b, st) in
  Ok (b, st, mv_end v st).

(** WalkInColumnOrderBounded: block_real_matrix.go:1245-1256. *)
Definition b_WalkInColumnOrderBounded {St} (b : Block) (v : MatVisitor St)
    (startRow endRow startColumn endColumn : Z) (st : St) : res (St * F) :=
  let* _ := orpanic (checkSubMatrixIndex (MBlk b) startRow endRow startColumn endColumn) in
  let st := mv_start v (b_rows b) (b_columns b) startRow endRow startColumn endColumn st in
  let* st := for_ startColumn (endColumn + 1) (fun column s =>
    for_ startRow (endRow + 1) (fun row st =>
      let* x := b_At b row column in
      let* (_, st) := mv_visit v row column x st in Ok st) s) st in
  Ok (st, mv_end v st).

(** WalkInUpdateOptimizedOrder: block_real_matrix.go:1258-1279. *)
Definition b_WalkInUpdateOptimizedOrder {St} (b : Block) (v : MatVisitor St) (st : St) : res (Block * St * F) :=
  let st := mv_start v (b_rows b) (b_columns b) 0 (b_rows b - 1) 0 (b_columns b - 1) st in
  let* (s, _) := for_ 0 (b_blockRows b) (fun iBlock s =>
    let pStart := iBlock * BLOCK_SIZE in
    let pEnd := Z.min (pStart + BLOCK_SIZE) (b_rows b) in
    for_ 0 (b_blockColumns b) (fun jBlock '(s, blockIndex) =>
      let qStart := jBlock * BLOCK_SIZE in
      let qEnd := Z.min (qStart + BLOCK_SIZE) (b_columns b) in
      let* (s, _) := for_ pStart pEnd (fun p sk =>
        for_ qStart qEnd (fun q '(s, k) =>
          let* s := b_ucell v blockIndex k p q s in Ok (s, k + 1)) sk) (s, 0) in
      Ok (s, blockIndex + 1)) s) ((b_blocks b, st), 0) in
  let (bl, st) := s : mat * St in
  Ok (with_blocks b bl, st, mv_end v st).

(** WalkInOptimizedOrder: block_real_matrix.go:1280-1300. *)
Definition b_WalkInOptimizedOrder {St} (b : Block) (v : MatVisitor St) (st : St) : res (St * F) :=
  let st := mv_start v (b_rows b) (b_columns b) 0 (b_rows b - 1) 0 (b_columns b - 1) st in
  let* (st, _) := for_ 0 (b_blockRows b) (fun iBlock s =>
    let pStart := iBlock * BLOCK_SIZE in
    let pEnd := Z.min (pStart + BLOCK_SIZE) (b_rows b) in
    for_ 0 (b_blockColumns b) (fun jBlock '(s, blockIndex) =>
      let qStart := jBlock * BLOCK_SIZE in
      let qEnd := Z.min (qStart + BLOCK_SIZE) (b_columns b) in
      let* (s, _) := for_ pStart pEnd (fun p sk =>
        for_ qStart qEnd (fun q '(s, k) =>
          let* s := b_cell v (b_blocks b) blockIndex k p q s in Ok (s, k + 1)) sk) (s, 0) in
      Ok (s, blockIndex + 1)) s) (st, 0) in
  Ok (st, mv_end v st).

(** WalkInUpdateOptimizedOrderBounded: block_real_matrix.go:1302-1326. *)
Definition b_WalkInUpdateOptimizedOrderBounded {St} (b : Block) (v : MatVisitor St)
    (startRow endRow startColumn endColumn : Z) (st : St) : res (Block * St * F) :=
  let* _ := orpanic (checkSubMatrixIndex (MBlk b) startRow endRow startColumn endColumn) in
  let st := mv_start v (b_rows b) (b_columns b) startRow endRow startColumn endColumn st in
  let* (bl, st) := for_ (startRow / BLOCK_SIZE) (1 + endRow / BLOCK_SIZE) (fun iBlock s =>
    let p0 := iBlock * BLOCK_SIZE in
    let pStart := Z.max startRow p0 in
    let pEnd := Z.min ((iBlock + 1) * BLOCK_SIZE) (1 + endRow) in
    for_ (startColumn / BLOCK_SIZE) (1 + endColumn / BLOCK_SIZE) (fun jBlock s =>
      let jWidth := blockWidth b jBlock in
      let q0 := jBlock * BLOCK_SIZE in
      let qStart := Z.max startColumn q0 in
      let qEnd := Z.min ((jBlock + 1) * BLOCK_SIZE) (1 + endColumn) in
      for_ pStart pEnd (fun p s =>
        let* (s, _) := for_ qStart qEnd (fun q '(s, k) =>
          let* s := b_ucell v (iBlock * b_blockColumns b + jBlock) k p q s in
          Ok (s, k + 1)) (s, (p - p0) * jWidth + qStart - q0) in
        Ok s) s) s) (b_blocks b, st) in
  Ok (with_blocks b bl, st, mv_end v st).

(** WalkInOptimizedOrderBounded: block_real_matrix.go:1329-1352. *)
Definition b_WalkInOptimizedOrderBounded {St} (b : Block) (v : MatVisitor St)
    (startRow endRow startColumn endColumn : Z) (st : St) : res (St * F) :=
  let* _ := orpanic (checkSubMatrixIndex (MBlk b) startRow endRow startColumn endColumn) in
  let st := mv_start v (b_rows b) (b_columns b) startRow endRow startColumn endColumn st in
  let* st := for_ (startRow / BLOCK_SIZE) (1 + endRow / BLOCK_SIZE) (fun iBlock s =>
    let p0 := iBlock * BLOCK_SIZE in
    let pStart := Z.max startRow p0 in
    let pEnd := Z.min ((iBlock + 1) * BLOCK_SIZE) (1 + endRow) in
    for_ (startColumn / BLOCK_SIZE) (1 + endColumn / BLOCK_SIZE) (fun jBlock s =>
      let jWidth := blockWidth b jBlock in
      let q0 := jBlock * BLOCK_SIZE in
      let qStart := Z.max startColumn q0 in
      let qEnd := Z.min ((jBlock + 1) * BLOCK_SIZE) (1 + endColumn) in
      for_ pStart pEnd (fun p s =>
        let* (s, _) := for_ qStart qEnd (fun q '(s, k) =>
          let* s := b_cell v (b_blocks b) (iBlock * b_blockColumns b + jBlock) k p q s in
          Ok (s, k + 1)) (s, (p - p0) * jWidth + qStart - q0) in
        Ok s) s) s) st in
  Ok (st, mv_end v st).

(** Equals: block_real_matrix.go:1370-1392. *)
Definition b_Equals (b : Block) (same : bool) (object : option RealMatrix) : res bool :=
  if same then Ok true else
  match object with
  | None => Ok false
  | Some m =>
      let nRows := b_rows b in
      let nCols := b_columns b in
      let* mc := m_cols m in
      if negb (mc =? nCols) || negb (m_rows m =? nRows) then Ok false else
      let* r := for_brk 0 nRows (fun row _ =>
        for_brk 0 nCols (fun col _ =>
          let* x := b_At b row col in
          let* y := m_At m row col in
          Ok (fne x y, tt)) tt) tt in
      Ok (negb (fst r))
  end.
End BlockM.

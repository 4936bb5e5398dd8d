(** The programs of Heap.v, HeapDec.v and HeapSolve.v that build decompositions
    and solve systems, and those of HeapArith.v and HeapBlkArith.v, written once more as sequences of actions (HeapCo.v), so
    that goroutines can take turns in the middle of them.  HeapCoRun.v shows that
    run alone they are the programs there. *)
From Coq Require Import ZArith QArith List Lia Bool.
From Verif Require Import Base Scalar Vector Matrix Heap HeapDec HeapSolve HeapCo.
Import ListNotations.
Open Scope Z_scope.

Section Code.
Context {O : Ops}.

(** [s[i] = g(s[i])] and [s[i][j]], [s[i][j] = x]. *)
Definition p_modF (s : slice) (i : Z) (g : F -> F) : prog unit := let$ x := prdF s i in pwrF s i (g x).
Definition p_rd2 (s : slice) (i j : Z) : prog F := let$ r := prdS s i in prdF r j.
Definition p_wr2 (s : slice) (i j : Z) (x : F) : prog unit := let$ r := prdS s i in pwrF r j x.
(** [copy(d[i:j], s[k:l])] *)
Definition p_copyrange (d : slice) (i j : Z) (s : slice) (k l : Z) : prog unit :=
  let$ d := preslice d i j in let$ s := preslice s k l in pgocopy d s.
(** At: array_real_vector.go:359-366. *)
Definition p_hv_At (v : HVec) (i : Z) : prog F :=
  if inb i (hv_dim v) then
    match v with HArr s => prdF s i | HOther d => Done (zget d i) end
  else ppanic EOutOfRange.
Definition p_hcheck (s : slice) (i : Z) : prog unit := if inb i (sl_len s) then pret tt else ppanic EOutOfRange.
(** NewArrayRealVectorCopy: array_real_vector.go:41-52; Copy: 163-169. *)
Definition p_h_NewArrayRealVectorCopy (v : HVec) : prog slice :=
  let$ data := pmakeF (hv_dim v) in
  let$ _ := pfor 0 (sl_len data) (fun i (_ : unit) => let$ x := p_hv_At v i in pwrF data i x) tt in
  pret data.
(** NewArrayRealVectorFromSlice: array_real_vector.go:59-67; NewArrayRealVector:
    82-94. *)
Definition p_h_NewArrayRealVectorFromSlice (d : slice) : prog slice :=
  if isnil d then perr EInvalidArgument else pappendF d.
Definition p_h_NewArrayRealVector (d : slice) (copyArray : bool) : prog slice :=
  if copyArray then p_h_NewArrayRealVectorFromSlice d
  else if isnil d then perr EInvalidArgument else pret d.
(** DataRef: array_real_vector.go:342-344; ToArray: 486-488. *)
Definition p_h_ToArray (arv : slice) : prog slice := pappendF arv.
(** SubVector: array_real_vector.go:402-425. *)
Definition p_h_SubVector (arv : slice) (index n : Z) : prog slice :=
  if n <? 0 then ppanic ENotPositive else
  let$ out := pmakeF n in
  let$ _ := p_hcheck arv index in
  let$ _ := p_hcheck arv (index + n - 1) in
  let$ d := preslice out 0 n in
  let$ s := preslice arv index (sl_len arv) in
  let$ _ := pgocopy d s in
  pret out.
(** NewArrayRealVectorFromTwoArrayRealVector: array_real_vector.go:115-124;
    Append: 390-400. *)
Definition p_h_FromTwo (v1 v2 : slice) : prog slice :=
  let n1 := sl_len v1 in let n2 := sl_len v2 in
  let$ data := pmakeF (n1 + n2) in
  let$ d := preslice data 0 n1 in
  let$ _ := pgocopy d v1 in
  let$ d := preslice data n1 (n1 + n2) in
  let$ _ := pgocopy d v2 in
  pret data.
Definition p_h_Append (arv : slice) (x : F) : prog slice :=
  let n := sl_len arv in
  let$ out := pmakeF (n + 1) in
  let$ d := preslice out 0 n in
  let$ _ := pgocopy d arv in
  let$ _ := pwrF out n x in
  p_h_NewArrayRealVector out false.
(** Add: array_real_vector.go:204-238 (both branches). *)
Definition p_h_Add (arv : slice) (v : HVec) : prog slice :=
  if negb (sl_len arv =? hv_dim v) then ppanic EDimMismatch else
  let$ ret' := pmakeF (hv_dim v) in
  let$ _ := pfor 0 (hv_dim v) (fun i (_ : unit) =>
    let$ x := prdF arv i in let$ y := p_hv_At v i in pwrF ret' i (x + y)%f) tt in
  pret ret'.
(** RowDimension, ColumnDimension: array_2d_row_real_matrix.go:402-416. *)
Definition p_h2_cols (a : slice) : prog Z :=
  if isnil a then pret 0 else let$ r := prdS a 0 in pret (sl_len r).
(** checkRowIndex, checkColumnIndex: array_2d_row_real_matrix.go:868-882. *)
Definition p_h2_ckrow (a : slice) (i : Z) : prog unit := if inb i (h2_rows a) then pret tt else ppanic EOutOfRange.
Definition p_h2_ckcol (a : slice) (j : Z) : prog unit :=
  if j <? 0 then ppanic EOutOfRange else
  let$ c := p_h2_cols a in if c <=? j then ppanic EOutOfRange else pret tt.
Definition p_h2_ck (a : slice) (i j : Z) : prog unit := let$ _ := p_h2_ckrow a i in p_h2_ckcol a j.
(** [data := make([][]float64, r); for i { data[i] = make([]float64, c) }];
    NewArray2DRowRealMatrix: array_2d_row_real_matrix.go:24-38. *)
Definition p_h_make2 (r c : Z) : prog slice :=
  let$ data := pmakeS r in
  let$ _ := pfor 0 r (fun i (_ : unit) => let$ row := pmakeF c in pwrS data i row) tt in
  pret data.
Definition p_h2_New (r c : Z) : prog slice :=
  if r <? 1 then perr ENotStrictlyPositive else
  if c <? 1 then perr ENotStrictlyPositive else p_h_make2 r c.
(** SetEntry, AddToEntry, MultiplyEntry, At: array_2d_row_real_matrix.go:345-400. *)
Definition p_h2_At (a : slice) (i j : Z) : prog F := let$ _ := p_h2_ck a i j in p_rd2 a i j.
Definition p_h2_SetEntry (a : slice) (i j : Z) (x : F) : prog unit := let$ _ := p_h2_ck a i j in p_wr2 a i j x.
(** SetSubMatrix: array_2d_row_real_matrix.go:278-343; returns [data], which it
    sets when it was nil.  copyIn: 274-276. *)
Definition p_h2_SetSubMatrix (a sub : slice) (row column : Z) : prog slice :=
  if isnil sub then ppanic EInvalidArgument else
  let nRows := sl_len sub in
  if nRows =? 0 then ppanic ENoData else
  let$ sub0 := prdS sub 0 in
  let nCols := sl_len sub0 in
  if nCols =? 0 then ppanic ENoData else
  if isnil a then
    if 0 <? row then ppanic EIllegalState else
    if 0 <? column then ppanic EIllegalState else
    let$ data := pmakeS nRows in
    let$ _ := pfor 0 nRows (fun i (_ : unit) => let$ r := pmakeF nCols in pwrS data i r) tt in
    let$ _ := pfor 0 (sl_len data) (fun i (_ : unit) =>
      let$ si := prdS sub i in
      if negb (sl_len si =? nCols) then ppanic EDimMismatch else
      let$ d := prdS data (i + row) in
      let$ si := prdS sub i in
      p_copyrange d column (column + nCols) si 0 nCols) tt in
    pret data
  else
    let$ _ := pfor 1 nRows (fun r (_ : unit) =>
      let$ sr := prdS sub r in
      if negb (sl_len sr =? nCols) then ppanic EDimMismatch else pret tt) tt in
    let$ _ := p_h2_ckrow a row in
    let$ _ := p_h2_ckcol a column in
    let$ _ := p_h2_ckrow a (nRows + row - 1) in
    let$ _ := p_h2_ckcol a (nCols + column - 1) in
    let$ _ := pfor 0 nRows (fun i (_ : unit) =>
      pfor 0 nCols (fun j (_ : unit) =>
        let$ x := p_rd2 sub i j in p_h2_SetEntry a (row + i) (column + j) x) tt) tt in
    pret a.
Definition p_h2_copyIn (sub : slice) : prog slice := p_h2_SetSubMatrix nilsl sub 0 0.
(** copyOut: array_2d_row_real_matrix.go:681-689; Data: 266-268; DataRef:
    270-272; Copy: 87-91. *)
Definition p_h2_copyOut (a : slice) : prog slice :=
  let nRows := h2_rows a in
  let$ out := pmakeS nRows in
  let$ _ := pfor 0 nRows (fun i (_ : unit) =>
    let$ c := p_h2_cols a in
    let$ r := pmakeF c in
    let$ _ := pwrS out i r in
    let$ o := prdS out i in
    let$ di := prdS a i in
    p_copyrange o 0 (sl_len di) di 0 (sl_len di)) tt in
  pret out.
Definition p_h2_Data (a : slice) : prog slice := p_h2_copyOut a.
(** DataRef: array_2d_row_real_matrix.go:270-272. *)
Definition p_h2_Copy (a : slice) : prog slice := let$ d := p_h2_copyOut a in p_h2_copyIn d.
(** NewArray2DRowRealMatrixFromSlices: array_2d_row_real_matrix.go:40-65. *)
Definition p_h2_FromSlices (data : slice) (copyArray : bool) : prog slice :=
  if copyArray then p_h2_copyIn data else
  if isnil data then perr EInvalidArgument else
  let nRows := sl_len data in
  if nRows =? 0 then perr ENoData else
  let$ d0 := prdS data 0 in
  let nCols := sl_len d0 in
  if nCols =? 0 then perr ENoData else
  let$ _ := pfor 1 nRows (fun r (_ : unit) =>
    let$ dr := prdS data r in
    if negb (sl_len dr =? nCols) then perr EDimMismatch else pret tt) tt in
  pret data.
(** ColumnAt: array_2d_row_real_matrix.go:352-363; RowAt: 691-700. *)
Definition p_h2_ColumnAt (a : slice) (j : Z) : prog slice :=
  let$ _ := p_h2_ckcol a j in
  let nRows := h2_rows a in
  let$ out := pmakeF nRows in
  let$ _ := pfor 0 nRows (fun i (_ : unit) => let$ x := p_rd2 a i j in pwrF out i x) tt in
  pret out.
Definition p_h2_RowAt (a : slice) (i : Z) : prog slice :=
  let$ _ := p_h2_ckrow a i in
  let$ nCols := p_h2_cols a in
  let$ out := pmakeF nCols in
  let$ r := prdS a i in
  let$ _ := p_copyrange out 0 nCols r 0 nCols in
  pret out.
(** RowVectorAt, ColumnVectorAt: array_2d_row_real_matrix.go:771-775, 791-795. *)
Definition p_h2_RowVectorAt (a : slice) (i : Z) : prog slice := let$ r := p_h2_RowAt a i in pappendF r.
Definition p_h2_ColumnVectorAt (a : slice) (j : Z) : prog slice := let$ r := p_h2_ColumnAt a j in pappendF r.
(** SubMatrix: array_2d_row_real_matrix.go:542-557. *)
Definition p_h2_SubMatrix (a : slice) (r0 r1 c0 c1 : Z) : prog slice :=
  let$ _ := p_h2_ckrow a r0 in
  let$ _ := p_h2_ckrow a r1 in
  if r1 <? r0 then ppanic ETooSmall else
  let$ _ := p_h2_ckcol a c0 in
  let$ _ := p_h2_ckcol a c1 in
  if c1 <? c0 then ppanic ETooSmall else
  let rowCount := r1 - r0 + 1 in
  let columnCount := c1 - c0 + 1 in
  let$ out := pmakeS rowCount in
  let$ _ := pfor 0 rowCount (fun i (_ : unit) =>
    let$ r := pmakeF columnCount in
    let$ _ := pwrS out i r in
    let$ o := prdS out i in
    let$ s := prdS a (r0 + i) in
    p_copyrange o 0 columnCount s c0 (c0 + columnCount)) tt in
  pret out.
(** RowMatrixAt: array_2d_row_real_matrix.go:713-727; ColumnMatrixAt: 742-756. *)
Definition p_h2_RowMatrixAt (a : slice) (row : Z) : prog slice :=
  let$ _ := p_h2_ckrow a row in
  let$ nCols := p_h2_cols a in
  let$ out := ppan (p_h2_New 1 nCols) in
  let$ _ := pfor 0 nCols (fun i (_ : unit) => let$ x := p_rd2 a row i in p_wr2 out 0 i x) tt in
  pret out.
Definition p_h2_ColumnMatrixAt (a : slice) (column : Z) : prog slice :=
  let$ _ := p_h2_ckcol a column in
  let nRows := h2_rows a in
  let$ out := ppan (p_h2_New nRows 1) in
  let$ _ := pfor 0 nRows (fun i (_ : unit) => let$ x := p_rd2 a i column in p_wr2 out i 0 x) tt in
  pret out.
(** Transpose: array_2d_row_real_matrix.go:418-434. *)
Definition p_h2_Transpose (a : slice) : prog slice :=
  let nRows := h2_rows a in
  let$ nCols := p_h2_cols a in
  let$ data := pmakeS nCols in
  let$ _ := pfor 0 (sl_len data) (fun i (_ : unit) => let$ r := pmakeF nRows in pwrS data i r) tt in
  let$ _ := pfor 0 nRows (fun i (_ : unit) =>
    pfor 0 nCols (fun j (_ : unit) => let$ x := p_rd2 a i j in p_wr2 data j i x) tt) tt in
  pret data.
(** NewDiagonalMatrix: diagonal_matrix.go:42-55; Copy: 57-61; DataRef: 187-189. *)
Definition p_hd_Copy (d : slice) : prog slice := pappendF d.
(** Data: diagonal_matrix.go:172-185; [out[i] == nil] always holds. *)
Definition p_hd_Data (d : slice) : prog slice :=
  let dim := sl_len d in
  let$ out := pmakeS dim in
  let$ _ := pfor 0 dim (fun i (_ : unit) =>
    let$ r := prdS out i in
    let$ _ := (if isnil r then let$ r := pmakeF dim in pwrS out i r else pret tt) in
    let$ x := prdF d i in
    p_wr2 out i i x) tt in
  pret out.
(** At, SetEntry, AddToEntry, MultiplyEntry: diagonal_matrix.go:191-244. *)
Definition p_hd_At (d : slice) (i j : Z) : prog F :=
  let$ _ := p_hcheck d i in let$ _ := p_hcheck d j in
  if i =? j then prdF d i else pret fzero.
Definition p_hd_SetEntry (d : slice) (i j : Z) (x : F) : prog unit :=
  if i =? j then let$ _ := p_hcheck d i in pwrF d i x
  else if fulp1 fzero x then pret tt else ppanic ETooLarge.
(** ColumnAt: diagonal_matrix.go:339-350; RowAt: 427-438. *)
Definition p_hd_ColumnAt (d : slice) (j : Z) : prog slice :=
  let$ _ := p_hcheck d j in
  let$ out := pmakeF (sl_len d) in
  let$ _ := pfor 0 (sl_len d) (fun i (_ : unit) => let$ x := p_hd_At d i j in pwrF out i x) tt in
  pret out.
Definition p_hd_RowAt (d : slice) (i : Z) : prog slice :=
  let$ _ := p_hcheck d i in
  let$ out := pmakeF (sl_len d) in
  let$ _ := pfor 0 (sl_len d) (fun j (_ : unit) => let$ x := p_hd_At d i j in pwrF out j x) tt in
  pret out.
(** createBlocksLayout: block_real_matrix.go:160-180. *)
Definition p_hb_create (rows columns : Z) : prog slice :=
  let$ blocks := pmakeS (hb_nblk rows * hb_nblk columns) in
  let$ _ := pfor 0 (hb_nblk rows) (fun iBlock idx =>
    let pStart := iBlock * BLOCK_SIZE in
    let iHeight := Z.min (pStart + BLOCK_SIZE) rows - pStart in
    pfor 0 (hb_nblk columns) (fun jBlock idx =>
      let qStart := jBlock * BLOCK_SIZE in
      let jWidth := Z.min (qStart + BLOCK_SIZE) columns - qStart in
      let$ blk := pmakeF (iHeight * jWidth) in
      let$ _ := pwrS blocks idx blk in
      pret (idx + 1)) idx) 0 in
  pret blocks.
Definition p_hb_New (rows columns : Z) : prog HBlk :=
  if rows <? 1 then perr ENotStrictlyPositive else
  if columns <? 1 then perr ENotStrictlyPositive else
  let$ blocks := p_hb_create rows columns in
  pret (mkHBlk blocks rows columns (hb_nblk rows) (hb_nblk columns)).
(** NewBlockRealMatrixFromBlockData: block_real_matrix.go:85-116. *)
Definition p_hb_FromBlockData (rows columns : Z) (blockData : slice) : prog HBlk :=
  if rows <? 1 then perr ENotStrictlyPositive else
  if columns <? 1 then perr ENotStrictlyPositive else
  let ans := mkHBlk blockData rows columns (hb_nblk rows) (hb_nblk columns) in
  let$ _ := pfor 0 (hb_blockRows ans) (fun iBlock idx =>
    pfor 0 (hb_blockColumns ans) (fun jBlock idx =>
      let$ blk := prdS (hb_blocks ans) idx in
      if negb (sl_len blk =? hb_height ans iBlock * hb_width ans jBlock) then perr EDimMismatch
      else pret (idx + 1)) idx) 0 in
  pret ans.
(** toBlocksLayout: block_real_matrix.go:118-158; NewBlockRealMatrixFromSlices:
    81-83. *)
Definition p_hb_toBlocks (raw : slice) : prog slice :=
  let rows := sl_len raw in
  let$ raw0 := prdS raw 0 in
  let columns := sl_len raw0 in
  let$ _ := pfor 0 rows (fun i (_ : unit) =>
    let$ ri := prdS raw i in
    if negb (sl_len ri =? columns) then ppanic EDimMismatch else pret tt) tt in
  let$ blocks := pmakeS (hb_nblk rows * hb_nblk columns) in
  let$ _ := pfor 0 (hb_nblk rows) (fun iBlock idx =>
    let pStart := iBlock * BLOCK_SIZE in
    let pEnd := Z.min (pStart + BLOCK_SIZE) rows in
    let iHeight := pEnd - pStart in
    pfor 0 (hb_nblk columns) (fun jBlock idx =>
      let qStart := jBlock * BLOCK_SIZE in
      let jWidth := Z.min (qStart + BLOCK_SIZE) columns - qStart in
      let$ blk := pmakeF (iHeight * jWidth) in
      let$ _ := pwrS blocks idx blk in
      let$ _ := pfor pStart pEnd (fun p index =>
        let$ b := prdS blocks idx in
        let$ rp := prdS raw p in
        let$ _ := p_copyrange b index (index + jWidth) rp qStart (qStart + jWidth) in
        pret (index + jWidth)) 0 in
      pret (idx + 1)) idx) 0 in
  pret blocks.
Definition p_hb_FromSlices (raw : slice) : prog HBlk :=
  let$ raw0 := prdS raw 0 in
  let$ blocks := p_hb_toBlocks raw in
  p_hb_FromBlockData (sl_len raw) (sl_len raw0) blocks.
(** Copy: block_real_matrix.go:182-194. *)
Definition p_hb_Copy (b : HBlk) : prog HBlk :=
  let$ blocks := p_hb_create (hb_rows b) (hb_columns b) in
  let$ _ := pfor 0 (sl_len (hb_blocks b)) (fun i (_ : unit) =>
    let$ c := prdS blocks i in
    let$ s := prdS (hb_blocks b) i in
    pgocopy c s) tt in
  pret (mkHBlk blocks (hb_rows b) (hb_columns b) (hb_nblk (hb_rows b)) (hb_nblk (hb_columns b))).
(** Data: block_real_matrix.go:426-450. *)
Definition p_hb_Data (b : HBlk) : prog slice :=
  let$ data := pmakeS (hb_rows b) in
  let lastColumns := hb_columns b - (hb_blockColumns b - 1) * BLOCK_SIZE in
  let$ _ := pfor 0 (hb_blockRows b) (fun iBlock (_ : unit) =>
    let pStart := iBlock * BLOCK_SIZE in
    let pEnd := Z.min (pStart + BLOCK_SIZE) (hb_rows b) in
    let$ _ := pfor pStart pEnd (fun p '(regularPos, lastPos) =>
      let$ r := pmakeF (hb_columns b) in
      let$ _ := pwrS data p r in
      let$ (idx, dataPos) := pfor 0 (hb_blockColumns b - 1) (fun jBlock '(idx, dataPos) =>
        let$ dp := prdS data p in
        let$ blk := prdS (hb_blocks b) idx in
        let$ _ := p_copyrange dp dataPos (dataPos + BLOCK_SIZE) blk regularPos (regularPos + BLOCK_SIZE) in
        pret (idx + 1, dataPos + BLOCK_SIZE)) (iBlock * hb_blockColumns b, 0) in
      let$ dp := prdS data p in
      let$ blk := prdS (hb_blocks b) idx in
      let$ _ := p_copyrange dp dataPos (dataPos + lastColumns) blk lastPos (lastPos + lastColumns) in
      pret (regularPos + BLOCK_SIZE, lastPos + lastColumns)) (0, 0) in
    pret tt) tt in
  pret data.
(** checkRowIndex, checkColumnIndex on a BlockRealMatrix. *)
Definition p_hb_ckrow (b : HBlk) (i : Z) : prog unit := if inb i (hb_rows b) then pret tt else ppanic EOutOfRange.
Definition p_hb_ckcol (b : HBlk) (j : Z) : prog unit := if inb j (hb_columns b) then pret tt else ppanic EOutOfRange.
(** At, SetEntry, AddToEntry, MultiplyEntry: block_real_matrix.go:887-925. *)
Definition p_hb_At (b : HBlk) (i j : Z) : prog F :=
  let$ _ := p_hb_ckrow b i in let$ _ := p_hb_ckcol b j in
  p_rd2 (hb_blocks b) (fst (hb_pos b i j)) (snd (hb_pos b i j)).
Definition p_hb_SetEntry (b : HBlk) (i j : Z) (x : F) : prog unit :=
  let$ _ := p_hb_ckrow b i in let$ _ := p_hb_ckcol b j in
  p_wr2 (hb_blocks b) (fst (hb_pos b i j)) (snd (hb_pos b i j)) x.
(** RowAt: block_real_matrix.go:803-820 (RowVectorAt, 724-743, has the same
    body); ColumnAt: 842-862 (ColumnVectorAt, 762-784). *)
Definition p_hb_RowAt (b : HBlk) (row : Z) : prog slice :=
  let$ _ := p_hb_ckrow b row in
  let$ out := pmakeF (hb_columns b) in
  let iBlock := row / BLOCK_SIZE in
  let iRow := row - iBlock * BLOCK_SIZE in
  let$ _ := pfor 0 (hb_blockColumns b) (fun jBlock outIndex =>
    let jWidth := hb_width b jBlock in
    let$ s := prdS (hb_blocks b) (iBlock * hb_blockColumns b + jBlock) in
    let$ _ := p_copyrange out outIndex (outIndex + jWidth) s (iRow * jWidth) (iRow * jWidth + jWidth) in
    pret (outIndex + jWidth)) 0 in
  pret out.
Definition p_hb_ColumnAt (b : HBlk) (column : Z) : prog slice :=
  let$ _ := p_hb_ckcol b column in
  let$ out := pmakeF (hb_rows b) in
  let jBlock := column / BLOCK_SIZE in
  let jColumn := column - jBlock * BLOCK_SIZE in
  let jWidth := hb_width b jBlock in
  let$ _ := pfor 0 (hb_blockRows b) (fun iBlock idx =>
    pfor 0 (hb_height b iBlock) (fun i outIndex =>
      let$ x := p_rd2 (hb_blocks b) (iBlock * hb_blockColumns b + jBlock) (i * jWidth + jColumn) in
      let$ _ := pwrF out outIndex x in
      pret (outIndex + 1)) idx) 0 in
  pret out.
(** copyBlockPart: block_real_matrix.go:531-540; SubMatrix: 465-529. *)
Definition p_hb_part (src : slice) (sw sr0 sr1 sc0 sc1 : Z) (dst : slice) (dw dr0 dc0 : Z) : prog unit :=
  let length := sc1 - sc0 in
  let$ _ := pfor sr0 sr1 (fun srcRow '(srcPos, dstPos) =>
    let$ _ := p_copyrange dst dstPos (dstPos + length) src srcPos (srcPos + length) in
    pret (srcPos + sw, dstPos + dw)) (sr0 * sw + sc0, dr0 * dw + dc0) in
  pret tt.
Definition p_hb_SubMatrix (b : HBlk) (r0 r1 c0 c1 : Z) : prog HBlk :=
  let$ _ := p_hb_ckrow b r0 in
  let$ _ := p_hb_ckrow b r1 in
  if r1 <? r0 then ppanic ETooSmall else
  let$ _ := p_hb_ckcol b c0 in
  let$ _ := p_hb_ckcol b c1 in
  if c1 <? c0 then ppanic ETooSmall else
  let$ out := ppan (p_hb_New (r1 - r0 + 1) (c1 - c0 + 1)) in
  let rs := r0 mod BLOCK_SIZE in
  let cs := c0 mod BLOCK_SIZE in
  let B := BLOCK_SIZE in
  let blk i := prdS (hb_blocks b) i in
  let$ _ := pfor 0 (hb_blockRows out) (fun iBlock pBlock =>
    let iH := hb_height out iBlock in
    let$ _ := pfor 0 (hb_blockColumns out) (fun jBlock qBlock =>
      let jW := hb_width out jBlock in
      let oi := iBlock * hb_blockColumns out + jBlock in
      let index := pBlock * hb_blockColumns b + qBlock in
      let w := hb_width b qBlock in
      let hE := iH + rs - B in
      let wE := jW + cs - B in
      let w2 := hb_width b (qBlock + 1) in
      let part si sw a0 a1 b0 b1 dr dc :=
        let$ s := blk si in let$ o := prdS (hb_blocks out) oi in p_hb_part s sw a0 a1 b0 b1 o jW dr dc in
      let$ _ :=
        if 0 <? hE then
          if 0 <? wE then
            let$ _ := part index w rs B cs B 0 0 in
            let$ _ := part (index + 1) w2 rs B 0 wE 0 (jW - wE) in
            let$ _ := part (index + hb_blockColumns b) w 0 hE cs B (iH - hE) 0 in
            part (index + hb_blockColumns b + 1) w2 0 hE 0 wE (iH - hE) (jW - wE)
          else
            let$ _ := part index w rs B cs (jW + cs) 0 0 in
            part (index + hb_blockColumns b) w 0 hE cs (jW + cs) (iH - hE) 0
        else
          if 0 <? wE then
            let$ _ := part index w rs (iH + rs) cs B 0 0 in
            part (index + 1) w2 rs (iH + rs) 0 wE 0 (jW - wE)
          else part index w rs (iH + rs) cs (jW + cs) 0 0 in
      pret (qBlock + 1)) (c0 / BLOCK_SIZE) in
    pret (pBlock + 1)) (r0 / BLOCK_SIZE) in
  pret out.
Definition p_hm_cols (x : HMat) : prog Z := match x with HA a => p_h2_cols a | HD d => pret (sl_len d) | HB b => pret (hb_columns b) end.
Definition p_hm_Data (x : HMat) : prog slice := match x with HA a => p_h2_Data a | HD d => p_hd_Data d | HB b => p_hb_Data b end.
(** IsSquare: real_matrix.go:482-484. *)
Definition p_hm_IsSquare (x : HMat) : prog bool := let$ c := p_hm_cols x in pret (c =? hm_rows x).
(** Transpose of a DiagonalMatrix: diagonal_matrix.go:641-664, with the walk
    666-676 written out. *)
Definition p_hd_Transpose (d : slice) : prog slice :=
  let n := sl_len d in
  let$ copy := pmakeF n in
  let$ _ := pfor 0 n (fun i (_ : unit) => pfor 0 n (fun j (_ : unit) =>
    let$ x := p_hd_At d i j in p_hd_SetEntry copy j i x) tt) tt in
  pret copy.
(** Transpose of a BlockRealMatrix: block_real_matrix.go:927-961. *)
Definition p_hb_Transpose (b : HBlk) : prog HBlk :=
  let nRows := hb_rows b in
  let nCols := hb_columns b in
  let$ blocks := p_hb_create nCols nRows in
  let$ _ := pfor 0 (hb_blockColumns b) (fun iBlock blockIndex =>
    pfor 0 (hb_blockRows b) (fun jBlock blockIndex =>
      let pStart := iBlock * BLOCK_SIZE in
      let pEnd := Z.min (pStart + BLOCK_SIZE) (hb_columns b) in
      let qStart := jBlock * BLOCK_SIZE in
      let qEnd := Z.min (qStart + BLOCK_SIZE) (hb_rows b) in
      let$ _ := pfor pStart pEnd (fun p k =>
        let lInc := pEnd - pStart in
        let$ (k, _) := pfor qStart qEnd (fun q '(k, l) =>
          let$ x := p_rd2 (hb_blocks b) (jBlock * hb_blockColumns b + iBlock) l in
          let$ _ := p_wr2 blocks blockIndex k x in
          pret (k + 1, l + lInc)) (k, p - pStart) in
        pret k) 0 in
      pret (blockIndex + 1)) blockIndex) 0 in
  pret (mkHBlk blocks nCols nRows (hb_nblk nCols) (hb_nblk nRows)).
Definition p_hm_Transpose (x : HMat) : prog HMat :=
  match x with
  | HA a => let$ t := p_h2_Transpose a in pret (HA t)
  | HD d => let$ t := p_hd_Transpose d in pret (HD t)
  | HB b => let$ t := p_hb_Transpose b in pret (HB t)
  end.
(** lu_decomposition.go:77-82 and 91-96: luRow is the row [row]. *)
Definition p_hlu_reduce (lu : slice) (row col n : Z) : prog F :=
  let$ luRow := prdS lu row in
  let$ sum := prdF luRow col in
  let$ sum := pfor 0 n (fun i sum =>
    let$ x := prdF luRow i in
    let$ y := p_rd2 lu i col in
    pret (sum - x * y)%f) sum in
  let$ _ := pwrF luRow col sum in
  pret sum.
(** lu_decomposition.go:76-83. *)
Definition p_hlu_upper (col : Z) (lu : slice) : prog unit :=
  pfor 0 col (fun row (_ : unit) => let$ _ := p_hlu_reduce lu row col row in pret tt) tt.
(** lu_decomposition.go:86-103. *)
Definition p_hlu_lower (m col : Z) (lu : slice) : prog (Z * option F) :=
  pfor col m (fun row '(max, largest) =>
    let$ sum := p_hlu_reduce lu row col col in
    if match largest with None => negb (fisnan (fabs sum)) | Some l => fgt (fabs sum) l end
    then pret (row, Some (fabs sum)) else pret (max, largest)) (col, None).
(** lu_decomposition.go:113-124: luMax and luCol are two rows. *)
Definition p_hlu_swap (m max col : Z) (lu : slice) (pivot : list Z) : prog (list Z) :=
  let$ luMax := prdS lu max in
  let$ luCol := prdS lu col in
  let$ _ := pfor 0 m (fun i (_ : unit) =>
    let$ tmp := prdF luMax i in
    let$ x := prdF luCol i in
    let$ _ := pwrF luMax i x in
    pwrF luCol i tmp) tt in
  Done (let* temp := zget pivot max in
        let* y := zget pivot col in
        let* pivot := zset pivot max y in
        zset pivot col temp).
(** lu_decomposition.go:128-131. *)
Definition p_hlu_divide (m col : Z) (lu : slice) : prog unit :=
  let$ luDiag := p_rd2 lu col col in
  pfor (col + 1) m (fun row (_ : unit) => let$ x := p_rd2 lu row col in p_wr2 lu row col (x / luDiag)%f) tt.
(** lu_decomposition.go:73-132. *)
Definition p_hlu_column (m : Z) (threshold : F) (lu : slice) (col : Z) '((pivot, even) : list Z * bool) : prog (bool * (list Z * bool)) :=
  let$ _ := p_hlu_upper col lu in
  let$ (max, _) := p_hlu_lower m col lu in
  let$ x := p_rd2 lu max col in
  if flt (fabs x) threshold then pret (true, (pivot, even)) else
  let$ (pivot, even) :=
    (if negb (max =? col) then
       let$ pivot := p_hlu_swap m max col lu pivot in pret (pivot, negb even)
     else pret (pivot, even)) in
  let$ _ := p_hlu_divide m col lu in
  pret (false, (pivot, even)).
(** NewLUDecompositionWithThreshold: lu_decomposition.go:57-135. *)
Definition p_h_NewLU (x : HMat) (threshold : F) : prog HLU :=
  let$ sq := p_hm_IsSquare x in
  if negb sq then perr ENonSquare else
  let$ m := p_hm_cols x in
  let$ lu := p_hm_Data x in
  let$ pivot := Done (let* pivot := make 0 m in for_ 0 m (fun row pivot => zset pivot row row) pivot) in
  let$ (singular, (pivot, even)) := pfor_brk 0 m (p_hlu_column m threshold lu) (pivot, true) in
  pret (mkHLU lu pivot even singular).
(** cholesky_decomposition.go:80-94. *)
Definition p_hch_check (order : Z) (rel : F) (lT : slice) : prog unit :=
  pfor 0 order (fun i (_ : unit) =>
    let$ lI := prdS lT i in
    pfor (i + 1) order (fun j (_ : unit) =>
      let$ lJ := prdS lT j in
      let$ lIJ := prdF lI j in
      let$ lJI := prdF lJ i in
      let maxDelta := (rel * fmax (fabs lIJ) (fabs lJI))%f in
      if fgt (fabs (lIJ - lJI)%f) maxDelta then perr (ENonSymmetric i j) else
      pwrF lJ i fzero) tt) tt.
(** cholesky_decomposition.go:97-116. *)
Definition p_hch_step (order : Z) (pos : F) (lT : slice) (i : Z) (_ : unit) : prog unit :=
  let$ ltI := prdS lT i in
  let$ x := prdF ltI i in
  if fle x pos then perr ENonPosDef else
  let$ _ := p_modF ltI i fsqrt in
  let$ y := prdF ltI i in
  let inverse := (fone / y)%f in
  pdown (order - 1) (i + 1) (fun q (_ : unit) =>
    let$ _ := p_modF ltI q (fun a => (a * inverse)%f) in
    let$ ltQ := prdS lT q in
    pfor q order (fun p (_ : unit) =>
      let$ b := prdF ltQ p in
      let$ u := prdF ltI q in
      let$ v := prdF ltI p in
      pwrF ltQ p (b - u * v)%f) tt) tt.
(** NewCholeskyDecomposition: cholesky_decomposition.go:69-120; the result is
    lTData. *)
Definition p_h_NewCholesky (x : HMat) (rel pos : F) : prog slice :=
  let$ sq := p_hm_IsSquare x in
  if negb sq then perr ENonSquare else
  let order := hm_rows x in
  let$ lT := p_hm_Data x in
  let$ _ := p_hch_check order rel lT in
  let$ _ := pfor 0 order (p_hch_step order pos lT) tt in
  pret lT.
(** performHouseholderReflection: qr_decomposition.go:79-140. *)
Definition p_hqr_reflect (qrt rDiag : slice) (minor : Z) (_ : unit) : prog unit :=
  let$ qrtMinor := prdS qrt minor in
  let$ xNormSqr := pfor minor (sl_len qrtMinor) (fun row acc => let$ c := prdF qrtMinor row in pret (acc + c * c)%f) fzero in
  let a := fsqrt xNormSqr in
  let$ d := prdF qrtMinor minor in
  let a := if fgt d fzero then (a * fneg fone)%f else a in
  let$ _ := pwrF rDiag minor a in
  if feq a fzero then pret tt else
  let$ _ := p_modF qrtMinor minor (fun d => (d - a)%f) in
  pfor (minor + 1) (sl_len qrt) (fun col (_ : unit) =>
    let$ qrtCol := prdS qrt col in
    let$ alpha := pfor minor (sl_len qrtCol) (fun row alpha =>
      let$ x := prdF qrtCol row in
      let$ v := prdF qrtMinor row in
      pret (alpha - x * v)%f) fzero in
    let$ v0 := prdF qrtMinor minor in
    let alpha := (alpha / (a * v0))%f in
    pfor minor (sl_len qrtCol) (fun row (_ : unit) =>
      let$ x := prdF qrtCol row in
      let$ v := prdF qrtMinor row in
      pwrF qrtCol row (x - alpha * v)%f) tt) tt.
(** NewQRDecompositionWithThreshold, decompose: qr_decomposition.go:54-75. *)
Definition p_h_NewQR (x : HMat) : prog HQR :=
  let m := hm_rows x in
  let$ n := p_hm_cols x in
  let$ t := p_hm_Transpose x in
  let$ qrt := p_hm_Data t in
  let$ rDiag := pmakeF (Z.min m n) in
  let$ row0 := prdS qrt 0 in
  let$ _ := pfor 0 (Z.min (sl_len qrt) (sl_len row0)) (p_hqr_reflect qrt rDiag) tt in
  pret (mkHQR qrt rDiag).
(** One turn of transform: hessenberg_transformer.go:178-225. *)
Definition p_hhs_step (n : Z) (hv ort : slice) (m : Z) (_ : unit) : prog unit :=
  let high := n - 1 in
  let$ scale := pfor m (high + 1) (fun i scale => let$ x := p_rd2 hv i (m - 1) in pret (scale + fabs x)%f) fzero in
  if fulp1 scale fzero then pret tt else
  let$ h := pdown high m (fun i h =>
    let$ x := p_rd2 hv i (m - 1) in
    let$ _ := pwrF ort i (x / scale)%f in
    let$ a := prdF ort i in
    let$ b := prdF ort i in
    pret (h + a * b)%f) fzero in
  let g := fsqrt h in
  let$ om := prdF ort m in
  let g := if fgt om fzero then (g * fneg fone)%f else g in
  let$ om := prdF ort m in
  let h := (h - om * g)%f in
  let$ _ := p_modF ort m (fun om => (om - g)%f) in
  let$ _ := pfor m n (fun j (_ : unit) =>
    let$ f := pdown high m (fun i f =>
      let$ o := prdF ort i in
      let$ x := p_rd2 hv i j in pret (f + o * x)%f) fzero in
    let f := (f / h)%f in
    pfor m (high + 1) (fun i (_ : unit) =>
      let$ o := prdF ort i in
      let$ x := p_rd2 hv i j in p_wr2 hv i j (x - f * o)%f) tt) tt in
  let$ _ := pfor 0 (high + 1) (fun i (_ : unit) =>
    let$ f := pdown high m (fun j f =>
      let$ o := prdF ort j in
      let$ x := p_rd2 hv i j in pret (f + o * x)%f) fzero in
    let f := (f / h)%f in
    pfor m (high + 1) (fun j (_ : unit) =>
      let$ o := prdF ort j in
      let$ x := p_rd2 hv i j in p_wr2 hv i j (x - f * o)%f) tt) tt in
  let$ _ := p_modF ort m (fun om => (scale * om)%f) in
  p_wr2 hv m (m - 1) (scale * g)%f.
(** NewHessenbergTransformer: hessenberg_transformer.go:46-61, 173-228. *)
Definition p_h_NewHessenberg (x : HMat) : prog HHs :=
  let$ sq := p_hm_IsSquare x in
  if negb sq then perr ENonSquare else
  let m := hm_rows x in
  let$ hv := p_hm_Data x in
  let$ ort := pmakeF m in
  let n := sl_len hv in
  let$ _ := pfor 1 (n - 1) (p_hhs_step n hv ort) tt in
  pret (mkHHs hv ort).
(** performHouseholderReflection: rrqr_decomposition.go:74-95; the rows are
    swapped by swapping the headers. *)
Definition p_hrr_reflect (qrt rDiag : slice) (minor : Z) (p : list Z) : prog (list Z) :=
  let$ (_, ix) := pfor minor (sl_len qrt) (fun i '(mx, ix) =>
    let$ row := prdS qrt i in
    let$ l2 := pfor minor (sl_len row) (fun j acc =>
      let$ x := p_rd2 qrt i j in
      let$ x' := p_rd2 qrt i j in
      pret (acc + x * x')%f) fzero in
    pret (if fgt l2 mx then (l2, i) else (mx, ix))) (fzero, minor) in
  let$ p := (if negb (ix =? minor) then
      let$ a := prdS qrt ix in
      let$ b := prdS qrt minor in
      let$ _ := pwrS qrt minor a in
      let$ _ := pwrS qrt ix b in
      Done (let* x := zget p ix in
            let* y := zget p minor in
            let* p := zset p minor x in
            zset p ix y)
    else pret p) in
  let$ _ := p_hqr_reflect qrt rDiag minor tt in
  pret p.
(** NewRRQRDecompositionWithThreshold, decompose: rrqr_decomposition.go:45-69. *)
Definition p_h_NewRRQR (x : HMat) : prog HRR :=
  let m := hm_rows x in
  let$ n := p_hm_cols x in
  let$ t := p_hm_Transpose x in
  let$ qrt := p_hm_Data t in
  let$ rDiag := pmakeF (Z.min m n) in
  let$ p := Done (let* p := make 0 (sl_len qrt) in for_ 0 (sl_len qrt) (fun i p => zset p i i) p) in
  let$ row0 := prdS qrt 0 in
  let$ p := pfor 0 (Z.min (sl_len qrt) (sl_len row0)) (p_hrr_reflect qrt rDiag) p in
  pret (mkHRR qrt rDiag p).
(** One turn of transform: tridiagonal_transformer.go:189-248; hK and hI are
    rows of the matrix. *)
Definition p_htd_step (m : Z) (hv mn sec z : slice) (k : Z) (_ : unit) : prog unit :=
  let$ hK := prdS hv k in
  let$ x := prdF hK k in
  let$ _ := pwrF mn k x in
  let$ xNormSqr := pfor (k + 1) m (fun j acc => let$ c := prdF hK j in pret (acc + c * c)%f) fzero in
  let a := fsqrt xNormSqr in
  let$ x := prdF hK (k + 1) in
  let a := if fgt x fzero then (a * fneg fone)%f else a in
  let$ _ := pwrF sec k a in
  if feq a fzero then pret tt else
  let$ _ := p_modF hK (k + 1) (fun x => (x - a)%f) in
  let$ x := prdF hK (k + 1) in
  let beta := (fneg fone / (a * x))%f in
  let$ _ := pfor (k + 1) m (fun i (_ : unit) => pwrF z i fzero) tt in
  let$ _ := pfor (k + 1) m (fun i (_ : unit) =>
    let$ hI := prdS hv i in
    let$ hKI := prdF hK i in
    let$ hII := prdF hI i in
    let$ zI := pfor (i + 1) m (fun j zI =>
      let$ hIJ := prdF hI j in
      let$ hKJ := prdF hK j in
      let$ _ := p_modF z j (fun zj => (zj + hIJ * hKI)%f) in
      pret (zI + hIJ * hKJ)%f) (hII * hKI)%f in
    p_modF z i (fun zi => (beta * (zi + zI))%f)) tt in
  let$ gamma := pfor (k + 1) m (fun i g => let$ zi := prdF z i in let$ v := prdF hK i in pret (g + zi * v)%f) fzero in
  let gamma := (gamma * (beta / flit 2))%f in
  let$ _ := pfor (k + 1) m (fun i (_ : unit) => let$ v := prdF hK i in p_modF z i (fun zi => (zi - gamma * v)%f)) tt in
  pfor (k + 1) m (fun i (_ : unit) =>
    let$ hI := prdS hv i in
    pfor i m (fun j (_ : unit) =>
      let$ vi := prdF hK i in
      let$ zj := prdF z j in
      let$ zi := prdF z i in
      let$ vj := prdF hK j in
      p_modF hI j (fun x => (x - (vi * zj + zi * vj))%f)) tt) tt.
(** NewTriDiagonalTransformer, transform: tridiagonal_transformer.go:47-61, 183-251. *)
Definition p_h_NewTriDiagonal (x : HMat) : prog HTd :=
  let$ sq := p_hm_IsSquare x in
  if negb sq then perr ENonSquare else
  let m := hm_rows x in
  let$ hv := p_hm_Data x in
  let$ mn := pmakeF m in
  let$ sec := pmakeF (m - 1) in
  let m := sl_len hv in
  let$ z := pmakeF m in
  let$ _ := pfor 0 (m - 1) (p_htd_step m hv mn sec z) tt in
  let$ y := p_rd2 hv (m - 1) (m - 1) in
  let$ _ := pwrF mn (m - 1) y in
  pret (mkHTd hv mn sec).
(** A column [k] from row [lo] is a Householder vector, applied to the columns
    [from] to [n]: bidiagonal_transformer.go:211-222 and 307-318.  [v0] gives
    the first entry of the vector at line 217 or 313. *)
Definition p_hbd_columns (hv : slice) (k lo m from n : Z) (a : F) (v0 : prog F) : prog unit :=
  pfor from n (fun j (_ : unit) =>
    let$ alpha := pfor lo m (fun i alpha =>
      let$ hI := prdS hv i in
      let$ x := prdF hI j in
      let$ v := prdF hI k in
      pret (alpha - x * v)%f) fzero in
    let$ v := v0 in
    let alpha := (alpha / (a * v))%f in
    pfor lo m (fun i (_ : unit) =>
      let$ hI := prdS hv i in
      let$ v := prdF hI k in
      p_modF hI j (fun x => (x - alpha * v)%f)) tt) tt.
(** The row [hK] from column [lo] is one, applied to the rows [from] to [m]:
    bidiagonal_transformer.go:241-251 and 277-288. *)
Definition p_hbd_rows (hv hK : slice) (lo n from m : Z) (a : F) (v0 : prog F) : prog unit :=
  pfor from m (fun i (_ : unit) =>
    let$ hI := prdS hv i in
    let$ alpha := pfor lo n (fun j alpha =>
      let$ x := prdF hI j in
      let$ v := prdF hK j in
      pret (alpha - x * v)%f) fzero in
    let$ v := v0 in
    let alpha := (alpha / (a * v))%f in
    pfor lo n (fun j (_ : unit) =>
      let$ v := prdF hK j in
      p_modF hI j (fun x => (x - alpha * v)%f)) tt) tt.
(** One turn of transformToUpperBiDiagonal: bidiagonal_transformer.go:192-253. *)
Definition p_hbd_upper (hv mn sec : slice) (m n k : Z) (_ : unit) : prog unit :=
  let$ xNormSqr := pfor k m (fun i acc => let$ c := p_rd2 hv i k in pret (acc + c * c)%f) fzero in
  let$ hK := prdS hv k in
  let$ x := prdF hK k in
  let a := hbd_norm x xNormSqr in
  let$ _ := pwrF mn k a in
  let$ _ := (if feq a fzero then pret tt else
    let$ _ := p_modF hK k (fun x => (x - a)%f) in
    p_hbd_columns hv k k m (k + 1) n a (p_rd2 hv k k)) in
  if k <? n - 1 then
    let$ xNormSqr := pfor (k + 1) n (fun j acc => let$ c := prdF hK j in pret (acc + c * c)%f) fzero in
    let$ x := prdF hK (k + 1) in
    let b := hbd_norm x xNormSqr in
    let$ _ := pwrF sec k b in
    if feq b fzero then pret tt else
    let$ _ := p_modF hK (k + 1) (fun x => (x - b)%f) in
    p_hbd_rows hv hK (k + 1) n (k + 1) m b (prdF hK (k + 1))
  else pret tt.
(** One turn of transformToLowerBiDiagonal: bidiagonal_transformer.go:259-321. *)
Definition p_hbd_lower (hv mn sec : slice) (m n k : Z) (_ : unit) : prog unit :=
  let$ hK := prdS hv k in
  let$ xNormSqr := pfor k n (fun j acc => let$ c := prdF hK j in pret (acc + c * c)%f) fzero in
  let$ x := prdF hK k in
  let a := hbd_norm x xNormSqr in
  let$ _ := pwrF mn k a in
  let$ _ := (if feq a fzero then pret tt else
    let$ _ := p_modF hK k (fun x => (x - a)%f) in
    p_hbd_rows hv hK k n (k + 1) m a (p_rd2 hv k k)) in
  if k <? m - 1 then
    let$ hKp1 := prdS hv (k + 1) in
    let$ xNormSqr := pfor (k + 1) m (fun i acc => let$ c := p_rd2 hv i k in pret (acc + c * c)%f) fzero in
    let$ x := prdF hKp1 k in
    let b := hbd_norm x xNormSqr in
    let$ _ := pwrF sec k b in
    if feq b fzero then pret tt else
    let$ _ := p_modF hKp1 k (fun x => (x - b)%f) in
    p_hbd_columns hv k (k + 1) m (k + 1) n b (prdF hKp1 k)
  else pret tt.
(** NewBiDiagonalTransformer: bidiagonal_transformer.go:13-29, 188-323. *)
Definition p_h_NewBiDiagonal (x : HMat) : prog HTd :=
  let m := hm_rows x in
  let$ n := p_hm_cols x in
  let p := Z.min m n in
  let$ hv := p_hm_Data x in
  let$ mn := pmakeF p in
  let$ sec := pmakeF (p - 1) in
  let$ row0 := prdS hv 0 in
  let m' := sl_len hv in
  let n' := sl_len row0 in
  let$ _ := (if n <=? m then pfor 0 n' (p_hbd_upper hv mn sec m' n') tt
             else pfor 0 m' (p_hbd_lower hv mn sec m' n') tt) in
  pret (mkHTd hv mn sec).
(** SetEntry and NewRealMatrixWithDimension on the three kinds of matrix:
    real_matrix.go:327-333. *)
Definition p_hm_SetEntry (x : HMat) (i j : Z) (v : F) : prog unit :=
  match x with HA a => p_h2_SetEntry a i j v | HD d => p_hd_SetEntry d i j v | HB b => p_hb_SetEntry b i j v end.
Definition p_h_NewRealMatrixWithDimension (r c : Z) : prog HMat :=
  if r * c <=? 4096 then let$ a := p_h2_New r c in pret (HA a) else let$ b := p_hb_New r c in pret (HB b).
(** One turn of the loop: rectangular_cholesky_decomposition.go:47-107. *)
Definition p_hrc_turn (order : Z) (small : F) (b c : slice) (r : Z) (s : list Z * Z) : prog (bool * (list Z * Z)) :=
  let '(index, _) := s in
  let$ swapR := pfor (r + 1) order (fun i swapR =>
    let$ ii := Done (zget index i) in
    let$ isr := Done (zget index swapR) in
    let$ x := p_rd2 c ii ii in
    let$ y := p_rd2 c isr isr in
    pret (if fgt x y then i else swapR)) r in
  let$ index := (if negb (swapR =? r) then
      let$ index := Done (let* tmpIndex := zget index r in
                          let* x := zget index swapR in
                          let* index := zset index r x in
                          zset index swapR tmpIndex) in
      let$ tmpRow := prdS b r in
      let$ y := prdS b swapR in
      let$ _ := pwrS b r y in
      let$ _ := pwrS b swapR tmpRow in
      pret index
    else pret index) in
  let$ ir := Done (zget index r) in
  let$ p := p_rd2 c ir ir in
  if fle p small then
    if r =? 0 then perr ENonPosDef else
    let$ _ := pfor r order (fun i (_ : unit) =>
      let$ ii := Done (zget index i) in
      let$ x := p_rd2 c ii ii in
      if flt x (- small)%f then perr ENonPosDef else pret tt) tt in
    pret (true, (index, r))
  else
    let sqrt := fsqrt p in
    let$ _ := p_wr2 b r r sqrt in
    let inverse := (fone / sqrt)%f in
    let$ p := p_rd2 c ir ir in
    let inverse2 := (fone / p)%f in
    let$ _ := pfor (r + 1) order (fun i (_ : unit) =>
      let$ ii := Done (zget index i) in
      let$ x := p_rd2 c ii ir in
      let e := (inverse * x)%f in
      let$ _ := p_wr2 b i r e in
      let$ y := p_rd2 c ii ii in
      let$ x1 := p_rd2 c ii ir in
      let$ x2 := p_rd2 c ii ir in
      let$ _ := p_wr2 c ii ii (y - x1 * x2 * inverse2)%f in
      pfor (r + 1) i (fun j (_ : unit) =>
        let$ ij := Done (zget index j) in
        let$ z := p_rd2 c ii ij in
        let$ bj := p_rd2 b j r in
        let f := (z - e * bj)%f in
        let$ _ := p_wr2 c ii ij f in
        p_wr2 c ij ii f) tt) tt in
    pret (false, (index, r + 1)).
(** NewRectangularCholeskyDecompositionWithThreshold:
    rectangular_cholesky_decomposition.go:34-125; the result is the root. *)
Definition p_h_NewRectChol (x : HMat) (small : F) : prog HMat :=
  let order := hm_rows x in
  let$ c := p_hm_Data x in
  let$ b := p_h_make2 order order in
  let$ index := Done (let* index := make 0 order in for_ 0 order (fun i index => zset index i i) index) in
  let$ bs := pfor_brk 0 (Z.max 1 order) (p_hrc_turn order small b c) (index, 0) in
  let '(index, r) := snd bs in
  let$ root := p_h_NewRealMatrixWithDimension order r in
  let$ _ := pfor 0 order (fun i (_ : unit) =>
    pfor 0 r (fun j (_ : unit) =>
      let$ ii := Done (zget index i) in
      let$ v := p_rd2 b i j in
      p_hm_SetEntry root ii j v) tt) tt in
  pret root.
(** NewRealMatrixFromSlices: real_matrix.go:335-345. *)
Definition p_h_NewRealMatrixFromSlices (data : slice) : prog HMat :=
  if isnil data then perr EInvalidArgument else
  let$ row0 := prdS data 0 in
  if isnil row0 then perr EInvalidArgument else
  if sl_len data * sl_len row0 <=? 4096 then let$ a := p_h2_FromSlices data true in pret (HA a)
  else let$ b := p_hb_FromSlices data in pret (HB b).
(** At of the three kinds of matrix. *)
Definition p_hm_At (x : HMat) (i j : Z) : prog F :=
  match x with HA a => p_h2_At a i j | HD d => p_hd_At d i j | HB b => p_hb_At b i j end.
(** ToArray: array_real_vector.go:486-488.  A foreign implementation returns a
    new array, as the interface (real_vector.go:128-133) demands. *)
Definition p_hv_ToArray (v : HVec) : prog slice :=
  match v with HArr s => pappendF s | HOther d => pnewF d end.
(** NewRealIdentityMatrix: real_matrix.go:347-358. *)
Definition p_h_NewRealIdentityMatrix (n : Z) : prog HMat :=
  let$ m := p_h_NewRealMatrixWithDimension n n in
  let$ _ := pfor 0 n (fun i (_ : unit) => p_hm_SetEntry m i i fone) tt in
  pret m.
(** SolveVector: lu_decomposition.go:253-289; the result is the [data] of the
    new ArrayRealVector. *)
Definition p_hlus_SolveVector (s : HLU) (b : HVec) : prog slice :=
  let m := len (hlu_pivot s) in
  if negb (hv_dim b =? m) then ppanic EDimMismatch else
  if hlu_singular s then ppanic ESingular else
  let$ bp := pmakeF m in
  let$ _ := pfor 0 m (fun row (_ : unit) =>
    let$ k := Done (zget (hlu_pivot s) row) in
    let$ x := p_hv_At b k in pwrF bp row x) tt in
  let$ _ := pfor 0 m (fun col (_ : unit) =>
    let$ bpCol := prdF bp col in
    pfor (col + 1) m (fun i (_ : unit) =>
      let$ x := prdF bp i in
      let$ l := p_rd2 (hlu_lu s) i col in
      pwrF bp i (x - bpCol * l)%f) tt) tt in
  let$ _ := pdown (m - 1) 0 (fun col (_ : unit) =>
    let$ x := prdF bp col in
    let$ u := p_rd2 (hlu_lu s) col col in
    let$ _ := pwrF bp col (x / u)%f in
    let$ bpCol := prdF bp col in
    pfor 0 col (fun i (_ : unit) =>
      let$ x := prdF bp i in
      let$ l := p_rd2 (hlu_lu s) i col in
      pwrF bp i (x - bpCol * l)%f) tt) tt in
  pappendF bp.
(** [bpI[j] -= bpCol[j] * luICol], for all [j]: lu_decomposition.go:319-321 and
    335-337, cholesky_decomposition.go:230-232 and 246-248. *)
Definition p_hrow_sub (n : Z) (rI rC : slice) (l : F) : prog unit :=
  pfor 0 n (fun j (_ : unit) =>
    let$ x := prdF rI j in
    let$ y := prdF rC j in
    pwrF rI j (x - y * l)%f) tt.
(** [bpCol[j] /= luDiag], for all [j]: lu_decomposition.go:329-331,
    cholesky_decomposition.go:224-226 and 240-242. *)
Definition p_hrow_div (n : Z) (rC : slice) (u : F) : prog unit :=
  pfor 0 n (fun j (_ : unit) => let$ x := prdF rC j in pwrF rC j (x / u)%f) tt.
(** SolveMatrix: lu_decomposition.go:291-344. *)
Definition p_hlus_SolveMatrix (s : HLU) (b : HMat) : prog HMat :=
  let m := len (hlu_pivot s) in
  if negb (hm_rows b =? m) then ppanic EDimMismatch else
  if hlu_singular s then ppanic ESingular else
  let$ nColB := p_hm_cols b in
  let$ bp := pmakeS m in
  let$ _ := pfor 0 m (fun row (_ : unit) =>
    let$ r := pmakeF nColB in
    let$ _ := pwrS bp row r in
    let$ bpRow := prdS bp row in
    let$ pRow := Done (zget (hlu_pivot s) row) in
    pfor 0 nColB (fun col (_ : unit) => let$ x := p_hm_At b pRow col in pwrF bpRow col x) tt) tt in
  let$ _ := pfor 0 m (fun col (_ : unit) =>
    let$ bpCol := prdS bp col in
    pfor (col + 1) m (fun i (_ : unit) =>
      let$ bpI := prdS bp i in
      let$ luICol := p_rd2 (hlu_lu s) i col in
      p_hrow_sub nColB bpI bpCol luICol) tt) tt in
  let$ _ := pdown (m - 1) 0 (fun col (_ : unit) =>
    let$ bpCol := prdS bp col in
    let$ luDiag := p_rd2 (hlu_lu s) col col in
    let$ _ := p_hrow_div nColB bpCol luDiag in
    pfor 0 col (fun i (_ : unit) =>
      let$ bpI := prdS bp i in
      let$ luICol := p_rd2 (hlu_lu s) i col in
      p_hrow_sub nColB bpI bpCol luICol) tt) tt in
  let$ a := p_h2_copyIn bp in
  pret (HA a).
(** Inverse: lu_decomposition.go:346-353. *)
Definition p_hlus_Inverse (s : HLU) : prog HMat :=
  let$ m := ppan (p_h_NewRealIdentityMatrix (len (hlu_pivot s))) in
  p_hlus_SolveMatrix s m.
(** SolveVector: cholesky_decomposition.go:178-208. *)
Definition p_hchs_SolveVector (lT : slice) (b : HVec) : prog slice :=
  let m := sl_len lT in
  if negb (hv_dim b =? m) then ppanic EDimMismatch else
  let$ x := p_hv_ToArray b in
  let$ _ := pfor 0 m (fun j (_ : unit) =>
    let$ lJ := prdS lT j in
    let$ a := prdF x j in
    let$ l := prdF lJ j in
    let$ _ := pwrF x j (a / l)%f in
    let$ xJ := prdF x j in
    pfor (j + 1) m (fun i (_ : unit) =>
      let$ a := prdF x i in
      let$ l := prdF lJ i in
      pwrF x i (a - xJ * l)%f) tt) tt in
  let$ _ := pdown (m - 1) 0 (fun j (_ : unit) =>
    let$ a := prdF x j in
    let$ l := p_rd2 lT j j in
    let$ _ := pwrF x j (a / l)%f in
    let$ xJ := prdF x j in
    pfor 0 j (fun i (_ : unit) =>
      let$ a := prdF x i in
      let$ l := p_rd2 lT i j in
      pwrF x i (a - xJ * l)%f) tt) tt in
  pappendF x.
(** SolveMatrix: cholesky_decomposition.go:210-255. *)
Definition p_hchs_SolveMatrix (lT : slice) (b : HMat) : prog HMat :=
  let m := sl_len lT in
  if negb (hm_rows b =? m) then ppanic EDimMismatch else
  let$ nColB := p_hm_cols b in
  let$ x := p_hm_Data b in
  let$ _ := pfor 0 m (fun j (_ : unit) =>
    let$ lJ := prdS lT j in
    let$ lJJ := prdF lJ j in
    let$ xJ := prdS x j in
    let$ _ := p_hrow_div nColB xJ lJJ in
    pfor (j + 1) m (fun i (_ : unit) =>
      let$ rowI := prdS x i in
      let$ lJI := prdF lJ i in
      p_hrow_sub nColB rowI xJ lJI) tt) tt in
  let$ _ := pdown (m - 1) 0 (fun j (_ : unit) =>
    let$ lJJ := p_rd2 lT j j in
    let$ xJ := prdS x j in
    let$ _ := p_hrow_div nColB xJ lJJ in
    pfor 0 j (fun i (_ : unit) =>
      let$ rowI := prdS x i in
      let$ lIJ := p_rd2 lT i j in
      p_hrow_sub nColB rowI xJ lIJ) tt) tt in
  let$ a := p_h2_copyIn x in
  pret (HA a).
(** Inverse: cholesky_decomposition.go:257-264. *)
Definition p_hchs_Inverse (lT : slice) : prog HMat :=
  let$ m := ppan (p_h_NewRealIdentityMatrix (sl_len lT)) in
  p_hchs_SolveMatrix lT m.
(** checkSingular: qr_decomposition.go:293-306. *)
Definition p_h_checkSingular (diag : slice) (min : F) (raise : bool) : prog bool :=
  let$ (_, sing) := pfor_brk 0 (sl_len diag) (fun i sing =>
    let$ d := prdF diag i in
    if fle (fabs d) min then (if raise then ppanic ESingular else pret (true, true)) else pret (false, sing)) false in
  pret sing.
(** SolveVector: qr_decomposition.go:308-349. *)
Definition p_hqrs_SolveVector (s : HQR) (threshold : F) (b : HVec) : prog slice :=
  let n := sl_len (hqr_qrt s) in
  let$ row0 := prdS (hqr_qrt s) 0 in
  let m := sl_len row0 in
  if negb (hv_dim b =? m) then ppanic EDimMismatch else
  let$ _ := p_h_checkSingular (hqr_rDiag s) threshold true in
  let$ x := pmakeF n in
  let$ y := p_hv_ToArray b in
  let$ _ := pfor 0 (Z.min m n) (fun minor (_ : unit) =>
    let$ qrtMinor := prdS (hqr_qrt s) minor in
    let$ dotProduct := pfor minor m (fun row acc =>
      let$ a := prdF y row in
      let$ v := prdF qrtMinor row in
      pret (acc + a * v)%f) fzero in
    let$ a := prdF (hqr_rDiag s) minor in
    let$ v0 := prdF qrtMinor minor in
    let dotProduct := (dotProduct / (a * v0))%f in
    pfor minor m (fun row (_ : unit) =>
      let$ a := prdF y row in
      let$ v := prdF qrtMinor row in
      pwrF y row (a + dotProduct * v)%f) tt) tt in
  let$ _ := pdown (sl_len (hqr_rDiag s) - 1) 0 (fun row (_ : unit) =>
    let$ u := prdF y row in
    let$ a := prdF (hqr_rDiag s) row in
    let$ _ := pwrF y row (u / a)%f in
    let$ yRow := prdF y row in
    let$ qrtRow := prdS (hqr_qrt s) row in
    let$ _ := pwrF x row yRow in
    pfor 0 row (fun i (_ : unit) =>
      let$ u := prdF y i in
      let$ r := prdF qrtRow i in
      pwrF y i (u - yRow * r)%f) tt) tt in
  pret x.
(** CopySubMatrix: real_matrix.go:398-420, with the index checks of
    checkSubMatrixIndex (array_2d_row_real_matrix.go:884-910) on the dimensions of [b]. *)
Definition p_h_CopySubMatrix (b : HMat) (startRow endRow startColumn endColumn : Z) (destination : slice) : prog unit :=
  let$ cols := p_hm_cols b in
  if negb (inb startRow (hm_rows b)) then ppanic EOutOfRange else
  if negb (inb endRow (hm_rows b)) then ppanic EOutOfRange else
  if endRow <? startRow then ppanic ETooSmall else
  if negb (inb startColumn cols) then ppanic EOutOfRange else
  if negb (inb endColumn cols) then ppanic EOutOfRange else
  if endColumn <? startColumn then ppanic ETooSmall else
  let rowsCount := endRow + 1 - startRow in
  let columnsCount := endColumn + 1 - startColumn in
  let$ bad := if sl_len destination <? rowsCount then pret true
              else let$ d0 := prdS destination 0 in pret (sl_len d0 <? columnsCount) in
  if bad then let$ _ := prdS destination 0 in ppanic EMatDimMismatch else
  let$ _ := pfor 1 rowsCount (fun i (_ : unit) =>
    let$ di := prdS destination i in
    if sl_len di <? columnsCount then ppanic EMatDimMismatch else pret tt) tt in
  pfor startRow (endRow + 1) (fun i (_ : unit) =>
    pfor startColumn (endColumn + 1) (fun j (_ : unit) =>
      let$ x := p_hm_At b i j in
      p_wr2 destination (i - startRow) (j - startColumn) x) tt) tt.
(** qr_decomposition.go:379-405. *)
Definition p_hqrs_forward (s : HQR) (m n kWidth : Z) (y alpha : slice) : prog unit :=
  pfor 0 (Z.min m n) (fun minor (_ : unit) =>
    let$ qrtMinor := prdS (hqr_qrt s) minor in
    let$ a := prdF (hqr_rDiag s) minor in
    let$ v0 := prdF qrtMinor minor in
    let factor := (fone / (a * v0))%f in
    let$ _ := pfor 0 kWidth (fun i (_ : unit) => pwrF alpha i fzero) tt in
    let$ _ := pfor minor m (fun row (_ : unit) =>
      let$ d := prdF qrtMinor row in
      let$ yRow := prdS y row in
      pfor 0 kWidth (fun k (_ : unit) =>
        let$ a := prdF alpha k in
        let$ u := prdF yRow k in
        pwrF alpha k (a + d * u)%f) tt) tt in
    let$ _ := pfor 0 kWidth (fun k (_ : unit) =>
      let$ a := prdF alpha k in pwrF alpha k (a * factor)%f) tt in
    pfor minor m (fun row (_ : unit) =>
      let$ d := prdF qrtMinor row in
      let$ yRow := prdS y row in
      pfor 0 kWidth (fun k (_ : unit) =>
        let$ u := prdF yRow k in
        let$ a := prdF alpha k in
        pwrF yRow k (u + a * d)%f) tt) tt) tt.
(** qr_decomposition.go:408-429. *)
Definition p_hqrs_backward (s : HQR) (cBlocks kBlock kWidth : Z) (y xBlocks : slice) : prog unit :=
  pdown (sl_len (hqr_rDiag s) - 1) 0 (fun j (_ : unit) =>
    let jBlock := j / BLOCK_SIZE in
    let jStart := jBlock * BLOCK_SIZE in
    let$ a := prdF (hqr_rDiag s) j in
    let factor := (fone / a)%f in
    let$ yJ := prdS y j in
    let$ xBlock := prdS xBlocks (jBlock * cBlocks + kBlock) in
    let$ _ := pfor 0 kWidth (fun k index =>
      let$ u := prdF yJ k in
      let$ _ := pwrF yJ k (u * factor)%f in
      let$ u := prdF yJ k in
      let$ _ := pwrF xBlock index u in
      pret (index + 1)) ((j - jStart) * kWidth) in
    let$ qrtJ := prdS (hqr_qrt s) j in
    pfor 0 j (fun i (_ : unit) =>
      let$ rIJ := prdF qrtJ i in
      let$ yI := prdS y i in
      pfor 0 kWidth (fun k (_ : unit) =>
        let$ u := prdF yI k in
        let$ w := prdF yJ k in
        pwrF yI k (u - w * rIJ)%f) tt) tt) tt.
(** SolveMatrix: qr_decomposition.go:351-438. *)
Definition p_hqrs_SolveMatrix (s : HQR) (threshold : F) (b : HMat) : prog HMat :=
  let n := sl_len (hqr_qrt s) in
  let$ row0 := prdS (hqr_qrt s) 0 in
  let m := sl_len row0 in
  if negb (hm_rows b =? m) then ppanic EDimMismatch else
  let$ _ := p_h_checkSingular (hqr_rDiag s) threshold true in
  let$ columns := p_hm_cols b in
  let cBlocks := (columns + BLOCK_SIZE - 1) / BLOCK_SIZE in
  let$ xBlocks := p_hb_create n columns in
  let$ y := p_h_make2 (hm_rows b) BLOCK_SIZE in
  let$ alpha := pmakeF BLOCK_SIZE in
  let$ _ := pfor 0 cBlocks (fun kBlock (_ : unit) =>
    let kStart := kBlock * BLOCK_SIZE in
    let kEnd := Z.min (kStart + BLOCK_SIZE) columns in
    let kWidth := kEnd - kStart in
    let$ _ := p_h_CopySubMatrix b 0 (m - 1) kStart (kEnd - 1) y in
    let$ _ := p_hqrs_forward s m n kWidth y alpha in
    p_hqrs_backward s cBlocks kBlock kWidth y xBlocks) tt in
  let$ r := ppan (p_hb_FromBlockData n columns xBlocks) in
  pret (HB r).
(** Inverse: qr_decomposition.go:440-447. *)
Definition p_hqrs_Inverse (s : HQR) (threshold : F) : prog HMat :=
  let$ row0 := prdS (hqr_qrt s) 0 in
  let$ i := ppan (p_h_NewRealIdentityMatrix (sl_len row0)) in
  p_hqrs_SolveMatrix s threshold i.

(** ** Arithmetic: the code of HeapArith.v *)
(** checkAdditionCompatible, canAdd: array_2d_row_real_matrix.go:833-843; the
    panic is that of the caller (94-96, 136-138; diagonal_matrix.go:65-67, 104-106).  The arguments of the error
    evaluate both column dimensions. *)
Definition p_h_ckAdd (a m : HMat) : prog unit :=
  if hm_rows a =? hm_rows m then
    let$ cl := p_hm_cols a in
    let$ cr := p_hm_cols m in
    if cl =? cr then pret tt else ppanic EMatDimMismatch
  else
    let$ _ := p_hm_cols a in
    let$ _ := p_hm_cols m in
    ppanic EMatDimMismatch.
(** checkMultiplicationCompatible, canMultiply:
    array_2d_row_real_matrix.go:845-855; the panic is that of the caller
    (175-177; diagonal_matrix.go:140-142). *)
Definition p_h_ckMul (a m : HMat) : prog unit :=
  let$ cl := p_hm_cols a in
  if cl =? hm_rows m then pret tt else ppanic EDimMismatch.
(** Add: array_2d_row_real_matrix.go:93-132. *)
Definition p_h2_Add (a : slice) (m : HMat) : prog slice :=
  let$ _ := p_h_ckAdd (HA a) m in
  match m with
  | HA b =>
      let rowCount := h2_rows a in
      let$ columnCount := p_h2_cols a in
      let$ outData := pmakeS rowCount in
      let$ _ := pfor 0 rowCount (fun row (_ : unit) =>
        let$ dataRow := prdS a row in
        let$ mRow := prdS b row in
        let$ r := pmakeF columnCount in
        let$ _ := pwrS outData row r in
        let$ outDataRow := prdS outData row in
        pfor 0 columnCount (fun col (_ : unit) =>
          let$ x := prdF dataRow col in
          let$ y := prdF mRow col in
          pwrF outDataRow col (x + y)%f) tt) tt in
      pret outData
  | _ =>
      let rowCount := h2_rows a in
      let$ columnCount := p_h2_cols a in
      let$ outData := pmakeS rowCount in
      let$ _ := pfor 0 rowCount (fun row (_ : unit) =>
        let$ dataRow := prdS a row in
        let$ r := pmakeF columnCount in
        let$ _ := pwrS outData row r in
        let$ outDataRow := prdS outData row in
        pfor 0 columnCount (fun col (_ : unit) =>
          let$ x := prdF dataRow col in
          let$ y := p_hm_At m row col in
          pwrF outDataRow col (x + y)%f) tt) tt in
      pret outData
  end.
(** Subtract: array_2d_row_real_matrix.go:134-172. *)
Definition p_h2_Subtract (a : slice) (m : HMat) : prog slice :=
  let$ _ := p_h_ckAdd (HA a) m in
  match m with
  | HA b =>
      let rowCount := h2_rows a in
      let$ columnCount := p_h2_cols a in
      let$ outData := pmakeS rowCount in
      let$ _ := pfor 0 rowCount (fun row (_ : unit) =>
        let$ dataRow := prdS a row in
        let$ mRow := prdS b row in
        let$ r := pmakeF columnCount in
        let$ _ := pwrS outData row r in
        let$ outDataRow := prdS outData row in
        pfor 0 columnCount (fun col (_ : unit) =>
          let$ x := prdF dataRow col in
          let$ y := prdF mRow col in
          pwrF outDataRow col (x - y)%f) tt) tt in
      pret outData
  | _ =>
      let rowCount := h2_rows a in
      let$ columnCount := p_h2_cols a in
      let$ outData := pmakeS rowCount in
      let$ _ := pfor 0 rowCount (fun row (_ : unit) =>
        let$ dataRow := prdS a row in
        let$ r := pmakeF columnCount in
        let$ _ := pwrS outData row r in
        let$ outDataRow := prdS outData row in
        pfor 0 columnCount (fun col (_ : unit) =>
          let$ x := prdF dataRow col in
          let$ y := p_hm_At m row col in
          pwrF outDataRow col (x - y)%f) tt) tt in
      pret outData
  end.
(** Multiply: array_2d_row_real_matrix.go:174-230.  In the first branch mCol is
    one array, filled again for every column, and a row of outData is nil until
    its first entry is written. *)
Definition p_h2_Multiply (a : slice) (m : HMat) : prog slice :=
  let$ _ := p_h_ckMul (HA a) m in
  match m with
  | HA b =>
      let nRows := h2_rows a in
      let$ nCols := p_h2_cols b in
      let$ nSum := p_h2_cols a in
      let$ outData := pmakeS nRows in
      let$ mCol := pmakeF nSum in
      let$ _ := pfor 0 nCols (fun col (_ : unit) =>
        let$ _ := pfor 0 nSum (fun mRow (_ : unit) =>
          let$ x := p_rd2 b mRow col in pwrF mCol mRow x) tt in
        pfor 0 nRows (fun row (_ : unit) =>
          let$ sum := pfor 0 nSum (fun i sum =>
            let$ x := p_rd2 a row i in
            let$ y := prdF mCol i in
            pret (sum + x * y)%f) fzero in
          let$ o := prdS outData row in
          let$ _ := (if isnil o then let$ r := pmakeF nCols in pwrS outData row r else pret tt) in
          p_wr2 outData row col sum) tt) tt in
      pret outData
  | _ =>
      let nRows := h2_rows a in
      let$ nCols := p_hm_cols m in
      let$ nSum := p_h2_cols a in
      let$ outData := pmakeS nRows in
      let$ _ := pfor 0 nRows (fun row (_ : unit) =>
        let$ r := pmakeF nCols in
        let$ _ := pwrS outData row r in
        let$ dataRow := prdS a row in
        pfor 0 nCols (fun col (_ : unit) =>
          let$ sum := pfor 0 nSum (fun i sum =>
            let$ x := prdF dataRow i in
            let$ y := p_hm_At m i col in
            pret (sum + x * y)%f) fzero in
          p_wr2 outData row col sum) tt) tt in
      pret outData
  end.
(** ScalarAdd: array_2d_row_real_matrix.go:232-247; ScalarMultiply: 249-264. *)
Definition p_h2_ScalarAdd (a : slice) (d : F) : prog slice :=
  let rowCount := h2_rows a in
  let$ columnCount := p_h2_cols a in
  let$ outData := pmakeS rowCount in
  let$ _ := pfor 0 rowCount (fun row (_ : unit) =>
    let$ r := pmakeF columnCount in
    let$ _ := pwrS outData row r in
    pfor 0 columnCount (fun col (_ : unit) =>
      let$ x := p_rd2 a row col in
      p_wr2 outData row col (x + d)%f) tt) tt in
  pret outData.
Definition p_h2_ScalarMultiply (a : slice) (d : F) : prog slice :=
  let rowCount := h2_rows a in
  let$ columnCount := p_h2_cols a in
  let$ outData := pmakeS rowCount in
  let$ _ := pfor 0 rowCount (fun row (_ : unit) =>
    let$ r := pmakeF columnCount in
    let$ _ := pwrS outData row r in
    pfor 0 columnCount (fun col (_ : unit) =>
      let$ x := p_rd2 a row col in
      p_wr2 outData row col (x * d)%f) tt) tt in
  pret outData.
(** Trace: array_2d_row_real_matrix.go:436-447. *)
Definition p_h2_Trace (a : slice) : prog F :=
  let nRows := h2_rows a in
  let$ nCols := p_h2_cols a in
  if negb (nRows =? nCols) then ppanic ENonSquare else
  pfor 0 nRows (fun i trace => let$ x := p_rd2 a i i in pret (trace + x)%f) fzero.
(** Operate: array_2d_row_real_matrix.go:449-464. *)
Definition p_h2_Operate (a v : slice) : prog slice :=
  let nRows := h2_rows a in
  let$ nCols := p_h2_cols a in
  if negb (sl_len v =? nCols) then ppanic EDimMismatch else
  let$ out := pmakeF nRows in
  let$ _ := pfor 0 nRows (fun row (_ : unit) =>
    let$ sum := pfor 0 nCols (fun i sum =>
      let$ x := p_rd2 a row i in
      let$ y := prdF v i in
      pret (sum + x * y)%f) fzero in
    pwrF out row sum) tt in
  pret out.
(** OperateVector: array_2d_row_real_matrix.go:466-490; the result is the [data]
    of the new ArrayRealVector.  DataRef hands over the vector's own array.  In
    the else branch [v] is the nil of the failed assertion. *)
Definition p_h2_OperateVector (a : slice) (vec : HVec) : prog slice :=
  match vec with
  | HArr s => p_h2_Operate a s
  | HOther _ => let$ _ := p_h2_cols a in ppanic ERuntime
  end.
(** PreMultiply: array_2d_row_real_matrix.go:522-540. *)
Definition p_h2_PreMultiply (a v : slice) : prog slice :=
  let nRows := h2_rows a in
  let$ nCols := p_h2_cols a in
  if negb (sl_len v =? nRows) then ppanic EDimMismatch else
  let$ out := pmakeF nCols in
  let$ _ := pfor 0 nCols (fun col (_ : unit) =>
    let$ sum := pfor 0 nRows (fun i sum =>
      let$ x := p_rd2 a i col in
      let$ y := prdF v i in
      pret (sum + x * y)%f) fzero in
    pwrF out col sum) tt in
  pret out.
(** PreMultiplyVector: array_2d_row_real_matrix.go:496-520. *)
Definition p_h2_PreMultiplyVector (a : slice) (vec : HVec) : prog slice :=
  match vec with
  | HArr s => let$ out := p_h2_PreMultiply a s in pappendF out
  | HOther _ => let$ _ := p_h2_cols a in ppanic ERuntime
  end.
(** NewDiagonalMatrixWithDimension: diagonal_matrix.go:28-36. *)
Definition p_hd_NewDim (dimension : Z) : prog slice :=
  if dimension <? 1 then perr ENotStrictlyPositive else pmakeF dimension.
(** Add: diagonal_matrix.go:63-100. *)
Definition p_hd_Add (d : slice) (m : HMat) : prog slice :=
  let$ _ := p_h_ckAdd (HD d) m in
  match m with
  | HD e =>
      let$ outData := pmakeF (sl_len d) in
      let$ _ := pfor 0 (sl_len d) (fun i (_ : unit) =>
        let$ x := prdF d i in
        let$ y := prdF e i in
        pwrF outData i (x + y)%f) tt in
      pret outData
  | _ =>
      let rowCount := hm_rows m in
      let$ columnCount := p_hm_cols m in
      if negb (rowCount =? columnCount) then ppanic EDimMismatch else
      let$ out := ppan (p_hd_NewDim rowCount) in
      let$ _ := pfor 0 rowCount (fun row (_ : unit) =>
        pfor 0 columnCount (fun col (_ : unit) =>
          let$ x := p_hd_At d row col in
          let$ y := p_hm_At m row col in
          p_hd_SetEntry out row col (x + y)%f) tt) tt in
      pret out
  end.
(** Subtract: diagonal_matrix.go:102-137. *)
Definition p_hd_Subtract (d : slice) (m : HMat) : prog slice :=
  let$ _ := p_h_ckAdd (HD d) m in
  match m with
  | HD e =>
      let$ outData := pmakeF (sl_len d) in
      let$ _ := pfor 0 (sl_len d) (fun i (_ : unit) =>
        let$ x := prdF d i in
        let$ y := prdF e i in
        pwrF outData i (x - y)%f) tt in
      pret outData
  | _ =>
      let rowCount := hm_rows m in
      let$ columnCount := p_hm_cols m in
      if negb (rowCount =? columnCount) then ppanic EDimMismatch else
      let$ out := ppan (p_hd_NewDim rowCount) in
      let$ _ := pfor 0 rowCount (fun row (_ : unit) =>
        pfor 0 columnCount (fun col (_ : unit) =>
          let$ x := p_hd_At d row col in
          let$ y := p_hm_At m row col in
          p_hd_SetEntry out row col (x - y)%f) tt) tt in
      pret out
  end.
(** Multiply: diagonal_matrix.go:139-170, the two branches. *)
Definition p_hd_MultiplyDiag (d e : slice) : prog slice :=
  let$ outData := pmakeF (sl_len d) in
  let$ _ := pfor 0 (sl_len d) (fun i (_ : unit) =>
    let$ x := prdF d i in
    let$ y := prdF e i in
    pwrF outData i (x * y)%f) tt in
  pret outData.
Definition p_hd_Multiply (d : slice) (m : HMat) : prog HMat :=
  let$ _ := p_h_ckMul (HD d) m in
  match m with
  | HD e => let$ outData := p_hd_MultiplyDiag d e in pret (HD outData)
  | _ =>
      let nRows := hm_rows m in
      let$ nCols := p_hm_cols m in
      let$ product := pmakeS nRows in
      let$ _ := pfor 0 nRows (fun r (_ : unit) =>
        let$ q := pmakeF nCols in
        let$ _ := pwrS product r q in
        pfor 0 nCols (fun c (_ : unit) =>
          let$ x := prdF d r in
          let$ y := p_hm_At m r c in
          p_wr2 product r c (x * y)%f) tt) tt in
      let$ rm := p_h2_copyIn product in
      pret (HA rm)
  end.
(** Operate: diagonal_matrix.go:254-259; the argument itself becomes the storage
    of a DiagonalMatrix for the time of the call.  PreMultiply: 288-290. *)
Definition p_hd_Operate (d v : slice) : prog slice :=
  let$ _ := p_h_ckMul (HD d) (HD v) in p_hd_MultiplyDiag d v.
(** OperateVector: diagonal_matrix.go:261-286. *)
Definition p_hd_OperateVector (d : slice) (vec : HVec) : prog slice :=
  match vec with
  | HArr s => let$ out := p_hd_Operate d s in pappendF out
  | HOther _ =>
      let n := sl_len d in
      if negb (hv_dim vec =? n) then ppanic EDimMismatch else
      let$ out := pmakeF n in
      let$ _ := pfor 0 n (fun row (_ : unit) =>
        let$ sum := pfor 0 n (fun i sum =>
          let$ x := p_hd_At d row i in
          let$ y := p_hv_At vec i in
          pret (sum + x * y)%f) fzero in
        pwrF out row sum) tt in
      pappendF out
  end.
(** PreMultiplyVector: diagonal_matrix.go:292-305; NewRealVector copies. *)
Definition p_hd_PreMultiplyVector (d : slice) (vec : HVec) : prog slice :=
  let$ vectorData := (match vec with HArr s => pret s | HOther _ => p_hv_ToArray vec end) in
  let$ out := p_hd_Operate d vectorData in
  ppan (p_h_NewArrayRealVector out true).
(** ScalarAdd: diagonal_matrix.go:465-482; ScalarMultiply: 484-501. *)
Definition p_hd_ScalarAdd (d : slice) (x : F) : prog slice :=
  let$ out := ppan (p_hd_NewDim (sl_len d)) in
  let$ _ := pfor 0 (sl_len d) (fun row (_ : unit) =>
    pfor 0 (sl_len d) (fun col (_ : unit) =>
      let$ y := p_hd_At d row col in
      p_hd_SetEntry out row col (y + x)%f) tt) tt in
  pret out.
Definition p_hd_ScalarMultiply (d : slice) (x : F) : prog slice :=
  let$ out := ppan (p_hd_NewDim (sl_len d)) in
  let$ _ := pfor 0 (sl_len d) (fun row (_ : unit) =>
    pfor 0 (sl_len d) (fun col (_ : unit) =>
      let$ y := p_hd_At d row col in
      p_hd_SetEntry out row col (y * x)%f) tt) tt in
  pret out.

(** ** Calls *)
(** Add: block_real_matrix.go:196-239. *)
Definition p_hb_Add (b : HBlk) (mat : HMat) : prog HBlk :=
  let$ _ := p_h_ckAdd (HB b) mat in
  let$ out := ppan (p_hb_New (hb_rows b) (hb_columns b)) in
  match mat with
  | HB m =>
      let$ _ := pfor 0 (sl_len (hb_blocks out)) (fun blockIndex (_ : unit) =>
        let$ tBlock := prdS (hb_blocks b) blockIndex in
        let$ mBlock := prdS (hb_blocks m) blockIndex in
        let$ oBlock := prdS (hb_blocks out) blockIndex in
        pfor 0 (sl_len oBlock) (fun k (_ : unit) =>
          let$ x := prdF tBlock k in
          let$ y := prdF mBlock k in
          p_wr2 (hb_blocks out) blockIndex k (x + y)%f) tt) tt in
      pret out
  | _ =>
      let$ _ := pfor 0 (hb_blockRows out) (fun iBlock blockIndex =>
        pfor 0 (hb_blockColumns out) (fun jBlock blockIndex =>
          let$ tBlock := prdS (hb_blocks b) blockIndex in
          let pStart := iBlock * BLOCK_SIZE in
          let pEnd := Z.min (pStart + BLOCK_SIZE) (hb_rows b) in
          let qStart := jBlock * BLOCK_SIZE in
          let qEnd := Z.min (qStart + BLOCK_SIZE) (hb_columns b) in
          let$ _ := pfor pStart pEnd (fun p k =>
            pfor qStart qEnd (fun q k =>
              let$ x := prdF tBlock k in
              let$ y := p_hm_At mat p q in
              let$ _ := p_wr2 (hb_blocks out) blockIndex k (x + y)%f in
              pret (k + 1)) k) 0 in
          pret (blockIndex + 1)) blockIndex) 0 in
      pret out
  end.
(** Subtract: block_real_matrix.go:241-284. *)
Definition p_hb_Subtract (b : HBlk) (mat : HMat) : prog HBlk :=
  let$ _ := p_h_ckAdd (HB b) mat in
  let$ out := ppan (p_hb_New (hb_rows b) (hb_columns b)) in
  match mat with
  | HB m =>
      let$ _ := pfor 0 (sl_len (hb_blocks out)) (fun blockIndex (_ : unit) =>
        let$ tBlock := prdS (hb_blocks b) blockIndex in
        let$ mBlock := prdS (hb_blocks m) blockIndex in
        let$ oBlock := prdS (hb_blocks out) blockIndex in
        pfor 0 (sl_len oBlock) (fun k (_ : unit) =>
          let$ x := prdF tBlock k in
          let$ y := prdF mBlock k in
          p_wr2 (hb_blocks out) blockIndex k (x - y)%f) tt) tt in
      pret out
  | _ =>
      let$ _ := pfor 0 (hb_blockRows out) (fun iBlock blockIndex =>
        pfor 0 (hb_blockColumns out) (fun jBlock blockIndex =>
          let$ tBlock := prdS (hb_blocks b) blockIndex in
          let pStart := iBlock * BLOCK_SIZE in
          let pEnd := Z.min (pStart + BLOCK_SIZE) (hb_rows b) in
          let qStart := jBlock * BLOCK_SIZE in
          let qEnd := Z.min (qStart + BLOCK_SIZE) (hb_columns b) in
          let$ _ := pfor pStart pEnd (fun p k =>
            pfor qStart qEnd (fun q k =>
              let$ x := prdF tBlock k in
              let$ y := p_hm_At mat p q in
              let$ _ := p_wr2 (hb_blocks out) blockIndex k (x - y)%f in
              pret (k + 1)) k) 0 in
          pret (blockIndex + 1)) blockIndex) 0 in
      pret out
  end.
(** ScalarAdd: block_real_matrix.go:286-302. *)
Definition p_hb_ScalarAdd (b : HBlk) (d : F) : prog HBlk :=
  let$ out := ppan (p_hb_New (hb_rows b) (hb_columns b)) in
  let$ _ := pfor 0 (sl_len (hb_blocks out)) (fun blockIndex (_ : unit) =>
    let$ tBlock := prdS (hb_blocks b) blockIndex in
    let$ oBlock := prdS (hb_blocks out) blockIndex in
    pfor 0 (sl_len oBlock) (fun k (_ : unit) =>
      let$ x := prdF tBlock k in
      p_wr2 (hb_blocks out) blockIndex k (x + d)%f) tt) tt in
  pret out.
(** ScalarMultiply: block_real_matrix.go:304-319. *)
Definition p_hb_ScalarMultiply (b : HBlk) (d : F) : prog HBlk :=
  let$ out := ppan (p_hb_New (hb_rows b) (hb_columns b)) in
  let$ _ := pfor 0 (sl_len (hb_blocks out)) (fun blockIndex (_ : unit) =>
    let$ tBlock := prdS (hb_blocks b) blockIndex in
    let$ oBlock := prdS (hb_blocks out) blockIndex in
    pfor 0 (sl_len oBlock) (fun k (_ : unit) =>
      let$ x := prdF tBlock k in
      p_wr2 (hb_blocks out) blockIndex k (x * d)%f) tt) tt in
  pret out.
(** The inner sum of Multiply, block_real_matrix.go:356-373: four products at a
    time, then one at a time. *)
Definition p_hb_dot4 (tBlock mBlock : slice) (jWidth lStart lEnd nStart : Z) : prog F :=
  let jWidth2 := jWidth + jWidth in
  let jWidth3 := jWidth2 + jWidth in
  let jWidth4 := jWidth3 + jWidth in
  let$ st := pwhile (Z.to_nat (BLOCK_SIZE + 1))
    (fun '(sum, l, n) => l <? lEnd - 3)
    (fun '(sum, l, n) =>
      let$ t0 := prdF tBlock l in let$ m0 := prdF mBlock n in
      let$ t1 := prdF tBlock (l + 1) in let$ m1 := prdF mBlock (n + jWidth) in
      let$ t2 := prdF tBlock (l + 2) in let$ m2 := prdF mBlock (n + jWidth2) in
      let$ t3 := prdF tBlock (l + 3) in let$ m3 := prdF mBlock (n + jWidth3) in
      pret ((sum + (t0 * m0 + t1 * m1 + t2 * m2 + t3 * m3))%f, l + 4, n + jWidth4))
    (fzero, lStart, nStart) in
  let$ st := pwhile (Z.to_nat (BLOCK_SIZE + 1))
    (fun '(sum, l, n) => l <? lEnd)
    (fun '(sum, l, n) =>
      let$ t0 := prdF tBlock l in let$ m0 := prdF mBlock n in
      pret ((sum + t0 * m0)%f, l + 1, n + jWidth)) st in
  pret (fst (fst st)).
(** Multiply: block_real_matrix.go:321-424. *)
Definition p_hb_Multiply (b : HBlk) (mat : HMat) : prog HBlk :=
  let$ _ := p_h_ckMul (HB b) mat in
  match mat with
  | HB m =>
      let$ out := ppan (p_hb_New (hb_rows b) (hb_columns m)) in
      let$ _ := pfor 0 (hb_blockRows out) (fun iBlock blockIndex =>
        let pStart := iBlock * BLOCK_SIZE in
        let pEnd := Z.min (pStart + BLOCK_SIZE) (hb_rows b) in
        pfor 0 (hb_blockColumns out) (fun jBlock blockIndex =>
          let jWidth := hb_width out jBlock in
          let$ _ := pfor 0 (hb_blockColumns b) (fun kBlock (_ : unit) =>
            let kWidth := hb_width b kBlock in
            let$ tBlock := prdS (hb_blocks b) (iBlock * hb_blockColumns b + kBlock) in
            let$ mBlock := prdS (hb_blocks m) (kBlock * hb_blockColumns m + jBlock) in
            let$ _ := pfor pStart pEnd (fun p k =>
              let lStart := (p - pStart) * kWidth in
              let lEnd := lStart + kWidth in
              pfor 0 jWidth (fun nStart k =>
                let$ sum := p_hb_dot4 tBlock mBlock jWidth lStart lEnd nStart in
                let$ o := p_rd2 (hb_blocks out) blockIndex k in
                let$ _ := p_wr2 (hb_blocks out) blockIndex k (o + sum)%f in
                pret (k + 1)) k) 0 in
            pret tt) tt in
          pret (blockIndex + 1)) blockIndex) 0 in
      pret out
  | _ =>
      let$ mcols := p_hm_cols mat in
      let$ out := ppan (p_hb_New (hb_rows b) mcols) in
      let$ _ := pfor 0 (hb_blockRows out) (fun iBlock blockIndex =>
        let pStart := iBlock * BLOCK_SIZE in
        let pEnd := Z.min (pStart + BLOCK_SIZE) (hb_rows b) in
        pfor 0 (hb_blockColumns out) (fun jBlock blockIndex =>
          let qStart := jBlock * BLOCK_SIZE in
          let qEnd := Z.min (qStart + BLOCK_SIZE) mcols in
          let$ _ := pfor 0 (hb_blockColumns b) (fun kBlock (_ : unit) =>
            let kWidth := hb_width b kBlock in
            let$ tBlock := prdS (hb_blocks b) (iBlock * hb_blockColumns b + kBlock) in
            let rStart := kBlock * BLOCK_SIZE in
            let$ _ := pfor pStart pEnd (fun p k =>
              let lStart := (p - pStart) * kWidth in
              let lEnd := lStart + kWidth in
              pfor qStart qEnd (fun q k =>
                let$ st := pfor lStart lEnd (fun l '(sum, r) =>
                  let$ t := prdF tBlock l in
                  let$ y := p_hm_At mat r q in
                  pret ((sum + t * y)%f, r + 1)) (fzero, rStart) in
                let$ o := p_rd2 (hb_blocks out) blockIndex k in
                let$ _ := p_wr2 (hb_blocks out) blockIndex k (o + fst st)%f in
                pret (k + 1)) k) 0 in
            pret tt) tt in
          pret (blockIndex + 1)) blockIndex) 0 in
      pret out
  end.
(** Trace: block_real_matrix.go:452-463. *)
Definition p_hb_Trace (b : HBlk) : prog F :=
  if negb (hb_rows b =? hb_columns b) then ppanic ENonSquare else
  pfor 0 (hb_rows b) (fun i trace => let$ x := p_hb_At b i i in pret (trace + x)%f) fzero.
(** Operate: block_real_matrix.go:1000-1036. *)
Definition p_hb_Operate (b : HBlk) (v : slice) : prog slice :=
  if negb (sl_len v =? hb_columns b) then ppanic EDimMismatch else
  let$ out := pmakeF (hb_rows b) in
  let$ _ := pfor 0 (hb_blockRows b) (fun iBlock (_ : unit) =>
    let pStart := iBlock * BLOCK_SIZE in
    let pEnd := Z.min (pStart + BLOCK_SIZE) (hb_rows b) in
    pfor 0 (hb_blockColumns b) (fun jBlock (_ : unit) =>
      let qStart := jBlock * BLOCK_SIZE in
      let qEnd := Z.min (qStart + BLOCK_SIZE) (hb_columns b) in
      let idx := iBlock * hb_blockColumns b + jBlock in
      let$ _ := pfor pStart pEnd (fun p k =>
        let$ st := pwhile (Z.to_nat (BLOCK_SIZE + 1))
          (fun '(sum, k, q) => q <? qEnd - 3)
          (fun '(sum, k, q) =>
            let$ x0 := p_rd2 (hb_blocks b) idx k in let$ y0 := prdF v q in
            let$ x1 := p_rd2 (hb_blocks b) idx (k + 1) in let$ y1 := prdF v (q + 1) in
            let$ x2 := p_rd2 (hb_blocks b) idx (k + 2) in let$ y2 := prdF v (q + 2) in
            let$ x3 := p_rd2 (hb_blocks b) idx (k + 3) in let$ y3 := prdF v (q + 3) in
            pret ((sum + (x0 * y0 + x1 * y1 + x2 * y2 + x3 * y3))%f, k + 4, q + 4))
          (fzero, k, qStart) in
        let$ st := pwhile (Z.to_nat (BLOCK_SIZE + 1))
          (fun '(sum, k, q) => q <? qEnd)
          (fun '(sum, k, q) =>
            let$ x0 := p_rd2 (hb_blocks b) idx k in let$ y0 := prdF v q in
            pret ((sum + x0 * y0)%f, k + 1, q + 1)) st in
        let$ o := prdF out p in
        let$ _ := pwrF out p (o + fst (fst st))%f in
        pret (snd (fst st))) 0 in
      pret tt) tt) tt in
  pret out.
(** OperateVector: block_real_matrix.go:973-998; the result is the [data] of the
    new ArrayRealVector.  In the else branch [v] is the nil of the failed
    assertion.  PreMultiplyVector: 1042-1066. *)
Definition p_hb_OperateVector (b : HBlk) (vec : HVec) : prog slice :=
  match vec with HArr s => p_hb_Operate b s | HOther _ => ppanic ERuntime end.
(** PreMultiply: block_real_matrix.go:1068-1108. *)
Definition p_hb_PreMultiply (b : HBlk) (v : slice) : prog slice :=
  if negb (sl_len v =? hb_rows b) then ppanic EDimMismatch else
  let$ out := pmakeF (hb_columns b) in
  let$ _ := pfor 0 (hb_blockColumns b) (fun jBlock (_ : unit) =>
    let jWidth := hb_width b jBlock in
    let jWidth2 := jWidth + jWidth in
    let jWidth3 := jWidth2 + jWidth in
    let jWidth4 := jWidth3 + jWidth in
    let qStart := jBlock * BLOCK_SIZE in
    let qEnd := Z.min (qStart + BLOCK_SIZE) (hb_columns b) in
    pfor 0 (hb_blockRows b) (fun iBlock (_ : unit) =>
      let pStart := iBlock * BLOCK_SIZE in
      let pEnd := Z.min (pStart + BLOCK_SIZE) (hb_rows b) in
      let idx := iBlock * hb_blockColumns b + jBlock in
      pfor qStart qEnd (fun q (_ : unit) =>
        let$ st := pwhile (Z.to_nat (BLOCK_SIZE + 1))
          (fun '(sum, k, p) => p <? pEnd - 3)
          (fun '(sum, k, p) =>
            let$ x0 := p_rd2 (hb_blocks b) idx k in let$ y0 := prdF v p in
            let$ x1 := p_rd2 (hb_blocks b) idx (k + jWidth) in let$ y1 := prdF v (p + 1) in
            let$ x2 := p_rd2 (hb_blocks b) idx (k + jWidth2) in let$ y2 := prdF v (p + 2) in
            let$ x3 := p_rd2 (hb_blocks b) idx (k + jWidth3) in let$ y3 := prdF v (p + 3) in
            pret ((sum + (x0 * y0 + x1 * y1 + x2 * y2 + x3 * y3))%f, k + jWidth4, p + 4))
          (fzero, q - qStart, pStart) in
        let$ st := pwhile (Z.to_nat (BLOCK_SIZE + 1))
          (fun '(sum, k, p) => p <? pEnd)
          (fun '(sum, k, p) =>
            let$ x0 := p_rd2 (hb_blocks b) idx k in let$ y0 := prdF v p in
            pret ((sum + x0 * y0)%f, k + jWidth, p + 1)) st in
        let$ o := prdF out q in
        pwrF out q (o + fst (fst st))%f) tt) tt) tt in
  pret out.
Definition p_hb_PreMultiplyVector (b : HBlk) (vec : HVec) : prog slice :=
  match vec with HArr s => p_hb_PreMultiply b s | HOther _ => ppanic ERuntime end.
(** The calls that goroutines can make, and what they return. *)
Inductive call :=
| CLU (x : HMat) (threshold : F) | CCholesky (x : HMat) (rel pos : F) | CQR (x : HMat) | CRRQR (x : HMat)
| CHessenberg (x : HMat) | CTriDiagonal (x : HMat) | CBiDiagonal (x : HMat) | CRectChol (x : HMat) (small : F)
| CLUVector (s : HLU) (b : HVec) | CLUMatrix (s : HLU) (b : HMat) | CLUInverse (s : HLU)
| CChVector (lT : slice) (b : HVec) | CChMatrix (lT : slice) (b : HMat) | CChInverse (lT : slice)
| CQRVector (s : HQR) (threshold : F) (b : HVec) | CQRMatrix (s : HQR) (threshold : F) (b : HMat)
| CQRInverse (s : HQR) (threshold : F)
| CVAt (v : HVec) (i : Z) | CVCopy (v : HVec) | CVFromSlice (d : slice) | CVToArray (v : HVec) | CVSub (v : slice) (i n : Z)
| CVFromTwo (v w : slice) | CVAppend (v : slice) (x : F) | CVAdd (v : slice) (w : HVec)
| CAt (x : HMat) (i j : Z) | CData (x : HMat) | CTranspose (x : HMat) | CFromSlices (d : slice)
| CCopy (x : HMat) | CRow (x : HMat) (i : Z) | CColumn (x : HMat) (j : Z)
| CRowVector (a : slice) (i : Z) | CColumnVector (a : slice) (j : Z)
| CSub (a : slice) (r0 r1 c0 c1 : Z) | CSubBlock (b : HBlk) (r0 r1 c0 c1 : Z) | CRowMatrix (a : slice) (i : Z) | CColumnMatrix (a : slice) (j : Z)
| CPlus (a : slice) (m : HMat) | CMinus (a : slice) (m : HMat) | CTimes (a : slice) (m : HMat) | CShift (a : slice) (x : F) | CScale (a : slice) (x : F)
| CTrace (a : slice) | COperate (a : slice) (v : HVec) | CPreMultiply (a : slice) (v : HVec)
| CDPlus (d : slice) (m : HMat) | CDMinus (d : slice) (m : HMat) | CDTimes (d : slice) (m : HMat) | CDShift (d : slice) (x : F) | CDScale (d : slice) (x : F)
| CDOperate (d : slice) (v : HVec) | CDPreMultiply (d : slice) (v : HVec)
| CBPlus (b : HBlk) (m : HMat) | CBMinus (b : HBlk) (m : HMat) | CBTimes (b : HBlk) (m : HMat) | CBShift (b : HBlk) (x : F) | CBScale (b : HBlk) (x : F) | CBTrace (b : HBlk)
| CBOperate (b : HBlk) (v : HVec) | CBPreMultiply (b : HBlk) (v : HVec).
Inductive answer :=
| ANum (x : F) | ASlice (s : slice) | ATable (o : slice) | AMat (x : HMat) | ALU (d : HLU) | AQR (d : HQR) | ARR (d : HRR) | AHs (d : HHs) | ATd (d : HTd).
Definition code (c : call) : prog answer :=
  match c with
  | CLU x t => let$ d := p_h_NewLU x t in pret (ALU d)
  | CCholesky x rel pos => let$ d := p_h_NewCholesky x rel pos in pret (ATable d)
  | CQR x => let$ d := p_h_NewQR x in pret (AQR d)
  | CRRQR x => let$ d := p_h_NewRRQR x in pret (ARR d)
  | CHessenberg x => let$ d := p_h_NewHessenberg x in pret (AHs d)
  | CTriDiagonal x => let$ d := p_h_NewTriDiagonal x in pret (ATd d)
  | CBiDiagonal x => let$ d := p_h_NewBiDiagonal x in pret (ATd d)
  | CRectChol x small => let$ d := p_h_NewRectChol x small in pret (AMat d)
  | CLUVector s b => let$ d := p_hlus_SolveVector s b in pret (ASlice d)
  | CLUMatrix s b => let$ d := p_hlus_SolveMatrix s b in pret (AMat d)
  | CLUInverse s => let$ d := p_hlus_Inverse s in pret (AMat d)
  | CChVector s b => let$ d := p_hchs_SolveVector s b in pret (ASlice d)
  | CChMatrix s b => let$ d := p_hchs_SolveMatrix s b in pret (AMat d)
  | CChInverse s => let$ d := p_hchs_Inverse s in pret (AMat d)
  | CQRVector s t b => let$ d := p_hqrs_SolveVector s t b in pret (ASlice d)
  | CQRMatrix s t b => let$ d := p_hqrs_SolveMatrix s t b in pret (AMat d)
  | CQRInverse s t => let$ d := p_hqrs_Inverse s t in pret (AMat d)
  | CVAt v i => let$ x := p_hv_At v i in pret (ANum x)
  | CVCopy v => let$ d := p_h_NewArrayRealVectorCopy v in pret (ASlice d)
  | CVFromSlice v => let$ d := p_h_NewArrayRealVectorFromSlice v in pret (ASlice d)
  | CVToArray v => let$ d := p_hv_ToArray v in pret (ASlice d)
  | CVSub v i n => let$ d := p_h_SubVector v i n in pret (ASlice d)
  | CVFromTwo v w => let$ d := p_h_FromTwo v w in pret (ASlice d)
  | CVAppend v x => let$ d := p_h_Append v x in pret (ASlice d)
  | CVAdd v w => let$ d := p_h_Add v w in pret (ASlice d)
  | CAt x i j => let$ y := p_hm_At x i j in pret (ANum y)
  | CData x => let$ d := p_hm_Data x in pret (ATable d)
  | CTranspose x => let$ d := p_hm_Transpose x in pret (AMat d)
  | CFromSlices d => let$ d := p_h_NewRealMatrixFromSlices d in pret (AMat d)
  | CCopy (HA a) => let$ d := p_h2_Copy a in pret (AMat (HA d))
  | CCopy (HD a) => let$ d := p_hd_Copy a in pret (AMat (HD d))
  | CCopy (HB b) => let$ d := p_hb_Copy b in pret (AMat (HB d))
  | CRow (HA a) i => let$ d := p_h2_RowAt a i in pret (ASlice d)
  | CRow (HD a) i => let$ d := p_hd_RowAt a i in pret (ASlice d)
  | CRow (HB a) i => let$ d := p_hb_RowAt a i in pret (ASlice d)
  | CColumn (HA a) j => let$ d := p_h2_ColumnAt a j in pret (ASlice d)
  | CColumn (HD a) j => let$ d := p_hd_ColumnAt a j in pret (ASlice d)
  | CColumn (HB a) j => let$ d := p_hb_ColumnAt a j in pret (ASlice d)
  | CRowVector a i => let$ d := p_h2_RowVectorAt a i in pret (ASlice d)
  | CColumnVector a j => let$ d := p_h2_ColumnVectorAt a j in pret (ASlice d)
  | CSub a r0 r1 c0 c1 => let$ d := p_h2_SubMatrix a r0 r1 c0 c1 in pret (AMat (HA d))
  | CSubBlock a r0 r1 c0 c1 => let$ d := p_hb_SubMatrix a r0 r1 c0 c1 in pret (AMat (HB d))
  | CRowMatrix a i => let$ d := p_h2_RowMatrixAt a i in pret (AMat (HA d))
  | CColumnMatrix a j => let$ d := p_h2_ColumnMatrixAt a j in pret (AMat (HA d))
  | CPlus a m => let$ d := p_h2_Add a m in pret (AMat (HA d))
  | CMinus a m => let$ d := p_h2_Subtract a m in pret (AMat (HA d))
  | CTimes a m => let$ d := p_h2_Multiply a m in pret (AMat (HA d))
  | CShift a x => let$ d := p_h2_ScalarAdd a x in pret (AMat (HA d))
  | CScale a x => let$ d := p_h2_ScalarMultiply a x in pret (AMat (HA d))
  | CTrace a => let$ x := p_h2_Trace a in pret (ANum x)
  | COperate a v => let$ d := p_h2_OperateVector a v in pret (ASlice d)
  | CPreMultiply a v => let$ d := p_h2_PreMultiplyVector a v in pret (ASlice d)
  | CDPlus a m => let$ d := p_hd_Add a m in pret (AMat (HD d))
  | CDMinus a m => let$ d := p_hd_Subtract a m in pret (AMat (HD d))
  | CDTimes a m => let$ d := p_hd_Multiply a m in pret (AMat d)
  | CDShift a x => let$ d := p_hd_ScalarAdd a x in pret (AMat (HD d))
  | CDScale a x => let$ d := p_hd_ScalarMultiply a x in pret (AMat (HD d))
  | CDOperate a v => let$ d := p_hd_OperateVector a v in pret (ASlice d)
  | CDPreMultiply a v => let$ d := p_hd_PreMultiplyVector a v in pret (ASlice d)
  | CBPlus a m => let$ d := p_hb_Add a m in pret (AMat (HB d))
  | CBMinus a m => let$ d := p_hb_Subtract a m in pret (AMat (HB d))
  | CBTimes a m => let$ d := p_hb_Multiply a m in pret (AMat (HB d))
  | CBShift a x => let$ d := p_hb_ScalarAdd a x in pret (AMat (HB d))
  | CBScale a x => let$ d := p_hb_ScalarMultiply a x in pret (AMat (HB d))
  | CBTrace a => let$ d := p_hb_Trace a in pret (ANum d)
  | CBOperate a v => let$ d := p_hb_OperateVector a v in pret (ASlice d)
  | CBPreMultiply a v => let$ d := p_hb_PreMultiplyVector a v in pret (ASlice d)
  end.
(** ** Goroutines *)
(** A goroutine makes calls one after the other, and may change the matrices and
    vectors that it got as results.  [Make c first second] makes the call [c].  An
    argument is a shared object, the one that [c] carries, or a result that the
    goroutine has had: [first] and [second] are the places of such results among its
    results, and they replace the first and the second argument of [c].
    [Put n i j x] is SetEntry(i, j, x) on its result number [n] (for a vector,
    SetEntry(i, x): array_real_vector.go:427-434).  When a call ends with an error
    or a panic, the goroutine ends. *)
Inductive task := Make (c : call) (first second : option nat) | Put (n : nat) (i j : Z) (x : F).
Definition with1 (a : answer) (c : call) : call :=
  match c, a with
  | CLU _ t, AMat x => CLU x t
  | CCholesky _ rel pos, AMat x => CCholesky x rel pos
  | CQR _, AMat x => CQR x
  | CRRQR _, AMat x => CRRQR x
  | CHessenberg _, AMat x => CHessenberg x
  | CTriDiagonal _, AMat x => CTriDiagonal x
  | CBiDiagonal _, AMat x => CBiDiagonal x
  | CRectChol _ small, AMat x => CRectChol x small
  | CLUVector _ b, ALU s => CLUVector s b
  | CLUMatrix _ b, ALU s => CLUMatrix s b
  | CLUInverse _, ALU s => CLUInverse s
  | CChVector _ b, ATable s => CChVector s b
  | CChMatrix _ b, ATable s => CChMatrix s b
  | CChInverse _, ATable s => CChInverse s
  | CQRVector _ t b, AQR s => CQRVector s t b
  | CQRMatrix _ t b, AQR s => CQRMatrix s t b
  | CQRInverse _ t, AQR s => CQRInverse s t
  | CVAt _ i, ASlice v => CVAt (HArr v) i
  | CVCopy _, ASlice v => CVCopy (HArr v)
  | CVFromSlice _, ASlice v => CVFromSlice v
  | CVToArray _, ASlice v => CVToArray (HArr v)
  | CVSub _ i n, ASlice v => CVSub v i n
  | CVFromTwo _ w, ASlice v => CVFromTwo v w
  | CVAppend _ x, ASlice v => CVAppend v x
  | CVAdd _ w, ASlice v => CVAdd v w
  | CAt _ i j, AMat x => CAt x i j
  | CData _, AMat x => CData x
  | CTranspose _, AMat x => CTranspose x
  | CFromSlices _, ATable d => CFromSlices d
  | CCopy _, AMat x => CCopy x
  | CRow _ i, AMat x => CRow x i
  | CColumn _ j, AMat x => CColumn x j
  | CRowVector _ i, AMat (HA a) => CRowVector a i
  | CColumnVector _ j, AMat (HA a) => CColumnVector a j
  | CSub _ r0 r1 c0 c1, AMat (HA a) => CSub a r0 r1 c0 c1
  | CSubBlock _ r0 r1 c0 c1, AMat (HB b) => CSubBlock b r0 r1 c0 c1
  | CRowMatrix _ i, AMat (HA a) => CRowMatrix a i
  | CColumnMatrix _ j, AMat (HA a) => CColumnMatrix a j
  | CPlus _ m, AMat (HA a) => CPlus a m
  | CMinus _ m, AMat (HA a) => CMinus a m
  | CTimes _ m, AMat (HA a) => CTimes a m
  | CShift _ x, AMat (HA a) => CShift a x
  | CScale _ x, AMat (HA a) => CScale a x
  | CTrace _, AMat (HA a) => CTrace a
  | COperate _ v, AMat (HA a) => COperate a v
  | CPreMultiply _ v, AMat (HA a) => CPreMultiply a v
  | CDPlus _ m, AMat (HD a) => CDPlus a m
  | CDMinus _ m, AMat (HD a) => CDMinus a m
  | CDTimes _ m, AMat (HD a) => CDTimes a m
  | CDShift _ x, AMat (HD a) => CDShift a x
  | CDScale _ x, AMat (HD a) => CDScale a x
  | CDOperate _ v, AMat (HD a) => CDOperate a v
  | CDPreMultiply _ v, AMat (HD a) => CDPreMultiply a v
  | CBPlus _ m, AMat (HB a) => CBPlus a m
  | CBMinus _ m, AMat (HB a) => CBMinus a m
  | CBTimes _ m, AMat (HB a) => CBTimes a m
  | CBShift _ x, AMat (HB a) => CBShift a x
  | CBScale _ x, AMat (HB a) => CBScale a x
  | CBTrace _, AMat (HB a) => CBTrace a
  | CBOperate _ v, AMat (HB a) => CBOperate a v
  | CBPreMultiply _ v, AMat (HB a) => CBPreMultiply a v
  | _, _ => c
  end.
Definition with2 (a : answer) (c : call) : call :=
  match c, a with
  | CLUVector s _, ASlice b => CLUVector s (HArr b)
  | CLUMatrix s _, AMat b => CLUMatrix s b
  | CChVector s _, ASlice b => CChVector s (HArr b)
  | CChMatrix s _, AMat b => CChMatrix s b
  | CQRVector s t _, ASlice b => CQRVector s t (HArr b)
  | CQRMatrix s t _, AMat b => CQRMatrix s t b
  | CVFromTwo v _, ASlice w => CVFromTwo v w
  | CVAdd v _, ASlice w => CVAdd v (HArr w)
  | CPlus a _, AMat m => CPlus a m
  | CMinus a _, AMat m => CMinus a m
  | CTimes a _, AMat m => CTimes a m
  | COperate a _, ASlice v => COperate a (HArr v)
  | CPreMultiply a _, ASlice v => CPreMultiply a (HArr v)
  | CDPlus a _, AMat m => CDPlus a m
  | CDMinus a _, AMat m => CDMinus a m
  | CDTimes a _, AMat m => CDTimes a m
  | CDOperate a _, ASlice v => CDOperate a (HArr v)
  | CDPreMultiply a _, ASlice v => CDPreMultiply a (HArr v)
  | CBPlus a _, AMat m => CBPlus a m
  | CBMinus a _, AMat m => CBMinus a m
  | CBTimes a _, AMat m => CBTimes a m
  | CBOperate a _, ASlice v => CBOperate a (HArr v)
  | CBPreMultiply a _, ASlice v => CBPreMultiply a (HArr v)
  | _, _ => c
  end.
Definition pick (f : answer -> call -> call) (had : list answer) (n : option nat) (c : call) : call :=
  match n with Some n => match nth_error had n with Some a => f a c | None => c end | None => c end.
Definition the_call (c : call) (first second : option nat) (had : list answer) : call := pick with2 had second (pick with1 had first c).
Definition p_put (had : list answer) (n : nat) (i j : Z) (x : F) : prog unit :=
  match nth_error had n with
  | Some (AMat m) => p_hm_SetEntry m i j x
  | Some (ASlice s) => let$ _ := p_hcheck s i in pwrF s i x
  | _ => pret tt
  end.
(** All that a goroutine does; [had] are the results so far, and the result is all
    the results. *)
Fixpoint go (ts : list task) (had : list answer) : prog (list answer) :=
  match ts with
  | [] => pret had
  | Make c first second :: ts => let$ a := code (the_call c first second had) in go ts (had ++ [a])
  | Put n i j x :: ts => let$ _ := p_put had n i j x in go ts had
  end.
End Code.

(** Solvers with the storage explicit: what they read from the right-hand side
    and the decomposition, and where they write.  The numbers are computed as in
    LU.v, Cholesky.v and QR.v; here the rows are windows into arrays, and a
    variable such as bpI is a second name for a row. *)
From Coq Require Import ZArith QArith List Lia Bool.
From Verif Require Import Base Scalar Vector Matrix Heap HeapDec.
Import ListNotations.
Open Scope Z_scope.

Section HeapSolve.
Context {O : Ops}.

(** At of the three kinds of matrix. *)
Definition hm_At (x : HMat) (i j : Z) : M F :=
  match x with HA a => h2_At a i j | HD d => hd_At d i j | HB b => hb_At b i j end.
(** ToArray: array_real_vector.go:486-488.  A foreign implementation returns a
    new array, as the interface (real_vector.go:128-133) demands. *)
Definition hv_ToArray (v : HVec) : M slice :=
  match v with HArr s => appendF s | HOther d => newF d end.
(** NewRealIdentityMatrix: real_matrix.go:347-358. *)
Definition h_NewRealIdentityMatrix (n : Z) : M HMat :=
  let! m := h_NewRealMatrixWithDimension n n in
  let! _ := mfor 0 n (fun i (_ : unit) => hm_SetEntry m i i fone) tt in
  ret m.

(** ** lu_decomposition.go *)
(** SolveVector: lu_decomposition.go:253-289; the result is the [data] of the
    new ArrayRealVector. *)
Definition hlus_SolveVector (s : HLU) (b : HVec) : M slice :=
  let m := len (hlu_pivot s) in
  if negb (hv_dim b =? m) then mpanic EDimMismatch else
  if hlu_singular s then mpanic ESingular else
  let! bp := makeF m in
  let! _ := mfor 0 m (fun row (_ : unit) =>
    let! k := pure (zget (hlu_pivot s) row) in
    let! x := hv_At b k in wrF bp row x) tt in
  let! _ := mfor 0 m (fun col (_ : unit) =>
    let! bpCol := rdF bp col in
    mfor (col + 1) m (fun i (_ : unit) =>
      let! x := rdF bp i in
      let! l := rd2 (hlu_lu s) i col in
      wrF bp i (x - bpCol * l)%f) tt) tt in
  let! _ := mdown (m - 1) 0 (fun col (_ : unit) =>
    let! x := rdF bp col in
    let! u := rd2 (hlu_lu s) col col in
    let! _ := wrF bp col (x / u)%f in
    let! bpCol := rdF bp col in
    mfor 0 col (fun i (_ : unit) =>
      let! x := rdF bp i in
      let! l := rd2 (hlu_lu s) i col in
      wrF bp i (x - bpCol * l)%f) tt) tt in
  appendF bp.
(** [bpI[j] -= bpCol[j] * luICol], for all [j]: lu_decomposition.go:319-321 and
    335-337, cholesky_decomposition.go:230-232 and 246-248. *)
Definition hrow_sub (n : Z) (rI rC : slice) (l : F) : M unit :=
  mfor 0 n (fun j (_ : unit) =>
    let! x := rdF rI j in
    let! y := rdF rC j in
    wrF rI j (x - y * l)%f) tt.
(** [bpCol[j] /= luDiag], for all [j]: lu_decomposition.go:329-331,
    cholesky_decomposition.go:224-226 and 240-242. *)
Definition hrow_div (n : Z) (rC : slice) (u : F) : M unit :=
  mfor 0 n (fun j (_ : unit) => let! x := rdF rC j in wrF rC j (x / u)%f) tt.
(** SolveMatrix: lu_decomposition.go:291-344. *)
Definition hlus_SolveMatrix (s : HLU) (b : HMat) : M HMat :=
  let m := len (hlu_pivot s) in
  if negb (hm_rows b =? m) then mpanic EDimMismatch else
  if hlu_singular s then mpanic ESingular else
  let! nColB := hm_cols b in
  let! bp := makeS m in
  let! _ := mfor 0 m (fun row (_ : unit) =>
    let! r := makeF nColB in
    let! _ := wrS bp row r in
    let! bpRow := rdS bp row in
    let! pRow := pure (zget (hlu_pivot s) row) in
    mfor 0 nColB (fun col (_ : unit) => let! x := hm_At b pRow col in wrF bpRow col x) tt) tt in
  let! _ := mfor 0 m (fun col (_ : unit) =>
    let! bpCol := rdS bp col in
    mfor (col + 1) m (fun i (_ : unit) =>
      let! bpI := rdS bp i in
      let! luICol := rd2 (hlu_lu s) i col in
      hrow_sub nColB bpI bpCol luICol) tt) tt in
  let! _ := mdown (m - 1) 0 (fun col (_ : unit) =>
    let! bpCol := rdS bp col in
    let! luDiag := rd2 (hlu_lu s) col col in
    let! _ := hrow_div nColB bpCol luDiag in
    mfor 0 col (fun i (_ : unit) =>
      let! bpI := rdS bp i in
      let! luICol := rd2 (hlu_lu s) i col in
      hrow_sub nColB bpI bpCol luICol) tt) tt in
  let! a := h2_copyIn bp in
  ret (HA a).
(** Inverse: lu_decomposition.go:346-353. *)
Definition hlus_Inverse (s : HLU) : M HMat :=
  let! m := mpan (h_NewRealIdentityMatrix (len (hlu_pivot s))) in
  hlus_SolveMatrix s m.

(** ** cholesky_decomposition.go *)
(** The decomposition is the table lTData; its [m] is the number of rows of it. *)
(** SolveVector: cholesky_decomposition.go:178-208. *)
Definition hchs_SolveVector (lT : slice) (b : HVec) : M slice :=
  let m := sl_len lT in
  if negb (hv_dim b =? m) then mpanic EDimMismatch else
  let! x := hv_ToArray b in
  let! _ := mfor 0 m (fun j (_ : unit) =>
    let! lJ := rdS lT j in
    let! a := rdF x j in
    let! l := rdF lJ j in
    let! _ := wrF x j (a / l)%f in
    let! xJ := rdF x j in
    mfor (j + 1) m (fun i (_ : unit) =>
      let! a := rdF x i in
      let! l := rdF lJ i in
      wrF x i (a - xJ * l)%f) tt) tt in
  let! _ := mdown (m - 1) 0 (fun j (_ : unit) =>
    let! a := rdF x j in
    let! l := rd2 lT j j in
    let! _ := wrF x j (a / l)%f in
    let! xJ := rdF x j in
    mfor 0 j (fun i (_ : unit) =>
      let! a := rdF x i in
      let! l := rd2 lT i j in
      wrF x i (a - xJ * l)%f) tt) tt in
  appendF x.
(** SolveMatrix: cholesky_decomposition.go:210-255. *)
Definition hchs_SolveMatrix (lT : slice) (b : HMat) : M HMat :=
  let m := sl_len lT in
  if negb (hm_rows b =? m) then mpanic EDimMismatch else
  let! nColB := hm_cols b in
  let! x := hm_Data b in
  let! _ := mfor 0 m (fun j (_ : unit) =>
    let! lJ := rdS lT j in
    let! lJJ := rdF lJ j in
    let! xJ := rdS x j in
    let! _ := hrow_div nColB xJ lJJ in
    mfor (j + 1) m (fun i (_ : unit) =>
      let! rowI := rdS x i in
      let! lJI := rdF lJ i in
      hrow_sub nColB rowI xJ lJI) tt) tt in
  let! _ := mdown (m - 1) 0 (fun j (_ : unit) =>
    let! lJJ := rd2 lT j j in
    let! xJ := rdS x j in
    let! _ := hrow_div nColB xJ lJJ in
    mfor 0 j (fun i (_ : unit) =>
      let! rowI := rdS x i in
      let! lIJ := rd2 lT i j in
      hrow_sub nColB rowI xJ lIJ) tt) tt in
  let! a := h2_copyIn x in
  ret (HA a).
(** Inverse: cholesky_decomposition.go:257-264. *)
Definition hchs_Inverse (lT : slice) : M HMat :=
  let! m := mpan (h_NewRealIdentityMatrix (sl_len lT)) in
  hchs_SolveMatrix lT m.

(** ** qr_decomposition.go *)
(** checkSingular: qr_decomposition.go:293-306. *)
Definition h_checkSingular (diag : slice) (min : F) (raise : bool) : M bool :=
  let! (_, sing) := mfor_brk 0 (sl_len diag) (fun i sing =>
    let! d := rdF diag i in
    if fle (fabs d) min then (if raise then mpanic ESingular else ret (true, true)) else ret (false, sing)) false in
  ret sing.
(** SolveVector: qr_decomposition.go:308-349. *)
Definition hqrs_SolveVector (s : HQR) (threshold : F) (b : HVec) : M slice :=
  let n := sl_len (hqr_qrt s) in
  let! row0 := rdS (hqr_qrt s) 0 in
  let m := sl_len row0 in
  if negb (hv_dim b =? m) then mpanic EDimMismatch else
  let! _ := h_checkSingular (hqr_rDiag s) threshold true in
  let! x := makeF n in
  let! y := hv_ToArray b in
  let! _ := mfor 0 (Z.min m n) (fun minor (_ : unit) =>
    let! qrtMinor := rdS (hqr_qrt s) minor in
    let! dotProduct := mfor minor m (fun row acc =>
      let! a := rdF y row in
      let! v := rdF qrtMinor row in
      ret (acc + a * v)%f) fzero in
    let! a := rdF (hqr_rDiag s) minor in
    let! v0 := rdF qrtMinor minor in
    let dotProduct := (dotProduct / (a * v0))%f in
    mfor minor m (fun row (_ : unit) =>
      let! a := rdF y row in
      let! v := rdF qrtMinor row in
      wrF y row (a + dotProduct * v)%f) tt) tt in
  let! _ := mdown (sl_len (hqr_rDiag s) - 1) 0 (fun row (_ : unit) =>
    let! u := rdF y row in
    let! a := rdF (hqr_rDiag s) row in
    let! _ := wrF y row (u / a)%f in
    let! yRow := rdF y row in
    let! qrtRow := rdS (hqr_qrt s) row in
    let! _ := wrF x row yRow in
    mfor 0 row (fun i (_ : unit) =>
      let! u := rdF y i in
      let! r := rdF qrtRow i in
      wrF y i (u - yRow * r)%f) tt) tt in
  ret x.
(** CopySubMatrix: real_matrix.go:398-420, with the index checks of
    checkSubMatrixIndex (array_2d_row_real_matrix.go:884-910) on the dimensions of [b]. *)
Definition h_CopySubMatrix (b : HMat) (startRow endRow startColumn endColumn : Z) (destination : slice) : M unit :=
  let! cols := hm_cols b in
  if negb (inb startRow (hm_rows b)) then mpanic EOutOfRange else
  if negb (inb endRow (hm_rows b)) then mpanic EOutOfRange else
  if endRow <? startRow then mpanic ETooSmall else
  if negb (inb startColumn cols) then mpanic EOutOfRange else
  if negb (inb endColumn cols) then mpanic EOutOfRange else
  if endColumn <? startColumn then mpanic ETooSmall else
  let rowsCount := endRow + 1 - startRow in
  let columnsCount := endColumn + 1 - startColumn in
  let! bad := if sl_len destination <? rowsCount then ret true
              else let! d0 := rdS destination 0 in ret (sl_len d0 <? columnsCount) in
  if bad then let! _ := rdS destination 0 in mpanic EMatDimMismatch else
  let! _ := mfor 1 rowsCount (fun i (_ : unit) =>
    let! di := rdS destination i in
    if sl_len di <? columnsCount then mpanic EMatDimMismatch else ret tt) tt in
  mfor startRow (endRow + 1) (fun i (_ : unit) =>
    mfor startColumn (endColumn + 1) (fun j (_ : unit) =>
      let! x := hm_At b i j in
      wr2 destination (i - startRow) (j - startColumn) x) tt) tt.
(** qr_decomposition.go:379-405. *)
Definition hqrs_forward (s : HQR) (m n kWidth : Z) (y alpha : slice) : M unit :=
  mfor 0 (Z.min m n) (fun minor (_ : unit) =>
    let! qrtMinor := rdS (hqr_qrt s) minor in
    let! a := rdF (hqr_rDiag s) minor in
    let! v0 := rdF qrtMinor minor in
    let factor := (fone / (a * v0))%f in
    let! _ := mfor 0 kWidth (fun i (_ : unit) => wrF alpha i fzero) tt in
    let! _ := mfor minor m (fun row (_ : unit) =>
      let! d := rdF qrtMinor row in
      let! yRow := rdS y row in
      mfor 0 kWidth (fun k (_ : unit) =>
        let! a := rdF alpha k in
        let! u := rdF yRow k in
        wrF alpha k (a + d * u)%f) tt) tt in
    let! _ := mfor 0 kWidth (fun k (_ : unit) =>
      let! a := rdF alpha k in wrF alpha k (a * factor)%f) tt in
    mfor minor m (fun row (_ : unit) =>
      let! d := rdF qrtMinor row in
      let! yRow := rdS y row in
      mfor 0 kWidth (fun k (_ : unit) =>
        let! u := rdF yRow k in
        let! a := rdF alpha k in
        wrF yRow k (u + a * d)%f) tt) tt) tt.
(** qr_decomposition.go:408-429. *)
Definition hqrs_backward (s : HQR) (cBlocks kBlock kWidth : Z) (y xBlocks : slice) : M unit :=
  mdown (sl_len (hqr_rDiag s) - 1) 0 (fun j (_ : unit) =>
    let jBlock := j / BLOCK_SIZE in
    let jStart := jBlock * BLOCK_SIZE in
    let! a := rdF (hqr_rDiag s) j in
    let factor := (fone / a)%f in
    let! yJ := rdS y j in
    let! xBlock := rdS xBlocks (jBlock * cBlocks + kBlock) in
    let! _ := mfor 0 kWidth (fun k index =>
      let! u := rdF yJ k in
      let! _ := wrF yJ k (u * factor)%f in
      let! u := rdF yJ k in
      let! _ := wrF xBlock index u in
      ret (index + 1)) ((j - jStart) * kWidth) in
    let! qrtJ := rdS (hqr_qrt s) j in
    mfor 0 j (fun i (_ : unit) =>
      let! rIJ := rdF qrtJ i in
      let! yI := rdS y i in
      mfor 0 kWidth (fun k (_ : unit) =>
        let! u := rdF yI k in
        let! w := rdF yJ k in
        wrF yI k (u - w * rIJ)%f) tt) tt) tt.
(** SolveMatrix: qr_decomposition.go:351-438. *)
Definition hqrs_SolveMatrix (s : HQR) (threshold : F) (b : HMat) : M HMat :=
  let n := sl_len (hqr_qrt s) in
  let! row0 := rdS (hqr_qrt s) 0 in
  let m := sl_len row0 in
  if negb (hm_rows b =? m) then mpanic EDimMismatch else
  let! _ := h_checkSingular (hqr_rDiag s) threshold true in
  let! columns := hm_cols b in
  let cBlocks := (columns + BLOCK_SIZE - 1) / BLOCK_SIZE in
  let! xBlocks := hb_create n columns in
  let! y := h_make2 (hm_rows b) BLOCK_SIZE in
  let! alpha := makeF BLOCK_SIZE in
  let! _ := mfor 0 cBlocks (fun kBlock (_ : unit) =>
    let kStart := kBlock * BLOCK_SIZE in
    let kEnd := Z.min (kStart + BLOCK_SIZE) columns in
    let kWidth := kEnd - kStart in
    let! _ := h_CopySubMatrix b 0 (m - 1) kStart (kEnd - 1) y in
    let! _ := hqrs_forward s m n kWidth y alpha in
    hqrs_backward s cBlocks kBlock kWidth y xBlocks) tt in
  let! r := mpan (hb_FromBlockData n columns xBlocks) in
  ret (HB r).
(** Inverse: qr_decomposition.go:440-447. *)
Definition hqrs_Inverse (s : HQR) (threshold : F) : M HMat :=
  let! row0 := rdS (hqr_qrt s) 0 in
  let! i := mpan (h_NewRealIdentityMatrix (sl_len row0)) in
  hqrs_SolveMatrix s threshold i.
End HeapSolve.

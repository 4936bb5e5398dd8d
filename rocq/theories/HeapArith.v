(** Arithmetic of Array2DRowRealMatrix and DiagonalMatrix with the storage explicit: which rows of
    the operands are read, and where the results are written.  The numbers are
    computed as in Array2D.v and Diagonal.v; the other operand is a matrix of any of the three
    kinds. *)
From Coq Require Import ZArith List Lia Bool.
From Verif Require Import Base Scalar Vector Matrix Heap HeapDec HeapSolve.
Import ListNotations.
Open Scope Z_scope.

Section HeapArith.
Context {O : Ops}.

(** checkAdditionCompatible, canAdd: array_2d_row_real_matrix.go:833-843; the
    panic is that of the caller (94-96, 136-138; diagonal_matrix.go:65-67, 104-106).  The arguments of the error
    evaluate both column dimensions. *)
Definition h_ckAdd (a m : HMat) : M unit :=
  if hm_rows a =? hm_rows m then
    let! cl := hm_cols a in
    let! cr := hm_cols m in
    if cl =? cr then ret tt else mpanic EMatDimMismatch
  else
    let! _ := hm_cols a in
    let! _ := hm_cols m in
    mpanic EMatDimMismatch.
(** checkMultiplicationCompatible, canMultiply:
    array_2d_row_real_matrix.go:845-855; the panic is that of the caller
    (175-177; diagonal_matrix.go:140-142). *)
Definition h_ckMul (a m : HMat) : M unit :=
  let! cl := hm_cols a in
  if cl =? hm_rows m then ret tt else mpanic EDimMismatch.

(** Add: array_2d_row_real_matrix.go:93-132. *)
Definition h2_Add (a : slice) (m : HMat) : M slice :=
  let! _ := h_ckAdd (HA a) m in
  match m with
  | HA b =>
      let rowCount := h2_rows a in
      let! columnCount := h2_cols a in
      let! outData := makeS rowCount in
      let! _ := mfor 0 rowCount (fun row (_ : unit) =>
        let! dataRow := rdS a row in
        let! mRow := rdS b row in
        let! r := makeF columnCount in
        let! _ := wrS outData row r in
        let! outDataRow := rdS outData row in
        mfor 0 columnCount (fun col (_ : unit) =>
          let! x := rdF dataRow col in
          let! y := rdF mRow col in
          wrF outDataRow col (x + y)%f) tt) tt in
      ret outData
  | _ =>
      let rowCount := h2_rows a in
      let! columnCount := h2_cols a in
      let! outData := makeS rowCount in
      let! _ := mfor 0 rowCount (fun row (_ : unit) =>
        let! dataRow := rdS a row in
        let! r := makeF columnCount in
        let! _ := wrS outData row r in
        let! outDataRow := rdS outData row in
        mfor 0 columnCount (fun col (_ : unit) =>
          let! x := rdF dataRow col in
          let! y := hm_At m row col in
          wrF outDataRow col (x + y)%f) tt) tt in
      ret outData
  end.
(** Subtract: array_2d_row_real_matrix.go:134-172. *)
Definition h2_Subtract (a : slice) (m : HMat) : M slice :=
  let! _ := h_ckAdd (HA a) m in
  match m with
  | HA b =>
      let rowCount := h2_rows a in
      let! columnCount := h2_cols a in
      let! outData := makeS rowCount in
      let! _ := mfor 0 rowCount (fun row (_ : unit) =>
        let! dataRow := rdS a row in
        let! mRow := rdS b row in
        let! r := makeF columnCount in
        let! _ := wrS outData row r in
        let! outDataRow := rdS outData row in
        mfor 0 columnCount (fun col (_ : unit) =>
          let! x := rdF dataRow col in
          let! y := rdF mRow col in
          wrF outDataRow col (x - y)%f) tt) tt in
      ret outData
  | _ =>
      let rowCount := h2_rows a in
      let! columnCount := h2_cols a in
      let! outData := makeS rowCount in
      let! _ := mfor 0 rowCount (fun row (_ : unit) =>
        let! dataRow := rdS a row in
        let! r := makeF columnCount in
        let! _ := wrS outData row r in
        let! outDataRow := rdS outData row in
        mfor 0 columnCount (fun col (_ : unit) =>
          let! x := rdF dataRow col in
          let! y := hm_At m row col in
          wrF outDataRow col (x - y)%f) tt) tt in
      ret outData
  end.
(** Multiply: array_2d_row_real_matrix.go:174-230.  In the first branch mCol is
    one array, filled again for every column, and a row of outData is nil until
    its first entry is written. *)
Definition h2_Multiply (a : slice) (m : HMat) : M slice :=
  let! _ := h_ckMul (HA a) m in
  match m with
  | HA b =>
      let nRows := h2_rows a in
      let! nCols := h2_cols b in
      let! nSum := h2_cols a in
      let! outData := makeS nRows in
      let! mCol := makeF nSum in
      let! _ := mfor 0 nCols (fun col (_ : unit) =>
        let! _ := mfor 0 nSum (fun mRow (_ : unit) =>
          let! x := rd2 b mRow col in wrF mCol mRow x) tt in
        mfor 0 nRows (fun row (_ : unit) =>
          let! sum := mfor 0 nSum (fun i sum =>
            let! x := rd2 a row i in
            let! y := rdF mCol i in
            ret (sum + x * y)%f) fzero in
          let! o := rdS outData row in
          let! _ := (if isnil o then let! r := makeF nCols in wrS outData row r else ret tt) in
          wr2 outData row col sum) tt) tt in
      ret outData
  | _ =>
      let nRows := h2_rows a in
      let! nCols := hm_cols m in
      let! nSum := h2_cols a in
      let! outData := makeS nRows in
      let! _ := mfor 0 nRows (fun row (_ : unit) =>
        let! r := makeF nCols in
        let! _ := wrS outData row r in
        let! dataRow := rdS a row in
        mfor 0 nCols (fun col (_ : unit) =>
          let! sum := mfor 0 nSum (fun i sum =>
            let! x := rdF dataRow i in
            let! y := hm_At m i col in
            ret (sum + x * y)%f) fzero in
          wr2 outData row col sum) tt) tt in
      ret outData
  end.
(** ScalarAdd: array_2d_row_real_matrix.go:232-247; ScalarMultiply: 249-264. *)
Definition h2_ScalarAdd (a : slice) (d : F) : M slice :=
  let rowCount := h2_rows a in
  let! columnCount := h2_cols a in
  let! outData := makeS rowCount in
  let! _ := mfor 0 rowCount (fun row (_ : unit) =>
    let! r := makeF columnCount in
    let! _ := wrS outData row r in
    mfor 0 columnCount (fun col (_ : unit) =>
      let! x := rd2 a row col in
      wr2 outData row col (x + d)%f) tt) tt in
  ret outData.
Definition h2_ScalarMultiply (a : slice) (d : F) : M slice :=
  let rowCount := h2_rows a in
  let! columnCount := h2_cols a in
  let! outData := makeS rowCount in
  let! _ := mfor 0 rowCount (fun row (_ : unit) =>
    let! r := makeF columnCount in
    let! _ := wrS outData row r in
    mfor 0 columnCount (fun col (_ : unit) =>
      let! x := rd2 a row col in
      wr2 outData row col (x * d)%f) tt) tt in
  ret outData.
(** Trace: array_2d_row_real_matrix.go:436-447. *)
Definition h2_Trace (a : slice) : M F :=
  let nRows := h2_rows a in
  let! nCols := h2_cols a in
  if negb (nRows =? nCols) then mpanic ENonSquare else
  mfor 0 nRows (fun i trace => let! x := rd2 a i i in ret (trace + x)%f) fzero.
(** Operate: array_2d_row_real_matrix.go:449-464. *)
Definition h2_Operate (a v : slice) : M slice :=
  let nRows := h2_rows a in
  let! nCols := h2_cols a in
  if negb (sl_len v =? nCols) then mpanic EDimMismatch else
  let! out := makeF nRows in
  let! _ := mfor 0 nRows (fun row (_ : unit) =>
    let! sum := mfor 0 nCols (fun i sum =>
      let! x := rd2 a row i in
      let! y := rdF v i in
      ret (sum + x * y)%f) fzero in
    wrF out row sum) tt in
  ret out.
(** OperateVector: array_2d_row_real_matrix.go:466-490; the result is the [data]
    of the new ArrayRealVector.  DataRef hands over the vector's own array.  In
    the else branch [v] is the nil of the failed assertion. *)
Definition h2_OperateVector (a : slice) (vec : HVec) : M slice :=
  match vec with
  | HArr s => h2_Operate a s
  | HOther _ => let! _ := h2_cols a in mpanic ERuntime
  end.
(** PreMultiply: array_2d_row_real_matrix.go:522-540. *)
Definition h2_PreMultiply (a v : slice) : M slice :=
  let nRows := h2_rows a in
  let! nCols := h2_cols a in
  if negb (sl_len v =? nRows) then mpanic EDimMismatch else
  let! out := makeF nCols in
  let! _ := mfor 0 nCols (fun col (_ : unit) =>
    let! sum := mfor 0 nRows (fun i sum =>
      let! x := rd2 a i col in
      let! y := rdF v i in
      ret (sum + x * y)%f) fzero in
    wrF out col sum) tt in
  ret out.
(** PreMultiplyVector: array_2d_row_real_matrix.go:496-520. *)
Definition h2_PreMultiplyVector (a : slice) (vec : HVec) : M slice :=
  match vec with
  | HArr s => let! out := h2_PreMultiply a s in appendF out
  | HOther _ => let! _ := h2_cols a in mpanic ERuntime
  end.

(** ** diagonal_matrix.go *)
(** NewDiagonalMatrixWithDimension: diagonal_matrix.go:28-36. *)
Definition hd_NewDim (dimension : Z) : M slice :=
  if dimension <? 1 then merr ENotStrictlyPositive else makeF dimension.
(** Add: diagonal_matrix.go:63-100. *)
Definition hd_Add (d : slice) (m : HMat) : M slice :=
  let! _ := h_ckAdd (HD d) m in
  match m with
  | HD e =>
      let! outData := makeF (sl_len d) in
      let! _ := mfor 0 (sl_len d) (fun i (_ : unit) =>
        let! x := rdF d i in
        let! y := rdF e i in
        wrF outData i (x + y)%f) tt in
      ret outData
  | _ =>
      let rowCount := hm_rows m in
      let! columnCount := hm_cols m in
      if negb (rowCount =? columnCount) then mpanic EDimMismatch else
      let! out := mpan (hd_NewDim rowCount) in
      let! _ := mfor 0 rowCount (fun row (_ : unit) =>
        mfor 0 columnCount (fun col (_ : unit) =>
          let! x := hd_At d row col in
          let! y := hm_At m row col in
          hd_SetEntry out row col (x + y)%f) tt) tt in
      ret out
  end.
(** Subtract: diagonal_matrix.go:102-137. *)
Definition hd_Subtract (d : slice) (m : HMat) : M slice :=
  let! _ := h_ckAdd (HD d) m in
  match m with
  | HD e =>
      let! outData := makeF (sl_len d) in
      let! _ := mfor 0 (sl_len d) (fun i (_ : unit) =>
        let! x := rdF d i in
        let! y := rdF e i in
        wrF outData i (x - y)%f) tt in
      ret outData
  | _ =>
      let rowCount := hm_rows m in
      let! columnCount := hm_cols m in
      if negb (rowCount =? columnCount) then mpanic EDimMismatch else
      let! out := mpan (hd_NewDim rowCount) in
      let! _ := mfor 0 rowCount (fun row (_ : unit) =>
        mfor 0 columnCount (fun col (_ : unit) =>
          let! x := hd_At d row col in
          let! y := hm_At m row col in
          hd_SetEntry out row col (x - y)%f) tt) tt in
      ret out
  end.
(** Multiply: diagonal_matrix.go:139-170, the two branches. *)
Definition hd_MultiplyDiag (d e : slice) : M slice :=
  let! outData := makeF (sl_len d) in
  let! _ := mfor 0 (sl_len d) (fun i (_ : unit) =>
    let! x := rdF d i in
    let! y := rdF e i in
    wrF outData i (x * y)%f) tt in
  ret outData.
Definition hd_Multiply (d : slice) (m : HMat) : M HMat :=
  let! _ := h_ckMul (HD d) m in
  match m with
  | HD e => let! outData := hd_MultiplyDiag d e in ret (HD outData)
  | _ =>
      let nRows := hm_rows m in
      let! nCols := hm_cols m in
      let! product := makeS nRows in
      let! _ := mfor 0 nRows (fun r (_ : unit) =>
        let! q := makeF nCols in
        let! _ := wrS product r q in
        mfor 0 nCols (fun c (_ : unit) =>
          let! x := rdF d r in
          let! y := hm_At m r c in
          wr2 product r c (x * y)%f) tt) tt in
      let! rm := h2_copyIn product in
      ret (HA rm)
  end.
(** Operate: diagonal_matrix.go:254-259; the argument itself becomes the storage
    of a DiagonalMatrix for the time of the call.  PreMultiply: 288-290. *)
Definition hd_Operate (d v : slice) : M slice :=
  let! _ := h_ckMul (HD d) (HD v) in hd_MultiplyDiag d v.
(** OperateVector: diagonal_matrix.go:261-286. *)
Definition hd_OperateVector (d : slice) (vec : HVec) : M slice :=
  match vec with
  | HArr s => let! out := hd_Operate d s in appendF out
  | HOther _ =>
      let n := sl_len d in
      if negb (hv_dim vec =? n) then mpanic EDimMismatch else
      let! out := makeF n in
      let! _ := mfor 0 n (fun row (_ : unit) =>
        let! sum := mfor 0 n (fun i sum =>
          let! x := hd_At d row i in
          let! y := hv_At vec i in
          ret (sum + x * y)%f) fzero in
        wrF out row sum) tt in
      appendF out
  end.
(** PreMultiplyVector: diagonal_matrix.go:292-305; NewRealVector copies. *)
Definition hd_PreMultiplyVector (d : slice) (vec : HVec) : M slice :=
  let! vectorData := (match vec with HArr s => ret s | HOther _ => hv_ToArray vec end) in
  let! out := hd_Operate d vectorData in
  mpan (h_NewArrayRealVector out true).
(** ScalarAdd: diagonal_matrix.go:465-482; ScalarMultiply: 484-501. *)
Definition hd_ScalarAdd (d : slice) (x : F) : M slice :=
  let! out := mpan (hd_NewDim (sl_len d)) in
  let! _ := mfor 0 (sl_len d) (fun row (_ : unit) =>
    mfor 0 (sl_len d) (fun col (_ : unit) =>
      let! y := hd_At d row col in
      hd_SetEntry out row col (y + x)%f) tt) tt in
  ret out.
Definition hd_ScalarMultiply (d : slice) (x : F) : M slice :=
  let! out := mpan (hd_NewDim (sl_len d)) in
  let! _ := mfor 0 (sl_len d) (fun row (_ : unit) =>
    mfor 0 (sl_len d) (fun col (_ : unit) =>
      let! y := hd_At d row col in
      hd_SetEntry out row col (y * x)%f) tt) tt in
  ret out.
End HeapArith.

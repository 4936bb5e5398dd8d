(** Power of a matrix held in memory. *)
From Coq Require Import ZArith List Lia Bool.
From Verif Require Import Base Scalar Vector Matrix RealMatrixM Heap HeapDec HeapSolve HeapArith HeapBlkArith HeapExpr.
Import ListNotations.
Open Scope Z_scope.

Section HeapPower.
Context {O : Ops}.
(** Copy: array_2d_row_real_matrix.go, block_real_matrix.go and diagonal_matrix.go
    as cited in Heap.v, by the kind of the receiver. *)
Definition hm_Copy (x : HMat) : M HMat :=
  match x with
  | HA a => let! o := h2_Copy a in ret (HA o)
  | HD d => let! o := hd_Copy d in ret (HD o)
  | HB b => let! o := hb_Copy b in ret (HB o)
  end.
(** Power: real_matrix.go:490-551.  [nonZeroPositions] and [results] are local to
    the call and hold numbers and references; they are lists here. *)
Definition h_Power (m : HMat) (p : Z) : M HMat :=
  if p <? 0 then mpanic ENotPositive else
  let! sq := hm_IsSquare m in
  if negb sq then mpanic ENonSquare else
  if p =? 0 then mpan (h_NewRealIdentityMatrix (hm_rows m)) else
  if p =? 1 then hm_Copy m else
  let power := p - 1 in
  let binaryRepresentation := FormatInt2 power in
  let! st := mfor 0 (len binaryRepresentation) (fun i '(nonZeroPositions, maxI) =>
    let! bit := pure (zget binaryRepresentation i) in
    if (bit : bool) then
      let pos := len binaryRepresentation - i - 1 in
      ret (nonZeroPositions ++ [pos], if maxI =? -1 then pos else maxI)
    else ret (nonZeroPositions, maxI)) ([], -1) in
  let! results := pure (make None (snd st + 1)) in
  let! r0 := hm_Copy m in
  let! results := pure (zset results 0 (Some r0)) in
  let! results := mfor 1 (snd st + 1) (fun i results =>
    let! o := pure (zget results (i - 1)) in
    match o with
    | None => mpanic ERuntime
    | Some prev => let! sq := hm_Multiply prev prev in pure (zset results i (Some sq))
    end) results in
  let! result := hm_Copy m in
  mfor 0 (len (fst st)) (fun k result =>
    let! i := pure (zget (fst st) k) in
    let! o := pure (zget results i) in
    match o with
    | None => mpanic ERuntime
    | Some ri => hm_Multiply result ri
    end) result.
End HeapPower.

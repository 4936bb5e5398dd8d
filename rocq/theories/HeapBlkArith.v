(** Arithmetic of BlockRealMatrix with the storage explicit: which blocks of the
    operands are read, and where the results are written.  The numbers are
    computed as in BlockM.v; the other operand is a matrix of any of the three
    kinds.  The length of a block of the result, which the code evaluates before
    every pass of a loop, is read once: no loop below changes it.  Indices are
    below 2^53, so that [math.Min] of their float64 values is exact. *)
From Coq Require Import ZArith List Lia Bool.
From Verif Require Import Base Scalar Vector Matrix Heap HeapDec HeapSolve HeapArith.
Import ListNotations.
Open Scope Z_scope.

Section HeapBlkArith.
Context {O : Ops}.

(** [for cond { body }]; running out of fuel is a panic that no caller below
    reaches. *)
Fixpoint mwhile {T} (fuel : nat) (cond : T -> bool) (body : T -> M T) (s : T) : M T :=
  match fuel with
  | 0%nat => mpanic EFuel
  | Datatypes.S n => if cond s then mbind (body s) (mwhile n cond body) else ret s
  end.

(** Add: block_real_matrix.go:196-239. *)
Definition hb_Add (b : HBlk) (mat : HMat) : M HBlk :=
  let! _ := h_ckAdd (HB b) mat in
  let! out := mpan (hb_New (hb_rows b) (hb_columns b)) in
  match mat with
  | HB m =>
      let! _ := mfor 0 (sl_len (hb_blocks out)) (fun blockIndex (_ : unit) =>
        let! tBlock := rdS (hb_blocks b) blockIndex in
        let! mBlock := rdS (hb_blocks m) blockIndex in
        let! oBlock := rdS (hb_blocks out) blockIndex in
        mfor 0 (sl_len oBlock) (fun k (_ : unit) =>
          let! x := rdF tBlock k in
          let! y := rdF mBlock k in
          wr2 (hb_blocks out) blockIndex k (x + y)%f) tt) tt in
      ret out
  | _ =>
      let! _ := mfor 0 (hb_blockRows out) (fun iBlock blockIndex =>
        mfor 0 (hb_blockColumns out) (fun jBlock blockIndex =>
          let! tBlock := rdS (hb_blocks b) blockIndex in
          let pStart := iBlock * BLOCK_SIZE in
          let pEnd := Z.min (pStart + BLOCK_SIZE) (hb_rows b) in
          let qStart := jBlock * BLOCK_SIZE in
          let qEnd := Z.min (qStart + BLOCK_SIZE) (hb_columns b) in
          let! _ := mfor pStart pEnd (fun p k =>
            mfor qStart qEnd (fun q k =>
              let! x := rdF tBlock k in
              let! y := hm_At mat p q in
              let! _ := wr2 (hb_blocks out) blockIndex k (x + y)%f in
              ret (k + 1)) k) 0 in
          ret (blockIndex + 1)) blockIndex) 0 in
      ret out
  end.
(** Subtract: block_real_matrix.go:241-284. *)
Definition hb_Subtract (b : HBlk) (mat : HMat) : M HBlk :=
  let! _ := h_ckAdd (HB b) mat in
  let! out := mpan (hb_New (hb_rows b) (hb_columns b)) in
  match mat with
  | HB m =>
      let! _ := mfor 0 (sl_len (hb_blocks out)) (fun blockIndex (_ : unit) =>
        let! tBlock := rdS (hb_blocks b) blockIndex in
        let! mBlock := rdS (hb_blocks m) blockIndex in
        let! oBlock := rdS (hb_blocks out) blockIndex in
        mfor 0 (sl_len oBlock) (fun k (_ : unit) =>
          let! x := rdF tBlock k in
          let! y := rdF mBlock k in
          wr2 (hb_blocks out) blockIndex k (x - y)%f) tt) tt in
      ret out
  | _ =>
      let! _ := mfor 0 (hb_blockRows out) (fun iBlock blockIndex =>
        mfor 0 (hb_blockColumns out) (fun jBlock blockIndex =>
          let! tBlock := rdS (hb_blocks b) blockIndex in
          let pStart := iBlock * BLOCK_SIZE in
          let pEnd := Z.min (pStart + BLOCK_SIZE) (hb_rows b) in
          let qStart := jBlock * BLOCK_SIZE in
          let qEnd := Z.min (qStart + BLOCK_SIZE) (hb_columns b) in
          let! _ := mfor pStart pEnd (fun p k =>
            mfor qStart qEnd (fun q k =>
              let! x := rdF tBlock k in
              let! y := hm_At mat p q in
              let! _ := wr2 (hb_blocks out) blockIndex k (x - y)%f in
              ret (k + 1)) k) 0 in
          ret (blockIndex + 1)) blockIndex) 0 in
      ret out
  end.
(** ScalarAdd: block_real_matrix.go:286-302. *)
Definition hb_ScalarAdd (b : HBlk) (d : F) : M HBlk :=
  let! out := mpan (hb_New (hb_rows b) (hb_columns b)) in
  let! _ := mfor 0 (sl_len (hb_blocks out)) (fun blockIndex (_ : unit) =>
    let! tBlock := rdS (hb_blocks b) blockIndex in
    let! oBlock := rdS (hb_blocks out) blockIndex in
    mfor 0 (sl_len oBlock) (fun k (_ : unit) =>
      let! x := rdF tBlock k in
      wr2 (hb_blocks out) blockIndex k (x + d)%f) tt) tt in
  ret out.
(** ScalarMultiply: block_real_matrix.go:304-319. *)
Definition hb_ScalarMultiply (b : HBlk) (d : F) : M HBlk :=
  let! out := mpan (hb_New (hb_rows b) (hb_columns b)) in
  let! _ := mfor 0 (sl_len (hb_blocks out)) (fun blockIndex (_ : unit) =>
    let! tBlock := rdS (hb_blocks b) blockIndex in
    let! oBlock := rdS (hb_blocks out) blockIndex in
    mfor 0 (sl_len oBlock) (fun k (_ : unit) =>
      let! x := rdF tBlock k in
      wr2 (hb_blocks out) blockIndex k (x * d)%f) tt) tt in
  ret out.
(** The inner sum of Multiply, block_real_matrix.go:356-373: four products at a
    time, then one at a time. *)
Definition hb_dot4 (tBlock mBlock : slice) (jWidth lStart lEnd nStart : Z) : M F :=
  let jWidth2 := jWidth + jWidth in
  let jWidth3 := jWidth2 + jWidth in
  let jWidth4 := jWidth3 + jWidth in
  let! st := mwhile (Z.to_nat (BLOCK_SIZE + 1))
    (fun '(sum, l, n) => l <? lEnd - 3)
    (fun '(sum, l, n) =>
      let! t0 := rdF tBlock l in let! m0 := rdF mBlock n in
      let! t1 := rdF tBlock (l + 1) in let! m1 := rdF mBlock (n + jWidth) in
      let! t2 := rdF tBlock (l + 2) in let! m2 := rdF mBlock (n + jWidth2) in
      let! t3 := rdF tBlock (l + 3) in let! m3 := rdF mBlock (n + jWidth3) in
      ret ((sum + (t0 * m0 + t1 * m1 + t2 * m2 + t3 * m3))%f, l + 4, n + jWidth4))
    (fzero, lStart, nStart) in
  let! st := mwhile (Z.to_nat (BLOCK_SIZE + 1))
    (fun '(sum, l, n) => l <? lEnd)
    (fun '(sum, l, n) =>
      let! t0 := rdF tBlock l in let! m0 := rdF mBlock n in
      ret ((sum + t0 * m0)%f, l + 1, n + jWidth)) st in
  ret (fst (fst st)).
(** Multiply: block_real_matrix.go:321-424. *)
Definition hb_Multiply (b : HBlk) (mat : HMat) : M HBlk :=
  let! _ := h_ckMul (HB b) mat in
  match mat with
  | HB m =>
      let! out := mpan (hb_New (hb_rows b) (hb_columns m)) in
      let! _ := mfor 0 (hb_blockRows out) (fun iBlock blockIndex =>
        let pStart := iBlock * BLOCK_SIZE in
        let pEnd := Z.min (pStart + BLOCK_SIZE) (hb_rows b) in
        mfor 0 (hb_blockColumns out) (fun jBlock blockIndex =>
          let jWidth := hb_width out jBlock in
          let! _ := mfor 0 (hb_blockColumns b) (fun kBlock (_ : unit) =>
            let kWidth := hb_width b kBlock in
            let! tBlock := rdS (hb_blocks b) (iBlock * hb_blockColumns b + kBlock) in
            let! mBlock := rdS (hb_blocks m) (kBlock * hb_blockColumns m + jBlock) in
            let! _ := mfor pStart pEnd (fun p k =>
              let lStart := (p - pStart) * kWidth in
              let lEnd := lStart + kWidth in
              mfor 0 jWidth (fun nStart k =>
                let! sum := hb_dot4 tBlock mBlock jWidth lStart lEnd nStart in
                let! o := rd2 (hb_blocks out) blockIndex k in
                let! _ := wr2 (hb_blocks out) blockIndex k (o + sum)%f in
                ret (k + 1)) k) 0 in
            ret tt) tt in
          ret (blockIndex + 1)) blockIndex) 0 in
      ret out
  | _ =>
      let! mcols := hm_cols mat in
      let! out := mpan (hb_New (hb_rows b) mcols) in
      let! _ := mfor 0 (hb_blockRows out) (fun iBlock blockIndex =>
        let pStart := iBlock * BLOCK_SIZE in
        let pEnd := Z.min (pStart + BLOCK_SIZE) (hb_rows b) in
        mfor 0 (hb_blockColumns out) (fun jBlock blockIndex =>
          let qStart := jBlock * BLOCK_SIZE in
          let qEnd := Z.min (qStart + BLOCK_SIZE) mcols in
          let! _ := mfor 0 (hb_blockColumns b) (fun kBlock (_ : unit) =>
            let kWidth := hb_width b kBlock in
            let! tBlock := rdS (hb_blocks b) (iBlock * hb_blockColumns b + kBlock) in
            let rStart := kBlock * BLOCK_SIZE in
            let! _ := mfor pStart pEnd (fun p k =>
              let lStart := (p - pStart) * kWidth in
              let lEnd := lStart + kWidth in
              mfor qStart qEnd (fun q k =>
                let! st := mfor lStart lEnd (fun l '(sum, r) =>
                  let! t := rdF tBlock l in
                  let! y := hm_At mat r q in
                  ret ((sum + t * y)%f, r + 1)) (fzero, rStart) in
                let! o := rd2 (hb_blocks out) blockIndex k in
                let! _ := wr2 (hb_blocks out) blockIndex k (o + fst st)%f in
                ret (k + 1)) k) 0 in
            ret tt) tt in
          ret (blockIndex + 1)) blockIndex) 0 in
      ret out
  end.
(** Trace: block_real_matrix.go:452-463. *)
Definition hb_Trace (b : HBlk) : M F :=
  if negb (hb_rows b =? hb_columns b) then mpanic ENonSquare else
  mfor 0 (hb_rows b) (fun i trace => let! x := hb_At b i i in ret (trace + x)%f) fzero.
(** Operate: block_real_matrix.go:1000-1036. *)
Definition hb_Operate (b : HBlk) (v : slice) : M slice :=
  if negb (sl_len v =? hb_columns b) then mpanic EDimMismatch else
  let! out := makeF (hb_rows b) in
  let! _ := mfor 0 (hb_blockRows b) (fun iBlock (_ : unit) =>
    let pStart := iBlock * BLOCK_SIZE in
    let pEnd := Z.min (pStart + BLOCK_SIZE) (hb_rows b) in
    mfor 0 (hb_blockColumns b) (fun jBlock (_ : unit) =>
      let qStart := jBlock * BLOCK_SIZE in
      let qEnd := Z.min (qStart + BLOCK_SIZE) (hb_columns b) in
      let idx := iBlock * hb_blockColumns b + jBlock in
      let! _ := mfor pStart pEnd (fun p k =>
        let! st := mwhile (Z.to_nat (BLOCK_SIZE + 1))
          (fun '(sum, k, q) => q <? qEnd - 3)
          (fun '(sum, k, q) =>
            let! x0 := rd2 (hb_blocks b) idx k in let! y0 := rdF v q in
            let! x1 := rd2 (hb_blocks b) idx (k + 1) in let! y1 := rdF v (q + 1) in
            let! x2 := rd2 (hb_blocks b) idx (k + 2) in let! y2 := rdF v (q + 2) in
            let! x3 := rd2 (hb_blocks b) idx (k + 3) in let! y3 := rdF v (q + 3) in
            ret ((sum + (x0 * y0 + x1 * y1 + x2 * y2 + x3 * y3))%f, k + 4, q + 4))
          (fzero, k, qStart) in
        let! st := mwhile (Z.to_nat (BLOCK_SIZE + 1))
          (fun '(sum, k, q) => q <? qEnd)
          (fun '(sum, k, q) =>
            let! x0 := rd2 (hb_blocks b) idx k in let! y0 := rdF v q in
            ret ((sum + x0 * y0)%f, k + 1, q + 1)) st in
        let! o := rdF out p in
        let! _ := wrF out p (o + fst (fst st))%f in
        ret (snd (fst st))) 0 in
      ret tt) tt) tt in
  ret out.
(** OperateVector: block_real_matrix.go:973-998; the result is the [data] of the
    new ArrayRealVector.  In the else branch [v] is the nil of the failed
    assertion.  PreMultiplyVector: 1042-1066. *)
Definition hb_OperateVector (b : HBlk) (vec : HVec) : M slice :=
  match vec with HArr s => hb_Operate b s | HOther _ => mpanic ERuntime end.
(** PreMultiply: block_real_matrix.go:1068-1108. *)
Definition hb_PreMultiply (b : HBlk) (v : slice) : M slice :=
  if negb (sl_len v =? hb_rows b) then mpanic EDimMismatch else
  let! out := makeF (hb_columns b) in
  let! _ := mfor 0 (hb_blockColumns b) (fun jBlock (_ : unit) =>
    let jWidth := hb_width b jBlock in
    let jWidth2 := jWidth + jWidth in
    let jWidth3 := jWidth2 + jWidth in
    let jWidth4 := jWidth3 + jWidth in
    let qStart := jBlock * BLOCK_SIZE in
    let qEnd := Z.min (qStart + BLOCK_SIZE) (hb_columns b) in
    mfor 0 (hb_blockRows b) (fun iBlock (_ : unit) =>
      let pStart := iBlock * BLOCK_SIZE in
      let pEnd := Z.min (pStart + BLOCK_SIZE) (hb_rows b) in
      let idx := iBlock * hb_blockColumns b + jBlock in
      mfor qStart qEnd (fun q (_ : unit) =>
        let! st := mwhile (Z.to_nat (BLOCK_SIZE + 1))
          (fun '(sum, k, p) => p <? pEnd - 3)
          (fun '(sum, k, p) =>
            let! x0 := rd2 (hb_blocks b) idx k in let! y0 := rdF v p in
            let! x1 := rd2 (hb_blocks b) idx (k + jWidth) in let! y1 := rdF v (p + 1) in
            let! x2 := rd2 (hb_blocks b) idx (k + jWidth2) in let! y2 := rdF v (p + 2) in
            let! x3 := rd2 (hb_blocks b) idx (k + jWidth3) in let! y3 := rdF v (p + 3) in
            ret ((sum + (x0 * y0 + x1 * y1 + x2 * y2 + x3 * y3))%f, k + jWidth4, p + 4))
          (fzero, q - qStart, pStart) in
        let! st := mwhile (Z.to_nat (BLOCK_SIZE + 1))
          (fun '(sum, k, p) => p <? pEnd)
          (fun '(sum, k, p) =>
            let! x0 := rd2 (hb_blocks b) idx k in let! y0 := rdF v p in
            ret ((sum + x0 * y0)%f, k + jWidth, p + 1)) st in
        let! o := rdF out q in
        wrF out q (o + fst (fst st))%f) tt) tt) tt in
  ret out.
Definition hb_PreMultiplyVector (b : HBlk) (vec : HVec) : M slice :=
  match vec with HArr s => hb_PreMultiply b s | HOther _ => mpanic ERuntime end.
End HeapBlkArith.

(** Model of /repo/bidiagonal_transformer.go.  The rows [hK], [hI], [hKp1] are
    references into the table.  [int(math.Min(float64(m), float64(n)))] is
    [Z.min m n] (exact below 2^53). *)
From Coq Require Import ZArith QArith List Lia Bool.
From Verif Require Import Base Scalar Vector Matrix Array2D BlockM Diagonal RealMatrixM.
Import ListNotations.
Open Scope Z_scope.

Section Bidiag.
Context {O : Ops}.

(** BiDiagonalTransformer: bidiagonal_transformer.go:7-11. *)
Record BdD := mkBdD {
  bd_hv : mat;
  bd_main : vec;
  bd_sec : vec;
  bd_cachedU : option RealMatrix;
  bd_cachedB : option RealMatrix;
  bd_cachedV : option RealMatrix
}.

(** Zero out the column [j0] below row [i0], transforming the columns right of
    [j0]: bidiagonal_transformer.go:195-223 (i0 = j0 = k) and
    292-319 (i0 = k+1, j0 = k); the new value goes to position [k] of the main or
    secondary diagonal.  [m], [n]: the dimensions. *)
Definition bd_col (m n i0 j0 k : Z) (s : mat * vec) : res (mat * vec) :=
  let '(hv, diag) := s in
  let* xNormSqr := for_ i0 m (fun i acc => let* c := mget hv i j0 in Ok (acc + c * c)%f) fzero in
  let* x := mget hv i0 j0 in
  let a := if fgt x fzero then (fneg (fsqrt xNormSqr)) else fsqrt xNormSqr in
  let* diag := zset diag k a in
  if feq a fzero then Ok (hv, diag) else
  let* x := mget hv i0 j0 in
  let* hv := mset hv i0 j0 (x - a)%f in
  let* hv := for_ (j0 + 1) n (fun j hv =>
    let* alpha := for_ i0 m (fun i alpha =>
      let* x := mget hv i j in let* v := mget hv i j0 in Ok (alpha - x * v)%f) fzero in
    let* v := mget hv i0 j0 in
    let alpha := (alpha / (a * v))%f in
    for_ i0 m (fun i hv =>
      let* x := mget hv i j in let* v := mget hv i j0 in mset hv i j (x - alpha * v)%f) hv) hv in
  Ok (hv, diag).

(** Zero out the row [i0] right of column [j0], transforming the rows below it:
    bidiagonal_transformer.go:227-252 (j0 = k+1) and 262-288 (j0 = k), i0 = k. *)
Definition bd_row (m n i0 j0 k : Z) (s : mat * vec) : res (mat * vec) :=
  let '(hv, diag) := s in
  let* xNormSqr := for_ j0 n (fun j acc => let* c := mget hv i0 j in Ok (acc + c * c)%f) fzero in
  let* x := mget hv i0 j0 in
  let b := if fgt x fzero then (fneg (fsqrt xNormSqr)) else fsqrt xNormSqr in
  let* diag := zset diag k b in
  if feq b fzero then Ok (hv, diag) else
  let* x := mget hv i0 j0 in
  let* hv := mset hv i0 j0 (x - b)%f in
  let* hv := for_ (i0 + 1) m (fun i hv =>
    let* beta := for_ j0 n (fun j beta =>
      let* x := mget hv i j in let* v := mget hv i0 j in Ok (beta - x * v)%f) fzero in
    let* v := mget hv i0 j0 in
    let beta := (beta / (b * v))%f in
    for_ j0 n (fun j hv =>
      let* x := mget hv i j in let* v := mget hv i0 j in mset hv i j (x - beta * v)%f) hv) hv in
  Ok (hv, diag).

(** transformToUpperBiDiagonal: bidiagonal_transformer.go:189-255. *)
Definition bd_upper (hv : mat) (mn sec : vec) : res (mat * vec * vec) :=
  let m := len hv in
  let* row0 := zget hv 0 in
  let n := len row0 in
  for_ 0 n (fun k '(hv, mn, sec) =>
    let* (hv, mn) := bd_col m n k k k (hv, mn) in
    if k <? n - 1 then
      let* (hv, sec) := bd_row m n k (k + 1) k (hv, sec) in Ok (hv, mn, sec)
    else Ok (hv, mn, sec)) (hv, mn, sec).

(** transformToLowerBiDiagonal: bidiagonal_transformer.go:257-323. *)
Definition bd_lower (hv : mat) (mn sec : vec) : res (mat * vec * vec) :=
  let m := len hv in
  let* row0 := zget hv 0 in
  let n := len row0 in
  for_ 0 m (fun k '(hv, mn, sec) =>
    let* (hv, mn) := bd_row m n k k k (hv, mn) in
    if k <? m - 1 then
      let* (hv, sec) := bd_col m n (k + 1) k k (hv, sec) in Ok (hv, mn, sec)
    else Ok (hv, mn, sec)) (hv, mn, sec).

(** NewBiDiagonalTransformer: bidiagonal_transformer.go:13-29. *)
Definition NewBiDiagonalTransformer (matrix : RealMatrix) : res BdD :=
  let m := m_rows matrix in
  let* n := m_cols matrix in
  let p := Z.min m n in
  let* hv := m_Data matrix in
  let* mn := make fzero p in
  let* sec := make fzero (p - 1) in
  let* (s, sec) := (if n <=? m then bd_upper hv mn sec else bd_lower hv mn sec) in
  let '(hv, mn) := s in
  Ok (mkBdD hv mn sec None None None).

(** U: bidiagonal_transformer.go:31-84. *)
Definition bd_U (d : BdD) : res (RealMatrix * BdD) :=
  match bd_cachedU d with
  | Some u => Ok (u, d)
  | None =>
      let hv := bd_hv d in
      let m := len hv in
      let* row0 := zget hv 0 in
      let n := len row0 in
      let p := len (bd_main d) in
      let off := if n <=? m then 0 else 1 in
      let diagonal := if n <=? m then bd_main d else bd_sec d in
      let* ua := make2 m m in
      let* ua := for_down (m - 1) p (fun k ua => mset ua k k fone) ua in
      let* ua := for_down (p - 1) off (fun k ua =>
        let* ua := mset ua k k fone in
        let* v := mget hv k (k - off) in
        if feq v fzero then Ok ua else
        for_ k m (fun j ua =>
          let* alpha := for_ k m (fun i alpha =>
            let* u := mget ua i j in let* v := mget hv i (k - off) in Ok (alpha - u * v)%f) fzero in
          let* dg := zget diagonal (k - off) in
          let* v := mget hv k (k - off) in
          let alpha := (alpha / (dg * v))%f in
          for_ k m (fun i ua =>
            let* u := mget ua i j in let* v := mget hv i (k - off) in mset ua i j (u + fneg alpha * v)%f) ua) ua) ua in
      let* ua := (if 0 <? off then mset ua 0 0 fone else Ok ua) in
      let* u := orpanic (NewRealMatrixFromSlices (Some ua)) in
      Ok (u, mkBdD (bd_hv d) (bd_main d) (bd_sec d) (Some u) (bd_cachedB d) (bd_cachedV d))
  end.

(** B: bidiagonal_transformer.go:86-117. *)
Definition bd_B (d : BdD) : res (RealMatrix * BdD) :=
  match bd_cachedB d with
  | Some b => Ok (b, d)
  | None =>
      let m := len (bd_hv d) in
      let* row0 := zget (bd_hv d) 0 in
      let n := len row0 in
      let* ba := make2 m n in
      let* ba := for_ 0 (len (bd_main d)) (fun i ba =>
        let* x := zget (bd_main d) i in
        let* ba := mset ba i i x in
        if m <? n then
          if 0 <? i then let* x := zget (bd_sec d) (i - 1) in mset ba i (i - 1) x else Ok ba
        else
          if i <? len (bd_main d) - 1 then let* x := zget (bd_sec d) i in mset ba i (i + 1) x else Ok ba) ba in
      let* b := orpanic (NewRealMatrixFromSlices (Some ba)) in
      Ok (b, mkBdD (bd_hv d) (bd_main d) (bd_sec d) (bd_cachedU d) (Some b) (bd_cachedV d))
  end.

(** V: bidiagonal_transformer.go:119-171. *)
Definition bd_V (d : BdD) : res (RealMatrix * BdD) :=
  match bd_cachedV d with
  | Some v => Ok (v, d)
  | None =>
      let hv := bd_hv d in
      let m := len hv in
      let* row0 := zget hv 0 in
      let n := len row0 in
      let p := len (bd_main d) in
      let off := if n <=? m then 1 else 0 in
      let diagonal := if n <=? m then bd_sec d else bd_main d in
      let* va := make2 n n in
      let* va := for_down (n - 1) p (fun k va => mset va k k fone) va in
      let* va := for_down (p - 1) off (fun k va =>
        let* va := mset va k k fone in
        let* v := mget hv (k - off) k in
        if feq v fzero then Ok va else
        for_ k n (fun j va =>
          let* beta := for_ k n (fun i beta =>
            let* u := mget va i j in let* v := mget hv (k - off) i in Ok (beta - u * v)%f) fzero in
          let* dg := zget diagonal (k - off) in
          let* v := mget hv (k - off) k in
          let beta := (beta / (dg * v))%f in
          for_ k n (fun i va =>
            let* u := mget va i j in let* v := mget hv (k - off) i in mset va i j (u + fneg beta * v)%f) va) va) va in
      let* va := (if 0 <? off then mset va 0 0 fone else Ok va) in
      let* v := orpanic (NewRealMatrixFromSlices (Some va)) in
      Ok (v, mkBdD (bd_hv d) (bd_main d) (bd_sec d) (bd_cachedU d) (bd_cachedB d) (Some v))
  end.

(** HouseholderVectorsRef, MainDiagonalRef, SecondaryDiagonalRef,
    IsUpperBiDiagonal: bidiagonal_transformer.go:173-187. *)
Definition bd_HouseholderVectorsRef (d : BdD) : mat := bd_hv d.
Definition bd_MainDiagonalRef (d : BdD) : vec := bd_main d.
Definition bd_SecondaryDiagonalRef (d : BdD) : vec := bd_sec d.
Definition bd_IsUpperBiDiagonal (d : BdD) : res bool :=
  let* row0 := zget (bd_hv d) 0 in Ok (len row0 <=? len (bd_hv d)).
End Bidiag.

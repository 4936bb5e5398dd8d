(** Model of /repo/tridiagonal_transformer.go.  The rows [hK], [hI] are
    references into the table: reads and writes through them are reads and
    writes of the table. *)
From Coq Require Import ZArith QArith List Lia Bool.
From Verif Require Import Base Scalar Vector Matrix Array2D BlockM Diagonal RealMatrixM.
Import ListNotations.
Open Scope Z_scope.

Section Tridiag.
Context {O : Ops}.

(** TriDiagonalTransformer: tridiagonal_transformer.go:36-40. *)
Record TdD := mkTdD {
  td_hv : mat;
  td_main : vec;
  td_sec : vec;
  td_cachedQ : option RealMatrix;
  td_cachedQt : option RealMatrix;
  td_cachedT : option RealMatrix
}.

(** The product beta A v, reading only the upper triangle:
    tridiagonal_transformer.go:213-226. *)
Definition td_product (m k : Z) (beta : F) (hv : mat) (z : vec) : res vec :=
  let* z := for_ (k + 1) m (fun i z => zset z i fzero) z in
  for_ (k + 1) m (fun i z =>
    let* hKI := mget hv k i in
    let* hII := mget hv i i in
    let* (zI, z) := for_ (i + 1) m (fun j '(zI, z) =>
      let* hIJ := mget hv i j in
      let* hKJ := mget hv k j in
      let* zJ := zget z j in
      let* z := zset z j (zJ + hIJ * hKI)%f in
      Ok ((zI + hIJ * hKJ)%f, z)) ((hII * hKI)%f, z) in
    let* zi := zget z i in
    zset z i (beta * (zi + zI))%f) z.

(** The update A - v z^T - z v^T of the upper triangle:
    tridiagonal_transformer.go:242-247. *)
Definition td_update (m k : Z) (hv : mat) (z : vec) : res mat :=
  for_ (k + 1) m (fun i hv =>
    for_ i m (fun j hv =>
      let* x := mget hv i j in
      let* vi := mget hv k i in
      let* zj := zget z j in
      let* zi := zget z i in
      let* vj := mget hv k j in
      mset hv i j (x - (vi * zj + zi * vj))%f) hv) hv.

(** One turn of transform: tridiagonal_transformer.go:189-248. *)
Definition td_step (m k : Z) (s : mat * vec * vec * vec) : res (mat * vec * vec * vec) :=
  let '(hv, mn, sec, z) := s in
  let* x := mget hv k k in
  let* mn := zset mn k x in
  let* xNormSqr := for_ (k + 1) m (fun j acc => let* c := mget hv k j in Ok (acc + c * c)%f) fzero in
  let a := fsqrt xNormSqr in
  let* x := mget hv k (k + 1) in
  let a := if fgt x fzero then (a * fneg fone)%f else a in
  let* sec := zset sec k a in
  if feq a fzero then Ok (hv, mn, sec, z) else
  let* x := mget hv k (k + 1) in
  let* hv := mset hv k (k + 1) (x - a)%f in
  let* x := mget hv k (k + 1) in
  let beta := (fneg fone / (a * x))%f in
  let* z := td_product m k beta hv z in
  let* gamma := for_ (k + 1) m (fun i g => let* zi := zget z i in let* v := mget hv k i in Ok (g + zi * v)%f) fzero in
  let gamma := (gamma * (beta / flit 2))%f in
  let* z := for_ (k + 1) m (fun i z => let* zi := zget z i in let* v := mget hv k i in zset z i (zi - gamma * v)%f) z in
  let* hv := td_update m k hv z in
  Ok (hv, mn, sec, z).

(** NewTriDiagonalTransformer, transform: tridiagonal_transformer.go:47-61, 183-251. *)
Definition NewTriDiagonalTransformer (matrix : RealMatrix) : res TdD :=
  let* sq := IsSquare matrix in
  if negb sq then let* _ := m_cols matrix in Err ENonSquare else
  let m := m_rows matrix in
  let* hv := m_Data matrix in
  let* mn := make fzero m in
  let* sec := make fzero (m - 1) in
  let m := len hv in
  let* z := make fzero m in
  let* (s, z) := for_ 0 (m - 1) (td_step m) (hv, mn, sec, z) in
  let '(hv, mn, sec) := s in
  let* x := mget hv (m - 1) (m - 1) in
  let* mn := zset mn (m - 1) x in
  Ok (mkTdD hv mn sec None None None).

(** QT: tridiagonal_transformer.go:78-120. *)
Definition td_QT (d : TdD) : res (RealMatrix * TdD) :=
  match td_cachedQt d with
  | Some q => Ok (q, d)
  | None =>
      let hv := td_hv d in
      let m := len hv in
      let* qta := make2 m m in
      let* qta := for_down (m - 1) 1 (fun k qta =>
        let* qta := mset qta k k fone in
        let* hKk := mget hv (k - 1) k in
        if feq hKk fzero then Ok qta else
        let* s := zget (td_sec d) (k - 1) in
        let* hKk := mget hv (k - 1) k in
        let inv := (fone / (s * hKk))%f in
        let* s := zget (td_sec d) (k - 1) in
        let beta := (fone / s)%f in
        let* qta := mset qta k k (fone + beta * hKk)%f in
        let* qta := for_ (k + 1) m (fun i qta => let* v := mget hv (k - 1) i in mset qta k i (beta * v)%f) qta in
        for_ (k + 1) m (fun j qta =>
          let* beta := for_ (k + 1) m (fun i b =>
            let* q := mget qta j i in let* v := mget hv (k - 1) i in Ok (b + q * v)%f) fzero in
          let beta := (beta * inv)%f in
          let* v := mget hv (k - 1) k in
          let* qta := mset qta j k (beta * v)%f in
          for_ (k + 1) m (fun i qta =>
            let* q := mget qta j i in let* v := mget hv (k - 1) i in mset qta j i (q + beta * v)%f) qta) qta) qta in
      let* qta := mset qta 0 0 fone in
      let* q := orpanic (NewRealMatrixFromSlices (Some qta)) in
      Ok (q, mkTdD (td_hv d) (td_main d) (td_sec d) (td_cachedQ d) (Some q) (td_cachedT d))
  end.

(** Q: tridiagonal_transformer.go:67-72. *)
Definition td_Q (d : TdD) : res (RealMatrix * TdD) :=
  match td_cachedQ d with
  | Some q => Ok (q, d)
  | None =>
      let* (t, d) := td_QT d in
      let* q := m_Transpose t in
      Ok (q, mkTdD (td_hv d) (td_main d) (td_sec d) (Some q) (td_cachedQt d) (td_cachedT d))
  end.

(** T: tridiagonal_transformer.go:125-150.  The rows of ta are all made before
    the loop; in the code row i is made at the start of turn i. *)
Definition td_T (d : TdD) : res (RealMatrix * TdD) :=
  match td_cachedT d with
  | Some t => Ok (t, d)
  | None =>
      let m := len (td_main d) in
      let* ta := make2 m m in
      let* ta := for_ 0 m (fun i ta =>
        let* x := zget (td_main d) i in
        let* ta := mset ta i i x in
        let* ta := (if 0 <? i then let* x := zget (td_sec d) (i - 1) in mset ta i (i - 1) x else Ok ta) in
        if i <? m - 1 then let* x := zget (td_sec d) i in mset ta i (i + 1) x else Ok ta) ta in
      let* t := orpanic (NewRealMatrixFromSlices (Some ta)) in
      Ok (t, mkTdD (td_hv d) (td_main d) (td_sec d) (td_cachedQ d) (td_cachedQt d) (Some t))
  end.

(** HouseholderVectorsRef, MainDiagonalRef, SecondaryDiagonalRef: tridiagonal_transformer.go:157-177. *)
Definition td_HouseholderVectorsRef (d : TdD) : mat := td_hv d.
Definition td_MainDiagonalRef (d : TdD) : vec := td_main d.
Definition td_SecondaryDiagonalRef (d : TdD) : vec := td_sec d.
End Tridiag.

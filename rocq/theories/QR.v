(** Model of /repo/qr_decomposition.go and /repo/rrqr_decomposition.go.
    [int(math.Min(float64(a), float64(b)))] is [Z.min a b] (exact below 2^53).
    The rows [qrtMinor], [qrtCol], ... are references into the table: reads and
    writes through them are reads and writes of the table. *)
From Coq Require Import ZArith QArith List Lia Bool.
From Verif Require Import Base Scalar Vector Matrix Array2D BlockM Diagonal RealMatrixM.
Import ListNotations.
Open Scope Z_scope.

Section QR.
Context {O : Ops}.

(** QRDecomposition: qr_decomposition.go:33-44. *)
Record QRD := mkQRD {
  qr_qrt : mat;
  qr_rDiag : vec;
  qr_cachedQ : option RealMatrix;
  qr_cachedQT : option RealMatrix;
  qr_cachedR : option RealMatrix;
  qr_cachedH : option RealMatrix;
  qr_threshold : F
}.

(** performHouseholderReflection: qr_decomposition.go:79-140. *)
Definition qr_reflect (minor : Z) (s : mat * vec) : res (mat * vec) :=
  let '(qrt, rDiag) := s in
  let* qrtMinor := zget qrt minor in
  let* xNormSqr := for_ minor (len qrtMinor) (fun row acc =>
    let* c := zget qrtMinor row in Ok (acc + c * c)%f) fzero in
  let a := fsqrt xNormSqr in
  let* d := zget qrtMinor minor in
  let a := if fgt d fzero then (a * fneg fone)%f else a in
  let* rDiag := zset rDiag minor a in
  if feq a fzero then Ok (qrt, rDiag) else
  let* qrt := mset qrt minor minor (d - a)%f in
  let* qrt := for_ (minor + 1) (len qrt) (fun col qrt =>
    let* qrtCol := zget qrt col in
    let* alpha := for_ minor (len qrtCol) (fun row alpha =>
      let* x := mget qrt col row in
      let* v := mget qrt minor row in
      Ok (alpha - x * v)%f) fzero in
    let* v0 := mget qrt minor minor in
    let alpha := (alpha / (a * v0))%f in
    for_ minor (len qrtCol) (fun row qrt =>
      let* x := mget qrt col row in
      let* v := mget qrt minor row in
      mset qrt col row (x - alpha * v)%f) qrt) qrt in
  Ok (qrt, rDiag).

(** NewQRDecompositionWithThreshold, decompose: qr_decomposition.go:54-75. *)
Definition NewQRDecompositionWithThreshold (matrix : RealMatrix) (threshold : F) : res QRD :=
  let m := m_rows matrix in
  let* n := m_cols matrix in
  let* t := m_Transpose matrix in
  let* qrt := m_Data t in
  let* rDiag := make fzero (Z.min m n) in
  let* row0 := zget qrt 0 in
  let* (qrt, rDiag) := for_ 0 (Z.min (len qrt) (len row0)) qr_reflect (qrt, rDiag) in
  Ok (mkQRD qrt rDiag None None None None threshold).

(** NewQRDecomposition: qr_decomposition.go:50-52. *)
Definition NewQRDecomposition (matrix : RealMatrix) : res QRD :=
  NewQRDecompositionWithThreshold matrix fzero.

(** R: qr_decomposition.go:146-173. *)
Definition qr_R (d : QRD) : res (RealMatrix * QRD) :=
  match qr_cachedR d with
  | Some r => Ok (r, d)
  | None =>
      let n := len (qr_qrt d) in
      let* row0 := zget (qr_qrt d) 0 in
      let m := len row0 in
      let* ra := make2 m n in
      let* ra := for_down (Z.min m n - 1) 0 (fun row ra =>
        let* x := zget (qr_rDiag d) row in
        let* ra := mset ra row row x in
        for_ (row + 1) n (fun col ra =>
          let* x := mget (qr_qrt d) col row in
          mset ra row col x) ra) ra in
      let* r := orpanic (NewRealMatrixFromSlices (Some ra)) in
      Ok (r, mkQRD (qr_qrt d) (qr_rDiag d) (qr_cachedQ d) (qr_cachedQT d) (Some r) (qr_cachedH d) (qr_threshold d))
  end.

(** QT: qr_decomposition.go:191-237. *)
Definition qr_QT (d : QRD) : res (RealMatrix * QRD) :=
  match qr_cachedQT d with
  | Some r => Ok (r, d)
  | None =>
      let n := len (qr_qrt d) in
      let* row0 := zget (qr_qrt d) 0 in
      let m := len row0 in
      let* qta := make2 m m in
      let* qta := for_down (m - 1) (Z.min m n) (fun minor qta => mset qta minor minor fone) qta in
      let* qta := for_down (Z.min m n - 1) 0 (fun minor qta =>
        let* qrtMinor := zget (qr_qrt d) minor in
        let* qta := mset qta minor minor fone in
        let* v0 := zget qrtMinor minor in
        if feq v0 fzero then Ok qta else
        for_ minor m (fun col qta =>
          let* alpha := for_ minor m (fun row alpha =>
            let* q := mget qta col row in
            let* v := zget qrtMinor row in
            Ok (alpha - q * v)%f) fzero in
          let* a := zget (qr_rDiag d) minor in
          let* v0 := zget qrtMinor minor in
          let alpha := (alpha / (a * v0))%f in
          for_ minor m (fun row qta =>
            let* q := mget qta col row in
            let* v := zget qrtMinor row in
            mset qta col row (q + (fneg alpha) * v)%f) qta) qta) qta in
      let* r := orpanic (NewRealMatrixFromSlices (Some qta)) in
      Ok (r, mkQRD (qr_qrt d) (qr_rDiag d) (qr_cachedQ d) (Some r) (qr_cachedR d) (qr_cachedH d) (qr_threshold d))
  end.

(** Q: qr_decomposition.go:179-185. *)
Definition qr_Q (d : QRD) : res (RealMatrix * QRD) :=
  match qr_cachedQ d with
  | Some r => Ok (r, d)
  | None =>
      let* (t, d) := qr_QT d in
      let* r := m_Transpose t in
      Ok (r, mkQRD (qr_qrt d) (qr_rDiag d) (Some r) (qr_cachedQT d) (qr_cachedR d) (qr_cachedH d) (qr_threshold d))
  end.

(** H: qr_decomposition.go:245-266. *)
Definition qr_H (d : QRD) : res (RealMatrix * QRD) :=
  match qr_cachedH d with
  | Some r => Ok (r, d)
  | None =>
      let n := len (qr_qrt d) in
      let* row0 := zget (qr_qrt d) 0 in
      let m := len row0 in
      let* ha := make [] m in
      let* ha := for_ 0 m (fun i ha =>
        let* row := make fzero n in
        let* ha := zset ha i row in
        for_ 0 (Z.min (i + 1) n) (fun j ha =>
          let* x := mget (qr_qrt d) j i in
          let* a := zget (qr_rDiag d) j in
          mset ha i j (x / fneg a)%f) ha) ha in
      let* r := orpanic (NewRealMatrixFromSlices (Some ha)) in
      Ok (r, mkQRD (qr_qrt d) (qr_rDiag d) (qr_cachedQ d) (qr_cachedQT d) (qr_cachedR d) (Some r) (qr_threshold d))
  end.

(** checkSingular: qr_decomposition.go:293-306; the result or, with [raise],
    the panic. *)
Definition checkSingular (diag : vec) (min : F) (raise : bool) : res bool :=
  let* (_, sing) := for_brk 0 (len diag) (fun i sing =>
    let* d := zget diag i in
    if fle (fabs d) min then (if raise then Panic ESingular else Ok (true, true)) else Ok (false, sing)) false in
  Ok sing.

(** IsNonSingular: qr_decomposition.go:289-291.  Solver, newQRDecompositionSolver:
    qr_decomposition.go:277-287; the solver is the decomposition. *)
Definition qrs_IsNonSingular (d : QRD) : res bool :=
  let* s := checkSingular (qr_rDiag d) (qr_threshold d) false in Ok (negb s).

(** SolveVector: qr_decomposition.go:308-349. *)
Definition qrs_SolveVector (d : QRD) (b : RealVector) : res RealVector :=
  let n := len (qr_qrt d) in
  let* row0 := zget (qr_qrt d) 0 in
  let m := len row0 in
  if negb (v_Dimension b =? m) then Panic EDimMismatch else
  let* _ := checkSingular (qr_rDiag d) (qr_threshold d) true in
  let* x := make fzero n in
  let y := arv_ToArray (v_data b) in
  let* y := for_ 0 (Z.min m n) (fun minor y =>
    let* qrtMinor := zget (qr_qrt d) minor in
    let* dotProduct := for_ minor m (fun row acc =>
      let* a := zget y row in
      let* v := zget qrtMinor row in
      Ok (acc + a * v)%f) fzero in
    let* a := zget (qr_rDiag d) minor in
    let* v0 := zget qrtMinor minor in
    let dotProduct := (dotProduct / (a * v0))%f in
    for_ minor m (fun row y =>
      let* a := zget y row in
      let* v := zget qrtMinor row in
      zset y row (a + dotProduct * v)%f) y) y in
  let* (x, y) := for_down (len (qr_rDiag d) - 1) 0 (fun row '(x, y) =>
    let* u := zget y row in
    let* a := zget (qr_rDiag d) row in
    let* y := zset y row (u / a)%f in
    let* yRow := zget y row in
    let* qrtRow := zget (qr_qrt d) row in
    let* x := zset x row yRow in
    let* y := for_ 0 row (fun i y =>
      let* u := zget y i in
      let* r := zget qrtRow i in
      zset y i (u - yRow * r)%f) y in
    Ok (x, y)) (x, y) in
  Ok (VArr x).

(** The two halves of SolveMatrix for one block of columns, as loops over the
    work array [y] (its first [kWidth] columns): qr_decomposition.go:378-405
    and 407-429. *)
Definition qrs_forward (d : QRD) (m n kWidth : Z) (s : mat * vec) : res (mat * vec) :=
  for_ 0 (Z.min m n) (fun minor '(y, alpha) =>
    let* qrtMinor := zget (qr_qrt d) minor in
    let* a := zget (qr_rDiag d) minor in
    let* v0 := zget qrtMinor minor in
    let factor := (fone / (a * v0))%f in
    let* alpha := for_ 0 kWidth (fun i alpha => zset alpha i fzero) alpha in
    let* alpha := for_ minor m (fun row alpha =>
      let* d := zget qrtMinor row in
      for_ 0 kWidth (fun k alpha =>
        let* a := zget alpha k in
        let* u := mget y row k in
        zset alpha k (a + d * u)%f) alpha) alpha in
    let* alpha := for_ 0 kWidth (fun k alpha =>
      let* a := zget alpha k in zset alpha k (a * factor)%f) alpha in
    let* y := for_ minor m (fun row y =>
      let* d := zget qrtMinor row in
      for_ 0 kWidth (fun k y =>
        let* u := mget y row k in
        let* a := zget alpha k in
        mset y row k (u + a * d)%f) y) y in
    Ok (y, alpha)) s.
Definition qrs_backward (d : QRD) (cBlocks kBlock kWidth : Z) (s : mat * mat) : res (mat * mat) :=
  for_down (len (qr_rDiag d) - 1) 0 (fun j '(y, xBlocks) =>
    let jBlock := j / BLOCK_SIZE in
    let jStart := jBlock * BLOCK_SIZE in
    let* a := zget (qr_rDiag d) j in
    let factor := (fone / a)%f in
    let* (y, xBlocks, _) := for_ 0 kWidth (fun k '(y, xBlocks, index) =>
      let* u := mget y j k in
      let* y := mset y j k (u * factor)%f in
      let* u := mget y j k in
      let* xBlocks := mset xBlocks (jBlock * cBlocks + kBlock) index u in
      Ok (y, xBlocks, index + 1)) (y, xBlocks, (j - jStart) * kWidth) in
    let* qrtJ := zget (qr_qrt d) j in
    let* y := for_ 0 j (fun i y =>
      let* rIJ := zget qrtJ i in
      for_ 0 kWidth (fun k y =>
        let* u := mget y i k in
        let* w := mget y j k in
        mset y i k (u - w * rIJ)%f) y) y in
    Ok (y, xBlocks)) s.
(** SolveMatrix: qr_decomposition.go:351-438. *)
Definition qrs_SolveMatrix (d : QRD) (b : RealMatrix) : res RealMatrix :=
  let n := len (qr_qrt d) in
  let* row0 := zget (qr_qrt d) 0 in
  let m := len row0 in
  if negb (m_rows b =? m) then Panic EDimMismatch else
  let* _ := checkSingular (qr_rDiag d) (qr_threshold d) true in
  let* columns := m_cols b in
  let cBlocks := (columns + BLOCK_SIZE - 1) / BLOCK_SIZE in
  let* xBlocks := createBlocksLayout n columns in
  let* y := make2 (m_rows b) BLOCK_SIZE in
  let* alpha := make fzero BLOCK_SIZE in
  let* (y, alpha, xBlocks) := for_ 0 cBlocks (fun kBlock '(y, alpha, xBlocks) =>
    let kStart := kBlock * BLOCK_SIZE in
    let kEnd := Z.min (kStart + BLOCK_SIZE) columns in
    let kWidth := kEnd - kStart in
    let* y := CopySubMatrix b 0 (m - 1) kStart (kEnd - 1) y in
    let* (y, alpha) := qrs_forward d m n kWidth (y, alpha) in
    let* (y, xBlocks) := qrs_backward d cBlocks kBlock kWidth (y, xBlocks) in
    Ok (y, alpha, xBlocks)) (y, alpha, xBlocks) in
  let* r := orpanic (NewBlockRealMatrixFromBlockData n columns xBlocks) in
  Ok (MBlk r).

(** Inverse: qr_decomposition.go:440-447. *)
Definition qrs_Inverse (d : QRD) : res RealMatrix :=
  let* row0 := zget (qr_qrt d) 0 in
  let* i := orpanic (NewRealIdentityMatrix (len row0)) in
  qrs_SolveMatrix d i.

(** RRQRDecomposition: rrqr_decomposition.go:35-39. *)
Record RRQRD := mkRRQRD {
  rr_qr : QRD;
  rr_p : list Z;
  rr_cachedP : option RealMatrix
}.

(** The column of greatest norm: rrqr_decomposition.go:75-87; the accumulator
    is (l2NormSquaredMax, l2NormSquaredMaxIndex). *)
Definition rr_best (minor : Z) (qrt : mat) : res (F * Z) :=
  for_ minor (len qrt) (fun i '(mx, ix) =>
    let* row := zget qrt i in
    let* l2 := for_ minor (len row) (fun j acc =>
      let* x := mget qrt i j in
      let* x' := mget qrt i j in
      Ok (acc + x * x')%f) fzero in
    Ok (if fgt l2 mx then (l2, i) else (mx, ix))) (fzero, minor).
(** performHouseholderReflection: rrqr_decomposition.go:74-95. *)
Definition rr_reflect (minor : Z) (s : mat * vec * list Z) : res (mat * vec * list Z) :=
  let '(qrt, rDiag, p) := s in
  let* (_, ix) := rr_best minor qrt in
  let* (qrt, p) := (if negb (ix =? minor) then
    let* a := zget qrt ix in
    let* b := zget qrt minor in
    let* qrt := zset qrt minor a in
    let* qrt := zset qrt ix b in
    let* x := zget p ix in
    let* y := zget p minor in
    let* p := zset p minor x in
    let* p := zset p ix y in
    Ok (qrt, p) else Ok (qrt, p)) in
  let* (qrt, rDiag) := qr_reflect minor (qrt, rDiag) in
  Ok (qrt, rDiag, p).

(** NewRRQRDecompositionWithThreshold, decompose: rrqr_decomposition.go:45-69. *)
Definition NewRRQRDecompositionWithThreshold (matrix : RealMatrix) (threshold : F) : res RRQRD :=
  let m := m_rows matrix in
  let* n := m_cols matrix in
  let* t := m_Transpose matrix in
  let* qrt := m_Data t in
  let* rDiag := make fzero (Z.min m n) in
  let* p := make 0 (len qrt) in
  let* p := for_ 0 (len p) (fun i p => zset p i i) p in
  let* row0 := zget qrt 0 in
  let* (qrt, rDiag, p) := for_ 0 (Z.min (len qrt) (len row0)) rr_reflect (qrt, rDiag, p) in
  Ok (mkRRQRD (mkQRD qrt rDiag None None None None threshold) p None).

(** NewRRQRDecomposition: rrqr_decomposition.go:41-43. *)
Definition NewRRQRDecomposition (matrix : RealMatrix) : res RRQRD :=
  NewRRQRDecompositionWithThreshold matrix fzero.

(** R, Q, QT and H are promoted from the embedded QRDecomposition. *)
Definition rr_lift (f : QRD -> res (RealMatrix * QRD)) (d : RRQRD) : res (RealMatrix * RRQRD) :=
  let* (r, q) := f (rr_qr d) in Ok (r, mkRRQRD q (rr_p d) (rr_cachedP d)).

(** P: rrqr_decomposition.go:102-115. *)
Definition rr_P (d : RRQRD) : res (RealMatrix * RRQRD) :=
  match rr_cachedP d with
  | Some r => Ok (r, d)
  | None =>
      let n := len (rr_p d) in
      let* r := orpanic (NewRealMatrixWithDimension n n) in
      let* r := for_ 0 n (fun i r => let* k := zget (rr_p d) i in m_SetEntry r k i fone) r in
      Ok (r, mkRRQRD (rr_qr d) (rr_p d) (Some r))
  end.

(** Rank: rrqr_decomposition.go:131-147.  The [for rank < min(rows,columns)]
    loop increments [rank] in every turn that does not leave it: a loop over
    [rank] from 1 with an early exit; the accumulator is (rank, lastNorm). *)
Definition rr_Rank (d : RRQRD) (dropThreshold : F) : res (Z * RRQRD) :=
  let* (r, d) := rr_lift qr_R d in
  let rows := m_rows r in
  let* columns := m_cols r in
  let* lastNorm := MatFrobeniusNorm r in
  let rNorm := lastNorm in
  let* (_, (rank, _)) := for_brk 1 (Z.min rows columns) (fun rank '(_, lastNorm) =>
    let* s := m_SubMatrix r rank (rows - 1) rank (columns - 1) in
    let* thisNorm := MatFrobeniusNorm s in
    if feq thisNorm fzero || flt ((thisNorm / lastNorm) * rNorm)%f dropThreshold then Ok (true, (rank, lastNorm))
    else Ok (false, (rank + 1, thisNorm))) (1, lastNorm) in
  Ok (rank, d).

(** The solver: rrqr_decomposition.go:158-190.  The decomposition is returned
    with what P() cached. *)
Definition rrs_IsNonSingular (d : RRQRD) : res bool := qrs_IsNonSingular (rr_qr d).
Definition rrs_SolveVector (d : RRQRD) (b : RealVector) : res (RealVector * RRQRD) :=
  let* (p, d) := rr_P d in
  let* x := qrs_SolveVector (rr_qr d) b in
  let* x := m_OperateVector p x in
  Ok (x, d).
Definition rrs_SolveMatrix (d : RRQRD) (b : RealMatrix) : res (RealMatrix * RRQRD) :=
  let* (p, d) := rr_P d in
  let* x := qrs_SolveMatrix (rr_qr d) b in
  let* x := m_Multiply p x in
  Ok (x, d).
Definition rrs_Inverse (d : RRQRD) : res (RealMatrix * RRQRD) :=
  let* (p, d) := rr_P d in
  let* i := orpanic (NewRealIdentityMatrix (m_rows p)) in
  rrs_SolveMatrix d i.
End QR.

(** Model of /repo/cholesky_decomposition.go. *)
From Coq Require Import ZArith QArith List Lia Bool.
From Verif Require Import Base Scalar Vector Matrix Array2D BlockM Diagonal RealMatrixM.
Import ListNotations.
Open Scope Z_scope.

Section Cholesky.
Context {O : Ops}.

(** CholeskyDecomposition: cholesky_decomposition.go:50-54; a nil cache is [None]. *)
Record ChD := mkChD {
  ch_lT : mat;
  ch_cachedL : option RealMatrix;
  ch_cachedLT : option RealMatrix;
  ch_m : Z
}.

(** The symmetry check, which also clears the strict lower triangle:
    cholesky_decomposition.go:80-94. *)
Definition ch_check (order : Z) (rel : F) (lT : mat) : res mat :=
  for_ 0 order (fun i lT =>
    for_ (i + 1) order (fun j lT =>
      let* lIJ := mget lT i j in
      let* lJI := mget lT j i in
      let maxDelta := (rel * fmax (fabs lIJ) (fabs lJI))%f in
      if fgt (fabs (lIJ - lJI)%f) maxDelta then Err (ENonSymmetric i j) else
      mset lT j i fzero) lT) lT.

(** One step of the transformation: cholesky_decomposition.go:97-116.  [ltI]
    and [ltQ] are rows of the table. *)
Definition ch_step (order : Z) (pos : F) (i : Z) (lT : mat) : res mat :=
  let* x := mget lT i i in
  if fle x pos then Err ENonPosDef else
  let* lT := mset lT i i (fsqrt x) in
  let* y := mget lT i i in
  let inverse := (fone / y)%f in
  for_down (order - 1) (i + 1) (fun q lT =>
    let* a := mget lT i q in
    let* lT := mset lT i q (a * inverse)%f in
    for_ q order (fun p lT =>
      let* b := mget lT q p in
      let* u := mget lT i q in
      let* v := mget lT i p in
      mset lT q p (b - u * v)%f) lT) lT.

(** NewCholeskyDecomposition: cholesky_decomposition.go:69-120. *)
Definition NewCholeskyDecomposition (matrix : RealMatrix) (rel pos : F) : res ChD :=
  let* sq := IsSquare matrix in
  if negb sq then let* _ := m_cols matrix in Err ENonSquare else
  let order := m_rows matrix in
  let* lT := m_Data matrix in
  let m := len lT in
  let* lT := ch_check order rel lT in
  let* lT := for_ 0 order (ch_step order pos) lT in
  Ok (mkChD lT None None m).

(** NewDefaultCholeskyDecomposition: cholesky_decomposition.go:62-64; the
    thresholds are 1.0e-15 and 1.0e-10 (lines 24-25). *)
Definition NewDefaultCholeskyDecomposition (matrix : RealMatrix) : res ChD :=
  NewCholeskyDecomposition matrix (flit (1 # 1000000000000000)) (flit (1 # 10000000000)).

(** LT: cholesky_decomposition.go:135-144. *)
Definition ch_LT (d : ChD) : res (RealMatrix * ChD) :=
  match ch_cachedLT d with
  | Some m => Ok (m, d)
  | None =>
      let* m := orpanic (NewRealMatrixFromSlices (Some (ch_lT d))) in
      Ok (m, mkChD (ch_lT d) (ch_cachedL d) (Some m) (ch_m d))
  end.

(** L: cholesky_decomposition.go:125-130. *)
Definition ch_L (d : ChD) : res (RealMatrix * ChD) :=
  match ch_cachedL d with
  | Some m => Ok (m, d)
  | None =>
      let* (lt, d) := ch_LT d in
      let* m := m_Transpose lt in
      Ok (m, mkChD (ch_lT d) (Some m) (ch_cachedLT d) (ch_m d))
  end.

(** Determinant: cholesky_decomposition.go:149-156. *)
Definition ch_Determinant (d : ChD) : res F :=
  for_ 0 (len (ch_lT d)) (fun i determinant =>
    let* lTii := mget (ch_lT d) i i in
    Ok (determinant * (lTii * lTii))%f) fone.

(** IsNonSingular: cholesky_decomposition.go:173-176.  Solver,
    newCholeskyDecompositionSolver: cholesky_decomposition.go:161-171; the solver is
    the decomposition. *)
Definition chs_IsNonSingular (d : ChD) : bool := true.

(** SolveVector: cholesky_decomposition.go:178-208. *)
Definition chs_SolveVector (d : ChD) (b : RealVector) : res RealVector :=
  let m := ch_m d in
  if negb (v_Dimension b =? m) then Panic EDimMismatch else
  let x := arv_ToArray (v_data b) in
  let* x := for_ 0 m (fun j x =>
    let* a := zget x j in
    let* l := mget (ch_lT d) j j in
    let* x := zset x j (a / l)%f in
    let* xJ := zget x j in
    for_ (j + 1) m (fun i x =>
      let* a := zget x i in
      let* l := mget (ch_lT d) j i in
      zset x i (a - xJ * l)%f) x) x in
  let* x := for_down (m - 1) 0 (fun j x =>
    let* a := zget x j in
    let* l := mget (ch_lT d) j j in
    let* x := zset x j (a / l)%f in
    let* xJ := zget x j in
    for_ 0 j (fun i x =>
      let* a := zget x i in
      let* l := mget (ch_lT d) i j in
      zset x i (a - xJ * l)%f) x) x in
  Ok (VArr ([] ++ x)).

(** SolveMatrix: cholesky_decomposition.go:210-255. *)
Definition chs_SolveMatrix (d : ChD) (b : RealMatrix) : res RealMatrix :=
  let m := ch_m d in
  if negb (m_rows b =? m) then Panic EDimMismatch else
  let* nColB := m_cols b in
  let* x := m_Data b in
  let* x := for_ 0 m (fun j x =>
    let* lJJ := mget (ch_lT d) j j in
    let* x := for_ 0 nColB (fun k x => let* a := mget x j k in mset x j k (a / lJJ)%f) x in
    for_ (j + 1) m (fun i x =>
      let* lJI := mget (ch_lT d) j i in
      for_ 0 nColB (fun k x =>
        let* a := mget x i k in
        let* c := mget x j k in
        mset x i k (a - c * lJI)%f) x) x) x in
  let* x := for_down (m - 1) 0 (fun j x =>
    let* lJJ := mget (ch_lT d) j j in
    let* x := for_ 0 nColB (fun k x => let* a := mget x j k in mset x j k (a / lJJ)%f) x in
    for_ 0 j (fun i x =>
      let* lIJ := mget (ch_lT d) i j in
      for_ 0 nColB (fun k x =>
        let* a := mget x i k in
        let* c := mget x j k in
        mset x i k (a - c * lIJ)%f) x) x) x in
  let* a := a2_copyIn (mkA2D None) (Some x) in
  Ok (MArr a).

(** Inverse: cholesky_decomposition.go:257-264. *)
Definition chs_Inverse (d : ChD) : res RealMatrix :=
  let* m := orpanic (NewRealIdentityMatrix (ch_m d)) in
  chs_SolveMatrix d m.
End Cholesky.

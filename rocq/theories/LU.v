(** Model of /repo/lu_decomposition.go. *)
From Coq Require Import ZArith QArith List Lia Bool.
From Verif Require Import Base Scalar Vector Matrix Array2D BlockM Diagonal RealMatrixM.
Import ListNotations.
Open Scope Z_scope.

Section LU.
Context {O : Ops}.

(** LUDecomposition: lu_decomposition.go:38-43; a nil cache is [None]. *)
Record LUD := mkLUD {
  lu_lu : mat;
  lu_pivot : list Z;
  lu_even : bool;
  lu_singular : bool;
  lu_cachedL : option RealMatrix;
  lu_cachedU : option RealMatrix;
  lu_cachedP : option RealMatrix
}.

(** [lu[row][col]] minus the products of the first [n] entries of the row and
    of the column: lu_decomposition.go:77-82 and 91-96. *)
Definition lu_reduce (lu : mat) (row col n : Z) : res mat :=
  let* sum := mget lu row col in
  let* sum := for_ 0 n (fun i sum =>
    let* x := mget lu row i in
    let* y := mget lu i col in
    Ok (sum - x * y)%f) sum in
  mset lu row col sum.

(** The "upper" loop: lu_decomposition.go:76-83. *)
Definition lu_upper (col : Z) (lu : mat) : res mat :=
  for_ 0 col (fun row lu => lu_reduce lu row col row) lu.

(** The "lower" loop with the choice of the pivot row: lu_decomposition.go:86-103.
    [largest] starts at -Inf, written [None]; |sum| > -Inf holds exactly when
    sum is not NaN. *)
Definition lu_lower (m col : Z) (lu : mat) : res (mat * Z * option F) :=
  for_ col m (fun row '(lu, max, largest) =>
    let* lu := lu_reduce lu row col col in
    let* sum := mget lu row col in
    if match largest with None => negb (fisnan (fabs sum)) | Some l => fgt (fabs sum) l end
    then Ok (lu, row, Some (fabs sum)) else Ok (lu, max, largest)) (lu, col, None).

(** Exchange of two rows, entry by entry, and of two pivots:
    lu_decomposition.go:113-124. *)
Definition lu_swap (m max col : Z) (lu : mat) (pivot : list Z) : res (mat * list Z) :=
  let* lu := for_ 0 m (fun i lu =>
    let* tmp := mget lu max i in
    let* x := mget lu col i in
    let* lu := mset lu max i x in
    mset lu col i tmp) lu in
  let* temp := zget pivot max in
  let* y := zget pivot col in
  let* pivot := zset pivot max y in
  let* pivot := zset pivot col temp in
  Ok (lu, pivot).

(** lu_decomposition.go:128-131. *)
Definition lu_divide (m col : Z) (lu : mat) : res mat :=
  let* luDiag := mget lu col col in
  for_ (col + 1) m (fun row lu => let* x := mget lu row col in mset lu row col (x / luDiag)%f) lu.

(** The body of the loop over columns: lu_decomposition.go:73-132.  The flag
    says whether the loop was left because of a small pivot. *)
Definition lu_column (m : Z) (threshold : F) (col : Z) '((lu, pivot, even) : mat * list Z * bool)
  : res (bool * (mat * list Z * bool)) :=
  let* lu := lu_upper col lu in
  let* (lu, max, _) := lu_lower m col lu in
  let* x := mget lu max col in
  if flt (fabs x) threshold then Ok (true, (lu, pivot, even)) else
  let* (lu, pivot, even) :=
    (if negb (max =? col) then
       let* (lu, pivot) := lu_swap m max col lu pivot in Ok (lu, pivot, negb even)
     else Ok (lu, pivot, even)) in
  let* lu := lu_divide m col lu in
  Ok (false, (lu, pivot, even)).

(** NewLUDecompositionWithThreshold: lu_decomposition.go:57-135. *)
Definition NewLUDecompositionWithThreshold (matrix : RealMatrix) (threshold : F) : res LUD :=
  let* sq := IsSquare matrix in
  if negb sq then let* _ := m_cols matrix in Err ENonSquare else
  let* m := m_cols matrix in
  let* lu := m_Data matrix in
  let* pivot := make 0 m in
  let* pivot := for_ 0 m (fun row pivot => zset pivot row row) pivot in
  let* (singular, (lu, pivot, even)) := for_brk 0 m (lu_column m threshold) (lu, pivot, true) in
  Ok (mkLUD lu pivot even singular None None None).

(** NewLUDecomposition: lu_decomposition.go:50-52; the threshold is 1e-11. *)
Definition NewLUDecomposition (matrix : RealMatrix) : res LUD :=
  NewLUDecompositionWithThreshold matrix (flit (1 # 100000000000)).

(** L: lu_decomposition.go:141-160.  [None] is a nil matrix. *)
Definition lu_L (d : LUD) : res (option RealMatrix * LUD) :=
  match lu_cachedL d, lu_singular d with
  | None, false =>
      let m := len (lu_pivot d) in
      let* l := orpanic (NewRealMatrixWithDimension m m) in
      let* l := for_ 0 m (fun i l =>
        let* luI := zget (lu_lu d) i in
        let* l := for_ 0 i (fun j l => let* x := zget luI j in m_SetEntry l i j x) l in
        m_SetEntry l i i fone) l in
      Ok (Some l, mkLUD (lu_lu d) (lu_pivot d) (lu_even d) (lu_singular d) (Some l) (lu_cachedU d) (lu_cachedP d))
  | c, _ => Ok (c, d)
  end.

(** U: lu_decomposition.go:166-182. *)
Definition lu_U (d : LUD) : res (option RealMatrix * LUD) :=
  match lu_cachedU d, lu_singular d with
  | None, false =>
      let m := len (lu_pivot d) in
      let* u := orpanic (NewRealMatrixWithDimension m m) in
      let* u := for_ 0 m (fun i u =>
        let* luI := zget (lu_lu d) i in
        for_ i m (fun j u => let* x := zget luI j in m_SetEntry u i j x) u) u in
      Ok (Some u, mkLUD (lu_lu d) (lu_pivot d) (lu_even d) (lu_singular d) (lu_cachedL d) (Some u) (lu_cachedP d))
  | c, _ => Ok (c, d)
  end.

(** P: lu_decomposition.go:191-204. *)
Definition lu_P (d : LUD) : res (option RealMatrix * LUD) :=
  match lu_cachedP d, lu_singular d with
  | None, false =>
      let m := len (lu_pivot d) in
      let* p := orpanic (NewRealMatrixWithDimension m m) in
      let* p := for_ 0 m (fun i p => let* k := zget (lu_pivot d) i in m_SetEntry p i k fone) p in
      Ok (Some p, mkLUD (lu_lu d) (lu_pivot d) (lu_even d) (lu_singular d) (lu_cachedL d) (lu_cachedU d) (Some p))
  | c, _ => Ok (c, d)
  end.

(** Pivot: lu_decomposition.go:209-211. *)
Definition lu_Pivot (d : LUD) : list Z := [] ++ lu_pivot d.

(** Determinant: lu_decomposition.go:216-231. *)
Definition lu_Determinant (d : LUD) : res F :=
  if lu_singular d then Ok fzero else
  let m := len (lu_pivot d) in
  let determinant := if lu_even d then fone else fneg fone in
  for_ 0 m (fun i determinant => let* x := mget (lu_lu d) i i in Ok (determinant * x)%f) determinant.

(** IsNonSingular: lu_decomposition.go:249-251.  Solver, newLUDecompositionSolver:
    lu_decomposition.go:237-247; the solver is the decomposition. *)
Definition lus_IsNonSingular (d : LUD) : bool := negb (lu_singular d).

(** SolveVector: lu_decomposition.go:253-289. *)
Definition lus_SolveVector (d : LUD) (b : RealVector) : res RealVector :=
  let m := len (lu_pivot d) in
  if negb (v_Dimension b =? m) then Panic EDimMismatch else
  if lu_singular d then Panic ESingular else
  let* bp := make fzero m in
  let* bp := for_ 0 m (fun row bp =>
    let* k := zget (lu_pivot d) row in
    let* x := v_At b k in zset bp row x) bp in
  let* bp := for_ 0 m (fun col bp =>
    let* bpCol := zget bp col in
    for_ (col + 1) m (fun i bp =>
      let* x := zget bp i in
      let* l := mget (lu_lu d) i col in
      zset bp i (x - bpCol * l)%f) bp) bp in
  let* bp := for_down (m - 1) 0 (fun col bp =>
    let* x := zget bp col in
    let* u := mget (lu_lu d) col col in
    let* bp := zset bp col (x / u)%f in
    let* bpCol := zget bp col in
    for_ 0 col (fun i bp =>
      let* x := zget bp i in
      let* l := mget (lu_lu d) i col in
      zset bp i (x - bpCol * l)%f) bp) bp in
  Ok (VArr ([] ++ bp)).

(** SolveMatrix: lu_decomposition.go:291-344.  [bpI] and [bpCol] are rows of
    [bp], always different ones. *)
Definition lus_SolveMatrix (d : LUD) (b : RealMatrix) : res RealMatrix :=
  let m := len (lu_pivot d) in
  if negb (m_rows b =? m) then Panic EDimMismatch else
  if lu_singular d then Panic ESingular else
  let* nColB := m_cols b in
  let* bp := make [] m in
  let* bp := for_ 0 m (fun row bp =>
    let* bpRow := make fzero nColB in
    let* pRow := zget (lu_pivot d) row in
    let* bpRow := for_ 0 nColB (fun col bpRow => let* x := m_At b pRow col in zset bpRow col x) bpRow in
    zset bp row bpRow) bp in
  let* bp := for_ 0 m (fun col bp =>
    for_ (col + 1) m (fun i bp =>
      let* luICol := mget (lu_lu d) i col in
      for_ 0 nColB (fun j bp =>
        let* x := mget bp i j in
        let* y := mget bp col j in
        mset bp i j (x - y * luICol)%f) bp) bp) bp in
  let* bp := for_down (m - 1) 0 (fun col bp =>
    let* luDiag := mget (lu_lu d) col col in
    let* bp := for_ 0 nColB (fun j bp =>
      let* x := mget bp col j in mset bp col j (x / luDiag)%f) bp in
    for_ 0 col (fun i bp =>
      let* luICol := mget (lu_lu d) i col in
      for_ 0 nColB (fun j bp =>
        let* x := mget bp i j in
        let* y := mget bp col j in
        mset bp i j (x - y * luICol)%f) bp) bp) bp in
  let* a := a2_copyIn (mkA2D None) (Some bp) in
  Ok (MArr a).

(** Inverse: lu_decomposition.go:346-353. *)
Definition lus_Inverse (d : LUD) : res RealMatrix :=
  let* m := orpanic (NewRealIdentityMatrix (len (lu_pivot d))) in
  lus_SolveMatrix d m.
End LU.

(** Model of /repo/eigen_decomposition.go.  The fields main, secondary and
    transformer are only used while the decomposition is built; they are local
    values here. *)
From Coq Require Import ZArith QArith List Lia Bool.
From Verif Require Import Base Scalar Vector Matrix Array2D BlockM Diagonal RealMatrixM Hess Tridiag Schur.
Import ListNotations.
Open Scope Z_scope.

Section Eigen.
Context {O : Ops}.

(** eps_ed = 1e-12: eigen_decomposition.go:23. *)
Definition eps_ed : F := flit (1 # 1000000000000).

(** EigenDecomposition: eigen_decomposition.go:61-68; a nil cache is [None]. *)
Record EdD := mkEdD {
  ed_re : vec;
  ed_im : vec;
  ed_vecs : mat;
  ed_sym : bool;
  ed_cachedV : option RealMatrix;
  ed_cachedD : option RealMatrix;
  ed_cachedVt : option RealMatrix
}.

(** compareTo: utils.go:65-72. *)
Definition compareTo (x y eps : F) : Z :=
  if equalsWithError x y eps then 0 else if flt x y then -1 else 1.

(** ** The symmetric case *)

(** The greatest absolute value of two tables of length n:
    eigen_decomposition.go:352-360; with [e] the table of zeros, 465-470. *)
Definition ed_maxabs (n : Z) (d e : vec) : res F :=
  for_ 0 n (fun i mx =>
    let* x := zget d i in
    let mx := if fgt (fabs x) mx then fabs x else mx in
    let* y := zget e i in
    Ok (if fgt (fabs y) mx then fabs y else mx)) fzero.

(** Make null the values that are too small: eigen_decomposition.go:362-371. *)
Definition ed_null (n : Z) (mx : F) (d e : vec) : res (vec * vec) :=
  if fne mx fzero then
    for_ 0 n (fun i '(d, e) =>
      let* x := zget d i in
      let* d := (if fle (fabs x) (doubleeps * mx)%f then zset d i fzero else Ok d) in
      let* y := zget e i in
      let* e := (if fle (fabs y) (doubleeps * mx)%f then zset e i fzero else Ok e) in
      Ok (d, e)) (d, e)
  else Ok (d, e).

(** The first negligible secondary value from j on: eigen_decomposition.go:377-383. *)
Definition ed_find (n j : Z) (d e : vec) : res Z :=
  let* (_, m) := for_brk j (n - 1) (fun m _ =>
    let* x := zget d m in
    let* y := zget d (m + 1) in
    let delta := (fabs x + fabs y)%f in
    let* w := zget e m in
    if feq (fabs w + delta)%f delta then Ok (true, m) else Ok (false, m + 1)) j in
  Ok m.

(** The rotation of columns i and i+1 of z: eigen_decomposition.go:426-430. *)
Definition ed_rotz (n i : Z) (s c : F) (z : mat) : res mat :=
  for_ 0 n (fun ia z =>
    let* p := mget z ia (i + 1) in
    let* x := mget z ia i in
    let* z := mset z ia (i + 1) (s * x + c * p)%f in
    let* x := mget z ia i in
    mset z ia i (c * x - s * p)%f) z.

(** One turn of the innermost loop: eigen_decomposition.go:398-431; turn k has
    i = m - 1 - k.  The state is (d, e, z, q, u, s, c, t); the flag says whether
    the loop was left by break. *)
Definition ed_rot (n m k : Z) (st : vec * vec * mat * F * F * F * F * F)
  : res (bool * (vec * vec * mat * F * F * F * F * F)) :=
  let '(d, e, z, q, u, s, c, t) := st in
  let i := m - 1 - k in
  let* ei := zget e i in
  let p := (s * ei)%f in
  let* ei := zget e i in
  let h := (c * ei)%f in
  let* (e, s, c, t) := (if fge (fabs p) (fabs q) then
      let c := (q / p)%f in
      let t := fsqrt (c * c + fone)%f in
      let* e := zset e (i + 1) (p * t)%f in
      let s := (fone / t)%f in
      Ok (e, s, (c * s)%f, t)
    else
      let s := (p / q)%f in
      let t := fsqrt (s * s + fone)%f in
      let* e := zset e (i + 1) (q * t)%f in
      let c := (fone / t)%f in
      Ok (e, (s * c)%f, c, t)) in
  let* r := zget e (i + 1) in
  if feq r fzero then
    let* x := zget d (i + 1) in
    let* d := zset d (i + 1) (x - u)%f in
    let* e := zset e m fzero in
    Ok (true, (d, e, z, q, u, s, c, t))
  else
    let* x := zget d (i + 1) in
    let q := (x - u)%f in
    let* y := zget d i in
    let t := ((y - q) * s + flit 2 * c * h)%f in
    let u := (s * t)%f in
    let* d := zset d (i + 1) (q + u)%f in
    let q := (c * t - h)%f in
    let* z := ed_rotz n i s c z in
    Ok (false, (d, e, z, q, u, s, c, t)).

(** One turn of the loop on one eigenvalue: eigen_decomposition.go:376-440, with
    max_iter_ed = 30; the turn number is its.  The flag says m == j. *)
Definition ed_turn (n j its : Z) (st : vec * vec * mat) : res (bool * (vec * vec * mat)) :=
  let '(d, e, z) := st in
  let* m := ed_find n j d e in
  if m =? j then Ok (true, (d, e, z)) else
  if its =? 30 then Err EMaxIter else
  let* x := zget d (j + 1) in
  let* y := zget d j in
  let* w := zget e j in
  let q := ((x - y) / (flit 2 * w))%f in
  let t := fsqrt (fone + q * q)%f in
  let* dm := zget d m in
  let* dj := zget d j in
  let* ej := zget e j in
  let q := if flt q fzero then (dm - dj + ej / (q - t))%f else (dm - dj + ej / (q + t))%f in
  let* (broke, (d, e, z, q, u, s, c, t)) := for_brk 0 (m - j) (ed_rot n m) (d, e, z, q, fzero, fone, fone, t) in
  if feq t fzero && broke then Ok (false, (d, e, z)) else
  let* dj := zget d j in
  let* d := zset d j (dj - u)%f in
  let* e := zset e j q in
  let* e := zset e m fzero in
  Ok (false, (d, e, z)).

(** The loop over the eigenvalues: eigen_decomposition.go:373-441.  The loop on
    one eigenvalue has no bound of its own; at turn 30 it ends by [m == j] or by
    the error, so 31 turns are all there can be. *)
Definition ed_ql (n : Z) (st : vec * vec * mat) : res (vec * vec * mat) :=
  for_ 0 n (fun j st => let* (_, st) := for_brk 0 31 (ed_turn n j) st in Ok st) st.

(** Sorting: eigen_decomposition.go:444-462. *)
Definition ed_sort (n : Z) (st : vec * mat) : res (vec * mat) :=
  for_ 0 n (fun i '(d, z) =>
    let* p := zget d i in
    let* (k, p) := for_ (i + 1) n (fun j '(k, p) =>
      let* x := zget d j in
      if fgt x p then Ok (j, x) else Ok (k, p)) (i, p) in
    if negb (k =? i) then
      let* x := zget d i in
      let* d := zset d k x in
      let* d := zset d i p in
      let* z := for_ 0 n (fun j z =>
        let* p := mget z j i in
        let* x := mget z j k in
        let* z := mset z j i x in
        mset z j k p) z in
      Ok (d, z)
    else Ok (d, z)) st.

(** Make null the eigenvalues that are too small: eigen_decomposition.go:465-479. *)
Definition ed_null2 (n : Z) (d : vec) : res vec :=
  let* mx := for_ 0 n (fun i mx =>
    let* x := zget d i in Ok (if fgt (fabs x) mx then fabs x else mx)) fzero in
  if fne mx fzero then
    for_ 0 n (fun i d =>
      let* x := zget d i in
      if flt (fabs x) (doubleeps * mx)%f then zset d i fzero else Ok d) d
  else Ok d.

(** The columns of z: eigen_decomposition.go:480-488, 683-691. *)
Definition ed_columns (n : Z) (z : mat) : res mat :=
  let* vs := make [] n in
  let* tmp := make fzero n in
  let* (vs, _) := for_ 0 n (fun i '(vs, tmp) =>
    let* tmp := for_ 0 n (fun j tmp => let* x := mget z j i in zset tmp j x) tmp in
    let* vs := zset vs i ([] ++ tmp) in
    Ok (vs, tmp)) (vs, tmp) in
  Ok vs.

(** findEigenVectors: eigen_decomposition.go:331-491; the copy of the rows of
    the Householder matrix is a value. *)
Definition ed_findEigenVectors (mn sec : vec) (z : mat) : res EdD :=
  let n := len mn in
  let* d := make fzero n in
  let* im := make fzero n in
  let* e := make fzero n in
  let* (d, e) := for_ 0 (n - 1) (fun i '(d, e) =>
    let* x := zget mn i in
    let* d := zset d i x in
    let* y := zget sec i in
    let* e := zset e i y in
    Ok (d, e)) (d, e) in
  let* x := zget mn (n - 1) in
  let* d := zset d (n - 1) x in
  let* e := zset e (n - 1) fzero in
  let* mx := ed_maxabs n d e in
  let* (d, e) := ed_null n mx d e in
  let* (d, e, z) := ed_ql n (d, e, z) in
  let* (d, z) := ed_sort n (d, z) in
  let* d := ed_null2 n d in
  let* vs := ed_columns n z in
  Ok (mkEdD d im vs true None None None).

(** ** The non-symmetric case *)

(** Division of complex128 numbers (a + bi) / (c + di), as compiled: Smith's
    algorithm in runtime/complex.go.  Simplification: the correction of NaN
    results made there (C99 Annex G) is left out. *)
Definition cdiv (a b c d : F) : F * F :=
  if fge (fabs c) (fabs d) then
    let ratio := (d / c)%f in
    let denom := (c + ratio * d)%f in
    (((a + b * ratio) / denom)%f, ((b - a * ratio) / denom)%f)
  else
    let ratio := (c / d)%f in
    let denom := (d + ratio * c)%f in
    (((a * ratio + b) / denom)%f, ((b * ratio - a) / denom)%f).

(** The eigenvalues of the quasi-triangular matrix: eigen_decomposition.go:501-519.
    The extra i++ after a pair of complex values is the flag [skip]. *)
Definition ed_schurValues (T : mat) : res (vec * vec) :=
  let n := len T in
  let* re := make fzero n in
  let* im := make fzero n in
  let* (re, im, _) := for_ 0 n (fun i '(re, im, skip) =>
    if (skip : bool) then Ok (re, im, false) else
    let* real := (if i =? n - 1 then Ok true else
      let* x := mget T (i + 1) i in Ok (equalsWithError x fzero eps_ed)) in
    if (real : bool) then
      let* x := mget T i i in
      let* re := zset re i x in
      Ok (re, im, false)
    else
      let* x := mget T (i + 1) (i + 1) in
      let* a := mget T i i in
      let p := (flit (1 # 2) * (a - x))%f in
      let* b := mget T (i + 1) i in
      let* c := mget T i (i + 1) in
      let z := fsqrt (fabs (p * p + b * c)%f) in
      let* re := zset re i (x + p)%f in
      let* im := zset im i z in
      let* re := zset re (i + 1) (x + p)%f in
      let* im := zset im (i + 1) (fneg z) in
      Ok (re, im, true)) (re, im, false) in
  Ok (re, im).

(** Division of the entries i..idx of a column of T: eigen_decomposition.go:589-593,
    661-666. *)
Definition ed_rescale (i idx col : Z) (t : F) (T : mat) : res mat :=
  for_ i (idx + 1) (fun j T => let* x := mget T j col in mset T j col (x / t)%f) T.

(** The state of the back-substitution: T and the variables r, s, z, which are
    declared outside the loop over idx, and l. *)
(** Real vector: eigen_decomposition.go:553-596. *)
Definition ed_realVector (norm : F) (re im : vec) (idx : Z) (p : F) (st : mat * F * F * F) : res (mat * F * F * F) :=
  let '(T, r, s, z) := st in
  let* T := mset T idx idx fone in
  let* (T, r, s, z, _) := for_down (idx - 1) 0 (fun i '(T, r, s, z, l) =>
    let* a := mget T i i in
    let w := (a - p)%f in
    let* r := for_ l (idx + 1) (fun j r =>
      let* x := mget T i j in
      let* y := mget T j idx in Ok (r + x * y)%f) fzero in
    let* ii := zget im i in
    if compareTo ii fzero eps_ed <? 0 then Ok (T, r, r, w, l) else
    let l := i in
    let* T := (if fulp1 ii fzero then
        if fne w fzero then mset T i idx (fneg r / w)%f
        else mset T i idx (fneg r / (doubleeps * norm))%f
      else
        let* x := mget T i (i + 1) in
        let* y := mget T (i + 1) i in
        let* ri := zget re i in
        let q := ((ri - p) * (ri - p) + ii * ii)%f in
        let t := ((x * s - z * r) / q)%f in
        let* T := mset T i idx t in
        if fgt (fabs x) (fabs z) then mset T (i + 1) idx ((fneg r - w * t) / x)%f
        else mset T (i + 1) idx ((fneg s - y * t) / z)%f) in
    let* ti := mget T i idx in
    let t := fabs ti in
    let* T := (if fgt (doubleeps * t * t)%f fone then ed_rescale i idx idx t T else Ok T) in
    Ok (T, r, s, z, l)) (T, r, s, z, idx) in
  Ok (T, r, s, z).

(** Complex vector: eigen_decomposition.go:597-669.  In the code the two columns
    are divided in the same loop. *)
Definition ed_complexVector (norm : F) (re im : vec) (idx : Z) (p q : F) (st : mat * F * F * F) : res (mat * F * F * F) :=
  let '(T, r, s, z) := st in
  let* a := mget T idx (idx - 1) in
  let* b := mget T (idx - 1) idx in
  let* T := (if fgt (fabs a) (fabs b) then
      let* a := mget T idx (idx - 1) in
      let* T := mset T (idx - 1) (idx - 1) (q / a)%f in
      let* d := mget T idx idx in
      let* a := mget T idx (idx - 1) in
      mset T (idx - 1) idx (fneg (d - p) / a)%f
    else
      let* b := mget T (idx - 1) idx in
      let* c := mget T (idx - 1) (idx - 1) in
      let '(re', im') := cdiv fzero (fneg b) (c - p)%f q in
      let* T := mset T (idx - 1) (idx - 1) re' in
      mset T (idx - 1) idx im') in
  let* T := mset T idx (idx - 1) fzero in
  let* T := mset T idx idx fone in
  let* (T, r, s, z, _) := for_down (idx - 2) 0 (fun i '(T, r, s, z, l) =>
    let* (ra, sa) := for_ l (idx + 1) (fun j '(ra, sa) =>
      let* x := mget T i j in
      let* y := mget T j (idx - 1) in
      let* y' := mget T j idx in
      Ok ((ra + x * y)%f, (sa + x * y')%f)) (fzero, fzero) in
    let* a := mget T i i in
    let w := (a - p)%f in
    let* ii := zget im i in
    if compareTo ii fzero eps_ed <? 0 then Ok (T, ra, sa, w, l) else
    let l := i in
    let* T := (if fulp1 ii fzero then
        let '(cr, ci) := cdiv (fneg ra) (fneg sa) w q in
        let* T := mset T i (idx - 1) cr in
        mset T i idx ci
      else
        let* x := mget T i (i + 1) in
        let* y := mget T (i + 1) i in
        let* ri := zget re i in
        let vr := ((ri - p) * (ri - p) + ii * ii - q * q)%f in
        let vi := ((ri - p) * flit 2 * q)%f in
        let vr := if fulp1 vr fzero && fulp1 vi fzero
                  then (doubleeps * norm * (fabs w + fabs q + fabs x + fabs y + fabs z))%f else vr in
        let '(cr, ci) := cdiv (x * r - z * ra + q * sa)%f (x * s - z * sa - q * ra)%f vr vi in
        let* T := mset T i (idx - 1) cr in
        let* T := mset T i idx ci in
        if fgt (fabs x) (fabs z + fabs q)%f then
          let* T := mset T (i + 1) (idx - 1) ((fneg ra - w * cr + q * ci) / x)%f in
          mset T (i + 1) idx ((fneg sa - w * ci - q * cr) / x)%f
        else
          let '(dr, di) := cdiv (fneg r - y * cr)%f (fneg s - y * ci)%f z q in
          let* T := mset T (i + 1) (idx - 1) dr in
          mset T (i + 1) idx di) in
    let* t1 := mget T i (idx - 1) in
    let* t2 := mget T i idx in
    let t := fmax (fabs t1) (fabs t2) in
    let* T := (if fgt (doubleeps * t * t)%f fone then
        let* T := ed_rescale i idx (idx - 1) t T in ed_rescale i idx idx t T
      else Ok T) in
    Ok (T, r, s, z, l)) (T, r, s, z, idx - 1) in
  Ok (T, r, s, z).

(** findEigenVectorsFromSchur: eigen_decomposition.go:526-695. *)
Definition ed_schurVectors (re im : vec) (T P : mat) : res mat :=
  let n := len T in
  let* norm := sc_norm T in
  if equalsWithError norm fzero eps_ed then Err EArithmetic else
  let* (T, _, _, _) := for_down (n - 1) 0 (fun idx st =>
    let* p := zget re idx in
    let* q := zget im idx in
    if fulp1 q fzero then ed_realVector norm re im idx p st
    else if flt q fzero then ed_complexVector norm re im idx p q st
    else Ok st) (T, fzero, fzero, fzero) in
  let* P := for_down (n - 1) 0 (fun j P =>
    for_ 0 n (fun i P =>
      let* z := for_ 0 (Z.min j (n - 1) + 1) (fun k z =>
        let* x := mget P i k in
        let* y := mget T k j in Ok (z + x * y)%f) fzero in
      mset P i j z) P) P in
  ed_columns n P.

(** ** Constructors and accessors *)

(** NewEigenDecomposition: eigen_decomposition.go:76-98, with
    transformToTridiagonal: eigen_decomposition.go:315-326 inlined. *)
Definition NewEigenDecomposition (matrix : RealMatrix) : res EdD :=
  let* cols := m_cols matrix in
  let symTol := (flit 10 * flit (inject_Z (m_rows matrix)) * flit (inject_Z cols) * doubleeps)%f in
  let* sym := isSymmetric matrix symTol in
  if (sym : bool) then
    let* tr := NewTriDiagonalTransformer matrix in
    let mn := td_MainDiagonalRef tr in
    let sec := td_SecondaryDiagonalRef tr in
    let* (q, tr) := td_Q tr in
    let* z := m_Data q in
    ed_findEigenVectors mn sec z
  else
    let* sc := NewSchurTransformer matrix in
    let* (t, sc) := sc_getT sc in
    let* matT := m_Data t in
    let* (re, im) := ed_schurValues matT in
    let* (t, sc) := sc_getT sc in
    let* T := m_Data t in
    let* (p, sc) := sc_getP sc in
    let* P := m_Data p in
    let* vs := ed_schurVectors re im T P in
    Ok (mkEdD re im vs false None None None).

(** NewEigenDecompositionFromTridiagonal: eigen_decomposition.go:104-126. *)
Definition NewEigenDecompositionFromTridiagonal (mn sec : vec) : res EdD :=
  let mn := [] ++ mn in
  let sec := [] ++ sec in
  let size := len mn in
  let* z := make [] size in
  let* z := for_ 0 size (fun i z =>
    let* row := make fzero size in
    let* z := zset z i row in
    mset z i i fone) z in
  ed_findEigenVectors mn sec z.

(** V: eigen_decomposition.go:135-151. *)
Definition ed_V (d : EdD) : res (RealMatrix * EdD) :=
  match ed_cachedV d with
  | Some v => Ok (v, d)
  | None =>
      let m := len (ed_vecs d) in
      let* v := orpanic (NewRealMatrixWithDimension m m) in
      let* v := for_ 0 m (fun k v => let* x := zget (ed_vecs d) k in m_SetColumnVector v k (VArr x)) v in
      Ok (v, mkEdD (ed_re d) (ed_im d) (ed_vecs d) (ed_sym d) (Some v) (ed_cachedD d) (ed_cachedVt d))
  end.

(** D: eigen_decomposition.go:159-178. *)
Definition ed_D (d : EdD) : res (RealMatrix * EdD) :=
  match ed_cachedD d with
  | Some v => Ok (v, d)
  | None =>
      let* m := orpanic (NewRealMatrixWithDiagonal (ed_re d)) in
      let* m := for_ 0 (len (ed_im d)) (fun i m =>
        let* x := zget (ed_im d) i in
        if 0 <? compareTo x fzero eps_ed then m_SetEntry m i (i + 1) x
        else if compareTo x fzero eps_ed <? 0 then m_SetEntry m i (i - 1) x
        else Ok m) m in
      Ok (m, mkEdD (ed_re d) (ed_im d) (ed_vecs d) (ed_sym d) (ed_cachedV d) (Some m) (ed_cachedVt d))
  end.

(** VT: eigen_decomposition.go:188-204. *)
Definition ed_VT (d : EdD) : res (RealMatrix * EdD) :=
  match ed_cachedVt d with
  | Some v => Ok (v, d)
  | None =>
      let m := len (ed_vecs d) in
      let* v := orpanic (NewRealMatrixWithDimension m m) in
      let* v := for_ 0 m (fun k v => let* x := zget (ed_vecs d) k in m_SetRowVector v k (VArr x)) v in
      Ok (v, mkEdD (ed_re d) (ed_im d) (ed_vecs d) (ed_sym d) (ed_cachedV d) (ed_cachedD d) (Some v))
  end.

(** HasComplexEigenvalues: eigen_decomposition.go:212-219. *)
Definition ed_HasComplexEigenvalues (d : EdD) : res bool :=
  let* (b, _) := for_brk 0 (len (ed_im d)) (fun i (_ : unit) =>
    let* x := zget (ed_im d) i in Ok (negb (equalsWithError x fzero eps_ed), tt)) tt in
  Ok b.

(** RealEigenvalues, RealEigenvalueAt, ImagEigenvalues, ImagEigenvalue,
    EigenvectorAt: eigen_decomposition.go:224-257. *)
Definition ed_RealEigenvalues (d : EdD) : vec := [] ++ ed_re d.
Definition ed_RealEigenvalueAt (d : EdD) (i : Z) : res F := zget (ed_re d) i.
Definition ed_ImagEigenvalues (d : EdD) : vec := [] ++ ed_im d.
Definition ed_ImagEigenvalue (d : EdD) (i : Z) : res F := zget (ed_im d) i.
Definition ed_EigenvectorAt (d : EdD) (i : Z) : res RealVector := let* v := zget (ed_vecs d) i in Ok (VArr v).

(** Determinant: eigen_decomposition.go:262-268. *)
Definition ed_Determinant (d : EdD) : res F :=
  for_ 0 (len (ed_re d)) (fun i det => let* x := zget (ed_re d) i in Ok (det * x)%f) fone.

(** SquareRoot: eigen_decomposition.go:275-296. *)
Definition ed_SquareRoot (d : EdD) : res (RealMatrix * EdD) :=
  if negb (ed_sym d) then Panic EUnsupported else
  let* sq := make fzero (len (ed_re d)) in
  let* sq := for_ 0 (len (ed_re d)) (fun i sq =>
    let* x := zget (ed_re d) i in
    if fle x fzero then Panic EUnsupported else zset sq i (fsqrt x)) sq in
  let* s := orpanic (NewRealDiagonalMatrix (Some sq)) in
  let* (v, d) := ed_V d in
  let* (vT, d) := ed_VT d in
  let* m := m_Multiply v s in
  let* m := m_Multiply m vT in
  Ok (m, d).

(** Solver: eigen_decomposition.go:305-310, newEigenDecompositionSolver:
    eigen_decomposition.go:707-709; the solver is the decomposition. *)
Definition ed_Solver (d : EdD) : res EdD :=
  let* c := ed_HasComplexEigenvalues d in
  if (c : bool) then Panic EUnsupported else Ok d.

(** eigenvalueNormAt: eigen_decomposition.go:833-837. *)
Definition eds_norm (d : EdD) (i : Z) : res F :=
  let* re := zget (ed_re d) i in
  let* im := zget (ed_im d) i in
  Ok (fsqrt (re * re + im * im)%f).

(** IsNonSingular: eigen_decomposition.go:711-731. *)
Definition eds_IsNonSingular (d : EdD) : res bool :=
  let n := len (ed_re d) in
  let* mx := for_ 0 n (fun i mx => let* x := eds_norm d i in Ok (fmax mx x)) fzero in
  if feq mx fzero then Ok false else
  let* (b, _) := for_brk 0 n (fun i (_ : unit) =>
    let* x := eds_norm d i in Ok (equalsWithError (x / mx)%f fzero eps_ed, tt)) tt in
  Ok (negb b).

(** SolveVector: eigen_decomposition.go:739-761. *)
Definition eds_SolveVector (d : EdD) (b : RealVector) : res RealVector :=
  let m := len (ed_re d) in
  if negb (v_Dimension b =? m) then Panic EDimMismatch else
  let* ok := eds_IsNonSingular d in
  if negb ok then Panic ESingular else
  let* bp := make fzero m in
  let* bp := for_ 0 m (fun i bp =>
    let* v := zget (ed_vecs d) i in
    let* dot := VecDotProduct (VArr v) b in
    let* x := zget (ed_re d) i in
    let s := (dot / x)%f in
    for_ 0 m (fun j bp =>
      let* y := zget bp j in
      let* vj := zget v j in
      zset bp j (y + s * vj)%f) bp) bp in
  Ok (VArr bp).

(** SolveMatrix: eigen_decomposition.go:763-800.  The rows of bp are made in
    the first turn of the loop over k (b has at least one column). *)
Definition eds_SolveMatrix (d : EdD) (b : RealMatrix) : res RealMatrix :=
  let m := len (ed_re d) in
  if negb (m_rows b =? m) then Panic EDimMismatch else
  let* ok := eds_IsNonSingular d in
  if negb ok then Panic ESingular else
  let* nColB := m_cols b in
  let* bp := make2 m nColB in
  let* tmpCol := make fzero m in
  let* (bp, _) := for_ 0 nColB (fun k '(bp, tmpCol) =>
    let* (bp, tmpCol) := for_ 0 m (fun i '(bp, tmpCol) =>
      let* x := m_At b i k in
      let* tmpCol := zset tmpCol i x in
      let* bp := mset bp i k fzero in
      Ok (bp, tmpCol)) (bp, tmpCol) in
    let* bp := for_ 0 m (fun i bp =>
      let* v := zget (ed_vecs d) i in
      let* ss := for_ 0 m (fun j ss =>
        let* x := zget v j in
        let* y := zget tmpCol j in Ok (ss + x * y)%f) fzero in
      let* x := zget (ed_re d) i in
      let ss := (ss / x)%f in
      for_ 0 m (fun j bp =>
        let* y := mget bp j k in
        let* vj := zget v j in
        mset bp j k (y + ss * vj)%f) bp) bp in
    Ok (bp, tmpCol)) (bp, tmpCol) in
  let* a := a2_copyIn (mkA2D None) (Some bp) in
  Ok (MArr a).

(** Inverse: eigen_decomposition.go:802-831. *)
Definition eds_Inverse (d : EdD) : res RealMatrix :=
  let* ok := eds_IsNonSingular d in
  if negb ok then Panic ESingular else
  let m := len (ed_re d) in
  let* inv := make [] m in
  let* inv := for_ 0 m (fun i inv =>
    let* row := make fzero m in
    let* row := for_ 0 m (fun j row =>
      let* x := for_ 0 m (fun k acc =>
        let* vK := zget (ed_vecs d) k in
        let* a := zget vK i in
        let* b := zget vK j in
        let* l := zget (ed_re d) k in
        Ok (acc + a * b / l)%f) fzero in
      zset row j x) row in
    zset inv i row) inv in
  orpanic (NewRealMatrixFromSlices (Some inv)).
End Eigen.

(** Model of /repo/schur_transformer.go.  [st.matrixT], [st.matrixP] are the
    tables [T], [P].  The fields x, y, w of ShiftInfo are set by computeShift
    before each use; they are local values here, and only exShift ([ex]) is
    kept from one turn to the next. *)
From Coq Require Import ZArith QArith List Lia Bool.
From Verif Require Import Base Scalar Vector Matrix Array2D BlockM Diagonal RealMatrixM Hess.
Import ListNotations.
Open Scope Z_scope.

Section Schur.
Context {O : Ops}.

(** doubleeps = 1.0 / (1 << 53): eigen_decomposition.go:24. *)
Definition doubleeps : F := flit (1 # 9007199254740992).

(** SchurTransformer: schur_transformer.go:39-42; a nil cache is [None]. *)
Record ScD := mkScD {
  sc_P : mat;
  sc_T : mat;
  sc_cachedP : option RealMatrix;
  sc_cachedT : option RealMatrix;
  sc_cachedPt : option RealMatrix
}.

(** norm: schur_transformer.go:203-212. *)
Definition sc_norm (T : mat) : res F :=
  for_ 0 (len T) (fun i norm =>
    for_ (Z.max (i - 1) 0) (len T) (fun j norm =>
      let* x := mget T i j in Ok (norm + fabs x)%f) norm) fzero.

(** findSmallSubDiagonalElement: schur_transformer.go:217-230; turn k of the
    loop has l = startIdx - k. *)
Definition sc_find (T : mat) (startIdx : Z) (norm : F) : res Z :=
  let* (_, l) := for_brk 0 startIdx (fun k l =>
    let* x := mget T (l - 1) (l - 1) in
    let* y := mget T l l in
    let s := (fabs x + fabs y)%f in
    let s := if feq s fzero then norm else s in
    let* h := mget T l (l - 1) in
    if flt (fabs h) (doubleeps * s)%f then Ok (true, l) else Ok (false, l - 1)) startIdx in
  Ok l.

(** [for i := 0; i <= idx; i++ { st.matrixT[i][i] -= s }] *)
Definition sc_subDiag (T : mat) (idx : Z) (s : F) : res mat :=
  for_ 0 (idx + 1) (fun i T => let* x := mget T i i in mset T i i (x - s)%f) T.

(** computeShift: schur_transformer.go:235-276; returns T, x, y, w, exShift. *)
Definition sc_shift (T : mat) (l idx iteration : Z) (ex : F) : res (mat * F * F * F * F) :=
  let* x := mget T idx idx in
  let* (y, w) := (if l <? idx then
      let* y := mget T (idx - 1) (idx - 1) in
      let* a := mget T idx (idx - 1) in
      let* b := mget T (idx - 1) idx in
      Ok (y, (a * b)%f)
    else Ok (fzero, fzero)) in
  let* (T, x, y, w, ex) := (if iteration =? 10 then
      let ex := (ex + x)%f in
      let* T := sc_subDiag T idx x in
      let* a := mget T idx (idx - 1) in
      let* b := mget T (idx - 1) (idx - 2) in
      let s := (fabs a + fabs b)%f in
      Ok (T, (flit (3 # 4) * s)%f, (flit (3 # 4) * s)%f, (flit (-7 # 16) * s * s)%f, ex)
    else Ok (T, x, y, w, ex)) in
  if iteration =? 30 then
    let s := ((y - x) / flit 2)%f in
    let s := (s * s + w)%f in
    if fgt s fzero then
      let s := fsqrt s in
      let s := if flt y x then fneg s else s in
      let s := (x - w / ((y - x) / flit 2 + s))%f in
      let* T := sc_subDiag T idx s in
      let v := flit (964 # 1000) in
      Ok (T, v, v, v, (ex + s)%f)
    else Ok (T, x, y, w, ex)
  else Ok (T, x, y, w, ex).

(** initQRStep: schur_transformer.go:281-308; turn k of the loop has
    im = iu - 2 - k.  Returns im and hVec. *)
Definition sc_init (T : mat) (il iu : Z) (x y w : F) : res (Z * (F * F * F)) :=
  let* (_, r) := for_brk 0 (iu - 1 - il) (fun _ '(im, _) =>
    let* z := mget T im im in
    let r := (x - z)%f in
    let s := (y - z)%f in
    let* a := mget T (im + 1) im in
    let* b := mget T im (im + 1) in
    let h0 := ((r * s - w) / a + b)%f in
    let* d := mget T (im + 1) (im + 1) in
    let h1 := (d - z - r - s)%f in
    let* h2 := mget T (im + 2) (im + 1) in
    if im =? il then Ok (true, (im, (h0, h1, h2))) else
    let* e := mget T im (im - 1) in
    let lhs := (fabs e * (fabs h1 + fabs h2))%f in
    let* f := mget T (im - 1) (im - 1) in
    let* d := mget T (im + 1) (im + 1) in
    let rhs := (fabs h0 * (fabs f + fabs z + fabs d))%f in
    if flt lhs (doubleeps * rhs)%f then Ok (true, (im, (h0, h1, h2)))
    else Ok (false, (im - 1, (h0, h1, h2)))) (iu - 2, (fzero, fzero, fzero)) in
  Ok r.

(** Row modification: schur_transformer.go:357-365. *)
Definition sc_rows (n k : Z) (notlast : bool) (q r x y z : F) (T : mat) : res mat :=
  for_ k n (fun j T =>
    let* a := mget T k j in
    let* b := mget T (k + 1) j in
    let p := (a + q * b)%f in
    let* (p, T) := (if notlast then
        let* c := mget T (k + 2) j in
        let p := (p + r * c)%f in
        let* c := mget T (k + 2) j in
        let* T := mset T (k + 2) j (c - p * z)%f in
        Ok (p, T)
      else Ok (p, T)) in
    let* a := mget T k j in
    let* T := mset T k j (a - p * x)%f in
    let* b := mget T (k + 1) j in
    mset T (k + 1) j (b - p * y)%f) T.

(** Column modification of rows 0 .. hi-1 of a table: schur_transformer.go:368-376
    (T) and 380-388 (P). *)
Definition sc_cols (hi k : Z) (notlast : bool) (q r x y z : F) (M : mat) : res mat :=
  for_ 0 hi (fun i M =>
    let* a := mget M i k in
    let* b := mget M i (k + 1) in
    let p := (x * a + y * b)%f in
    let* (p, M) := (if notlast then
        let* c := mget M i (k + 2) in
        let p := (p + z * c)%f in
        let* c := mget M i (k + 2) in
        let* M := mset M i (k + 2) (c - p * r)%f in
        Ok (p, M)
      else Ok (p, M)) in
    let* a := mget M i k in
    let* M := mset M i k (a - p)%f in
    let* b := mget M i (k + 1) in
    mset M i (k + 1) (b - p * q)%f) M.

(** One turn of the loop of performDoubleQRStep: schur_transformer.go:320-390.
    p, q, r are assigned anew at the start of every turn but the first, where
    they are hVec. *)
Definition sc_chase (n il im iu : Z) (hVec : F * F * F) (k : Z) (s : mat * mat) : res (mat * mat) :=
  let '(T, P) := s in
  let notlast := negb (k =? iu - 1) in
  let* (skip, (p, q, r), x) := (if k =? im then Ok (false, hVec, fzero) else
      let* p := mget T k (k - 1) in
      let* q := mget T (k + 1) (k - 1) in
      let* r := (if notlast then mget T (k + 2) (k - 1) else Ok fzero) in
      let x := (fabs p + fabs q + fabs r)%f in
      if equalsWithError x fzero doubleeps then Ok (true, (p, q, r), x)
      else Ok (false, ((p / x)%f, (q / x)%f, (r / x)%f), x)) in
  if (skip : bool) then Ok (T, P) else
  let s := fsqrt (p * p + q * q + r * r)%f in
  let s := if flt p fzero then fneg s else s in
  if feq s fzero then Ok (T, P) else
  let* T := (if negb (k =? im) then mset T k (k - 1) (fneg s * x)%f
             else if negb (il =? im) then let* a := mget T k (k - 1) in mset T k (k - 1) (fneg a)
             else Ok T) in
  let p := (p + s)%f in
  let x := (p / s)%f in
  let y := (q / s)%f in
  let z := (r / s)%f in
  let q := (q / p)%f in
  let r := (r / p)%f in
  let* T := sc_rows n k notlast q r x y z T in
  let* T := sc_cols (Z.min iu (k + 3) + 1) k notlast q r x y z T in
  let* P := sc_cols n k notlast q r x y z P in
  Ok (T, P).

(** performDoubleQRStep: schur_transformer.go:313-399. *)
Definition sc_double (il im iu : Z) (hVec : F * F * F) (s : mat * mat) : res (mat * mat) :=
  let n := len (fst s) in
  let* (T, P) := for_ im iu (sc_chase n il im iu hVec) s in
  let* T := for_ (im + 2) (iu + 1) (fun i T =>
    let* T := mset T i (i - 2) fzero in
    if im + 2 <? i then mset T i (i - 3) fzero else Ok T) T in
  Ok (T, P).

(** The three modifications for two roots, [z = M[..][iu-1]]:
    schur_transformer.go:159-177. *)
Definition sc_rotRows (n iu : Z) (p q : F) (T : mat) : res mat :=
  for_ (iu - 1) n (fun j T =>
    let* z := mget T (iu - 1) j in
    let* a := mget T iu j in
    let* T := mset T (iu - 1) j (q * z + p * a)%f in
    let* a := mget T iu j in
    mset T iu j (q * a - p * z)%f) T.
Definition sc_rotCols (hi iu : Z) (p q : F) (M : mat) : res mat :=
  for_ 0 hi (fun i M =>
    let* z := mget M i (iu - 1) in
    let* a := mget M i iu in
    let* M := mset M i (iu - 1) (q * z + p * a)%f in
    let* a := mget M i iu in
    mset M i iu (q * a - p * z)%f) M.

(** Two roots found: schur_transformer.go:136-178. *)
Definition sc_two (n iu : Z) (ex : F) (s : mat * mat) : res (mat * mat) :=
  let '(T, P) := s in
  let* a := mget T (iu - 1) (iu - 1) in
  let* b := mget T iu iu in
  let p := ((a - b) / flit 2)%f in
  let* c := mget T iu (iu - 1) in
  let* d := mget T (iu - 1) iu in
  let q := (p * p + c * d)%f in
  let* b := mget T iu iu in
  let* T := mset T iu iu (b + ex)%f in
  let* a := mget T (iu - 1) (iu - 1) in
  let* T := mset T (iu - 1) (iu - 1) (a + ex)%f in
  if fge q fzero then
    let z := fsqrt (fabs q) in
    let z := if fge p fzero then (p + z)%f else (p - z)%f in
    let* x := mget T iu (iu - 1) in
    let s := (fabs x + fabs z)%f in
    let p := (x / s)%f in
    let q := (z / s)%f in
    let r := fsqrt (p * p + q * q)%f in
    let p := (p / r)%f in
    let q := (q / r)%f in
    let* T := sc_rotRows n iu p q T in
    let* T := sc_rotCols (iu + 1) iu p q T in
    let* P := sc_rotCols n iu p q P in
    Ok (T, P)
  else Ok (T, P).

(** One turn of the outer loop: schur_transformer.go:125-197, with
    max_iter_st = 100.  The state is (T, P, exShift, iteration, iu). *)
Definition sc_turn (n : Z) (norm : F) (st : mat * mat * F * Z * Z) : res (mat * mat * F * Z * Z) :=
  let '(T, P, ex, iteration, iu) := st in
  let* il := sc_find T iu norm in
  if il =? iu then
    let* x := mget T iu iu in
    let* T := mset T iu iu (x + ex)%f in
    Ok (T, P, ex, 0, iu - 1)
  else if il =? iu - 1 then
    let* (T, P) := sc_two n iu ex (T, P) in
    Ok (T, P, ex, 0, iu - 2)
  else
    let* (T, x, y, w, ex) := sc_shift T il iu iteration ex in
    let iteration := iteration + 1 in
    if 100 <? iteration then Panic EMaxIter else
    let* (im, hVec) := sc_init T il iu x y w in
    let* (T, P) := sc_double il im iu hVec (T, P) in
    Ok (T, P, ex, iteration, iu).

(** transform: schur_transformer.go:113-198.  [fuel] bounds the number of turns
    of the outer loop; SchurFacts.v shows 101*n + 1 is always enough. *)
Definition sc_transform (fuel : nat) (T P : mat) : res (mat * mat) :=
  let n := len T in
  let* norm := sc_norm T in
  let* (T, P, _, _, _) := while_ fuel (fun st => 0 <=? snd st) (sc_turn n norm) (T, P, fzero, 0, n - 1) in
  Ok (T, P).

(** NewSchurTransformer: schur_transformer.go:44-60. *)
Definition NewSchurTransformerFuel (fuel : nat) (matrix : RealMatrix) : res ScD :=
  let* sq := IsSquare matrix in
  if negb sq then let* _ := m_cols matrix in Err ENonSquare else
  let* tr := NewHessenbergTransformer matrix in
  let* (h, tr) := hs_H tr in
  let* T := m_Data h in
  let* (p, tr) := hs_P tr in
  let* P := m_Data p in
  let* (T, P) := sc_transform fuel T P in
  Ok (mkScD P T None None None).
Definition NewSchurTransformer (matrix : RealMatrix) : res ScD :=
  NewSchurTransformerFuel (Z.to_nat (101 * m_rows matrix + 1)) matrix.

(** P: schur_transformer.go:66-76. *)
Definition sc_getP (d : ScD) : res (RealMatrix * ScD) :=
  match sc_cachedP d with
  | Some p => Ok (p, d)
  | None =>
      let* p := orpanic (NewRealMatrixFromSlices (Some (sc_P d))) in
      Ok (p, mkScD (sc_P d) (sc_T d) (Some p) (sc_cachedT d) (sc_cachedPt d))
  end.

(** PT: schur_transformer.go:82-89. *)
Definition sc_getPT (d : ScD) : res (RealMatrix * ScD) :=
  match sc_cachedPt d with
  | Some p => Ok (p, d)
  | None =>
      let* (p, d) := sc_getP d in
      let* t := m_Transpose p in
      Ok (t, mkScD (sc_P d) (sc_T d) (sc_cachedP d) (sc_cachedT d) (Some t))
  end.

(** T: schur_transformer.go:96-108. *)
Definition sc_getT (d : ScD) : res (RealMatrix * ScD) :=
  match sc_cachedT d with
  | Some p => Ok (p, d)
  | None =>
      let* p := orpanic (NewRealMatrixFromSlices (Some (sc_T d))) in
      Ok (p, mkScD (sc_P d) (sc_T d) (sc_cachedP d) (Some p) (sc_cachedPt d))
  end.
End Schur.

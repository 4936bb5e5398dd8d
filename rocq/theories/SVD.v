(** Model of /repo/singular_value_decomposition.go.  [int(math.Min(float64(a),
    float64(b)))] and the same with Max are [Z.min a b], [Z.max a b] (exact
    below 2^53). *)
From Coq Require Import ZArith QArith List Lia Bool.
From Verif Require Import Base Scalar Vector Matrix Array2D BlockM Diagonal RealMatrixM Schur.
Import ListNotations.
Open Scope Z_scope.

Section SVD.
Context {O : Ops}.

(** eps_svd, tiny_svd: singular_value_decomposition.go:23-26.  The decimal
    literals are written there with 16 and 17 digits; the nearest float64 are
    2^-52 and 2^-966, which are taken here also over other scalars. *)
Definition eps_svd : F := flit (1 # 2 ^ 52).
Definition tiny_svd : F := flit (1 # 2 ^ 966).

(** SingularValueDecomposition: singular_value_decomposition.go:38-44; a nil
    cache is [None]. *)
Record SvD := mkSvD {
  sv_s : vec;
  sv_m : Z;
  sv_n : Z;
  sv_transposed : bool;
  sv_cachedU : RealMatrix;
  sv_cachedUt : option RealMatrix;
  sv_cachedS : option RealMatrix;
  sv_cachedV : RealMatrix;
  sv_cachedVt : option RealMatrix;
  sv_tol : F
}.

(** ** Reduction to bidiagonal form *)
(** The k-th column transformation: singular_value_decomposition.go:80-96. *)
Definition sv_col (m k : Z) (A : mat) (s : vec) : res (mat * vec) :=
  let* s := zset s k fzero in
  let* s := for_ k m (fun i s =>
    let* x := zget s k in let* a := mget A i k in zset s k (fhypot x a)) s in
  let* x := zget s k in
  let* (A, s) := (if fne x fzero then
      let* a := mget A k k in
      let* s := (if flt a fzero then let* x := zget s k in zset s k (fneg x) else Ok s) in
      let* A := for_ k m (fun i A =>
        let* a := mget A i k in let* x := zget s k in mset A i k (a / x)%f) A in
      let* a := mget A k k in
      let* A := mset A k k (a + fone)%f in
      Ok (A, s)
    else Ok (A, s)) in
  let* x := zget s k in
  let* s := zset s k (fneg x) in
  Ok (A, s).

(** Its application to the columns right of k, and row k into e:
    singular_value_decomposition.go:98-113. *)
Definition sv_colapply (m n k nct : Z) (s : vec) (A : mat) (e : vec) : res (mat * vec) :=
  for_ (k + 1) n (fun j '(A, e) =>
    let* b := (if k <? nct then let* x := zget s k in Ok (fne x fzero) else Ok false) in
    let* A := (if (b : bool) then
        let* t := for_ k m (fun i t =>
          let* x := mget A i k in let* y := mget A i j in Ok (t + x * y)%f) fzero in
        let* d := mget A k k in
        let t := (fneg t / d)%f in
        for_ k m (fun i A =>
          let* y := mget A i j in let* x := mget A i k in mset A i j (y + t * x)%f) A
      else Ok A) in
    let* x := mget A k j in
    let* e := zset e j x in
    Ok (A, e)) (A, e).

(** The k-th row transformation in e: singular_value_decomposition.go:122-138. *)
Definition sv_row (n k : Z) (e : vec) : res vec :=
  let* e := zset e k fzero in
  let* e := for_ (k + 1) n (fun i e =>
    let* x := zget e k in let* y := zget e i in zset e k (fhypot x y)) e in
  let* x := zget e k in
  let* e := (if fne x fzero then
      let* y := zget e (k + 1) in
      let* e := (if flt y fzero then let* x := zget e k in zset e k (fneg x) else Ok e) in
      let* e := for_ (k + 1) n (fun i e =>
        let* y := zget e i in let* x := zget e k in zset e i (y / x)%f) e in
      let* y := zget e (k + 1) in
      zset e (k + 1) (y + fone)%f
    else Ok e) in
  let* x := zget e k in
  zset e k (fneg x).

(** Its application to the rows below k: singular_value_decomposition.go:139-156. *)
Definition sv_rowapply (m n k : Z) (e work : vec) (A : mat) : res (mat * vec) :=
  let* b := (if k + 1 <? m then let* x := zget e k in Ok (fne x fzero) else Ok false) in
  if (b : bool) then
    let* work := for_ (k + 1) m (fun i work => zset work i fzero) work in
    let* work := for_ (k + 1) n (fun j work =>
      for_ (k + 1) m (fun i work =>
        let* w := zget work i in let* y := zget e j in let* a := mget A i j in
        zset work i (w + y * a)%f) work) work in
    let* A := for_ (k + 1) n (fun j A =>
      let* y := zget e j in
      let* y1 := zget e (k + 1) in
      let t := (fneg y / y1)%f in
      for_ (k + 1) m (fun i A =>
        let* a := mget A i j in let* w := zget work i in mset A i j (a + t * w)%f) A) A in
    Ok (A, work)
  else Ok (A, work).

(** One turn of the loop: singular_value_decomposition.go:78-164.  The state is
    (A, s, e, work, U, V). *)
Definition sv_reduce (m n nct nrt k : Z) (st : mat * vec * vec * vec * mat * mat)
  : res (mat * vec * vec * vec * mat * mat) :=
  let '(A, s, e, work, U, V) := st in
  let* (A, s) := (if k <? nct then sv_col m k A s else Ok (A, s)) in
  let* (A, e) := sv_colapply m n k nct s A e in
  let* U := (if k <? nct then
      for_ k m (fun i U => let* a := mget A i k in mset U i k a) U
    else Ok U) in
  if k <? nrt then
    let* e := sv_row n k e in
    let* (A, work) := sv_rowapply m n k e work A in
    let* V := for_ (k + 1) n (fun i V => let* x := zget e i in mset V i k x) V in
    Ok (A, s, e, work, U, V)
  else Ok (A, s, e, work, U, V).

(** The final bidiagonal matrix: singular_value_decomposition.go:165-176, p = n. *)
Definition sv_final (m n nct nrt : Z) (A : mat) (s e : vec) : res (vec * vec) :=
  let* s := (if nct <? n then let* a := mget A nct nct in zset s nct a else Ok s) in
  let* s := (if m <? n then zset s (n - 1) fzero else Ok s) in
  let* e := (if nrt + 1 <? n then let* a := mget A nrt (n - 1) in zset e nrt a else Ok e) in
  let* e := zset e (n - 1) fzero in
  Ok (s, e).

(** Generate U: singular_value_decomposition.go:178-210. *)
Definition sv_genU (m n nct : Z) (s : vec) (U : mat) : res mat :=
  let* U := for_ nct n (fun j U =>
    let* U := for_ 0 m (fun i U => mset U i j fzero) U in
    mset U j j fone) U in
  for_down (nct - 1) 0 (fun k U =>
    let* x := zget s k in
    if fne x fzero then
      let* U := for_ (k + 1) n (fun j U =>
        let* t := for_ k m (fun i t =>
          let* x := mget U i k in let* y := mget U i j in Ok (t + x * y)%f) fzero in
        let* d := mget U k k in
        let t := (fneg t / d)%f in
        for_ k m (fun i U =>
          let* y := mget U i j in let* x := mget U i k in mset U i j (y + t * x)%f) U) U in
      let* U := for_ k m (fun i U => let* x := mget U i k in mset U i k (fneg x)) U in
      let* x := mget U k k in
      let* U := mset U k k (fone + x)%f in
      for_ 0 (k - 1) (fun i U => mset U i k fzero) U
    else
      let* U := for_ 0 m (fun i U => mset U i k fzero) U in
      mset U k k fone) U.

(** Generate V: singular_value_decomposition.go:212-230. *)
Definition sv_genV (n nrt : Z) (e : vec) (V : mat) : res mat :=
  for_down (n - 1) 0 (fun k V =>
    let* b := (if k <? nrt then let* x := zget e k in Ok (fne x fzero) else Ok false) in
    let* V := (if (b : bool) then
        for_ (k + 1) n (fun j V =>
          let* t := for_ (k + 1) n (fun i t =>
            let* x := mget V i k in let* y := mget V i j in Ok (t + x * y)%f) fzero in
          let* d := mget V (k + 1) k in
          let t := (fneg t / d)%f in
          for_ (k + 1) n (fun i V =>
            let* y := mget V i j in let* x := mget V i k in mset V i j (y + t * x)%f) V) V
      else Ok V) in
    let* V := for_ 0 n (fun i V => mset V i k fzero) V in
    mset V k k fone) V.

(** ** The iteration *)
(** Columns a and b of the first [hi] rows rotated:
    singular_value_decomposition.go:312-316, 333-337, 377-381, 391-395. *)
Definition sv_rot (hi a b : Z) (cs sn : F) (M : mat) : res mat :=
  for_ 0 hi (fun i M =>
    let* x := mget M i a in
    let* y := mget M i b in
    let t := (cs * x + sn * y)%f in
    let* x := mget M i a in
    let* y := mget M i b in
    let* M := mset M i b (fneg sn * x + cs * y)%f in
    mset M i a t) M.
(** Columns k and k+1 exchanged: singular_value_decomposition.go:425-429, 432-436. *)
Definition sv_swap (hi k : Z) (M : mat) : res mat :=
  for_ 0 hi (fun i M =>
    let* t := mget M i (k + 1) in
    let* x := mget M i k in
    let* M := mset M i (k + 1) x in
    mset M i k t) M.

(** The scan for a negligible e[k]: singular_value_decomposition.go:245-259; turn
    c has k = p - 2 - c.  Returns e and k (-1 when there is none). *)
Definition sv_scanE (p : Z) (s e : vec) : res (vec * Z) :=
  let* (_, r) := for_brk 0 (p - 1) (fun _ '(e, k) =>
    let* x := zget s k in
    let* y := zget s (k + 1) in
    let threshold := (tiny_svd + eps_svd * (fabs x + fabs y))%f in
    let* z := zget e k in
    if negb (fgt (fabs z) threshold) then let* e := zset e k fzero in Ok (true, (e, k))
    else Ok (false, (e, k - 1))) (e, p - 2) in
  Ok r.
(** The scan for a negligible s[ks]: singular_value_decomposition.go:264-284; turn
    c has ks = p - 1 - c. *)
Definition sv_scanS (p k : Z) (s e : vec) : res (vec * Z) :=
  let* (_, r) := for_brk 0 (p - k) (fun _ '(s, ks) =>
    if ks =? k then Ok (true, (s, ks)) else
    let* t := (if negb (ks =? p) then let* x := zget e ks in Ok (fabs x) else Ok fzero) in
    let* t := (if negb (ks =? k + 1) then let* x := zget e (ks - 1) in Ok (t + fabs x)%f else Ok t) in
    let* x := zget s ks in
    if fle (fabs x) (tiny_svd + eps_svd * t)%f then let* s := zset s ks fzero in Ok (true, (s, ks))
    else Ok (false, (s, ks - 1))) (s, p - 1) in
  Ok r.

(** case 1: singular_value_decomposition.go:298-318; turn c has j = p - 2 - c. *)
Definition sv_case1 (n p k : Z) (s e : vec) (V : mat) : res (vec * vec * mat) :=
  let* f := zget e (p - 2) in
  let* e := zset e (p - 2) fzero in
  let* (s, e, V, _) := for_down (p - 2) k (fun j '(s, e, V, f) =>
    let* x := zget s j in
    let t := fhypot x f in
    let* x := zget s j in
    let cs := (x / t)%f in
    let sn := (f / t)%f in
    let* s := zset s j t in
    let* (e, f) := (if negb (j =? k) then
        let* y := zget e (j - 1) in
        let f := (fneg sn * y)%f in
        let* y := zget e (j - 1) in
        let* e := zset e (j - 1) (cs * y)%f in
        Ok (e, f)
      else Ok (e, f)) in
    let* V := sv_rot n j (p - 1) cs sn V in
    Ok (s, e, V, f)) (s, e, V, f) in
  Ok (s, e, V).

(** case 2: singular_value_decomposition.go:321-339. *)
Definition sv_case2 (m p k : Z) (s e : vec) (U : mat) : res (vec * vec * mat) :=
  let* f := zget e (k - 1) in
  let* e := zset e (k - 1) fzero in
  let* (s, e, U, _) := for_ k p (fun j '(s, e, U, f) =>
    let* x := zget s j in
    let t := fhypot x f in
    let* x := zget s j in
    let cs := (x / t)%f in
    let sn := (f / t)%f in
    let* s := zset s j t in
    let* y := zget e j in
    let f := (fneg sn * y)%f in
    let* y := zget e j in
    let* e := zset e j (cs * y)%f in
    let* U := sv_rot m j (k - 1) cs sn U in
    Ok (s, e, U, f)) (s, e, U, f) in
  Ok (s, e, U).

(** The shift: singular_value_decomposition.go:344-363; returns f and g. *)
Definition sv_shift (p k : Z) (s e : vec) : res (F * F) :=
  let* a := zget s (p - 1) in
  let* b := zget s (p - 2) in
  let* c := zget e (p - 2) in
  let* d := zget s k in
  let* h := zget e k in
  let scale := fmax (fmax (fmax (fmax (fabs a) (fabs b)) (fabs c)) (fabs d)) (fabs h) in
  let sp := (a / scale)%f in
  let spm1 := (b / scale)%f in
  let epm1 := (c / scale)%f in
  let sk := (d / scale)%f in
  let ek := (h / scale)%f in
  let b := (((spm1 + sp) * (spm1 - sp) + epm1 * epm1) / flit 2)%f in
  let c := ((sp * epm1) * (sp * epm1))%f in
  let shift := (if fne b fzero || fne c fzero then
      let shift := fsqrt (b * b + c)%f in
      let shift := if flt b fzero then fneg shift else shift in
      (c / (b + shift))%f
    else fzero) in
  Ok (((sk + sp) * (sk - sp) + shift)%f, (sk * ek)%f).

(** One turn of the chase: singular_value_decomposition.go:364-397. *)
Definition sv_chase (m n k j : Z) (st : vec * vec * mat * mat * F * F) : res (vec * vec * mat * mat * F * F) :=
  let '(s, e, U, V, f, g) := st in
  let t := fhypot f g in
  let cs := (f / t)%f in
  let sn := (g / t)%f in
  let* e := (if negb (j =? k) then zset e (j - 1) t else Ok e) in
  let* x := zget s j in
  let* y := zget e j in
  let f := (cs * x + sn * y)%f in
  let* y := zget e j in
  let* x := zget s j in
  let* e := zset e j (cs * y - sn * x)%f in
  let* x := zget s (j + 1) in
  let g := (sn * x)%f in
  let* x := zget s (j + 1) in
  let* s := zset s (j + 1) (cs * x)%f in
  let* V := sv_rot n j (j + 1) cs sn V in
  let t := fhypot f g in
  let cs := (f / t)%f in
  let sn := (g / t)%f in
  let* s := zset s j t in
  let* y := zget e j in
  let* x := zget s (j + 1) in
  let f := (cs * y + sn * x)%f in
  let* y := zget e j in
  let* x := zget s (j + 1) in
  let* s := zset s (j + 1) (fneg sn * y + cs * x)%f in
  let* y := zget e (j + 1) in
  let g := (sn * y)%f in
  let* y := zget e (j + 1) in
  let* e := zset e (j + 1) (cs * y)%f in
  let* U := (if j <? m - 1 then sv_rot m j (j + 1) cs sn U else Ok U) in
  Ok (s, e, U, V, f, g).

(** case 3: singular_value_decomposition.go:342-399. *)
Definition sv_case3 (m n p k : Z) (s e : vec) (U V : mat) : res (vec * vec * mat * mat) :=
  let* (f, g) := sv_shift p k s e in
  let* (s, e, U, V, f, g) := for_ k (p - 1) (sv_chase m n k) (s, e, U, V, f, g) in
  let* e := zset e (p - 2) f in
  Ok (s, e, U, V).

(** Convergence: singular_value_decomposition.go:402-439; pp = n - 1. *)
Definition sv_case4 (m n k : Z) (s : vec) (U V : mat) : res (vec * mat * mat) :=
  let pp := n - 1 in
  let* x := zget s k in
  let* (s, V) := (if fle x fzero then
      let* x := zget s k in
      let* s := (if flt x fzero then let* x := zget s k in zset s k (fneg x) else zset s k fzero) in
      let* V := for_ 0 (pp + 1) (fun i V => let* x := mget V i k in mset V i k (fneg x)) V in
      Ok (s, V)
    else Ok (s, V)) in
  let* (_, r) := for_brk k pp (fun k '(s, U, V) =>
    let* x := zget s k in
    let* y := zget s (k + 1) in
    if fge x y then Ok (true, (s, U, V)) else
    let* t := zget s k in
    let* y := zget s (k + 1) in
    let* s := zset s k y in
    let* s := zset s (k + 1) t in
    let* V := (if k <? n - 1 then sv_swap n k V else Ok V) in
    let* U := (if k <? m - 1 then sv_swap m k U else Ok U) in
    Ok (false, (s, U, V))) (s, U, V) in
  Ok r.

(** One turn of the main loop: singular_value_decomposition.go:234-444.  The
    state is (s, e, U, V, p). *)
Definition sv_turn (m n : Z) (st : vec * vec * mat * mat * Z) : res (vec * vec * mat * mat * Z) :=
  let '(s, e, U, V, p) := st in
  let* (e, k) := sv_scanE p s e in
  if k =? p - 2 then
    let* (s, U, V) := sv_case4 m n (k + 1) s U V in
    Ok (s, e, U, V, p - 1)
  else
    let* (s, ks) := sv_scanS p k s e in
    if ks =? k then
      let* (s, e, U, V) := sv_case3 m n p (k + 1) s e U V in Ok (s, e, U, V, p)
    else if ks =? p - 1 then
      let* (s, e, V) := sv_case1 n p (k + 1) s e V in Ok (s, e, U, V, p)
    else
      let* (s, e, U) := sv_case2 m p (ks + 1) s e U in Ok (s, e, U, V, p).

(** NewSingularValueDecomposition: singular_value_decomposition.go:46-470.  The
    main loop has no bound; [fuel] bounds the number of its turns here, and
    running out of it is [Panic EFuel], which is not an outcome of the code. *)
Definition NewSingularValueDecomposition (fuel : nat) (matrix : RealMatrix) : res SvD :=
  let* cols := m_cols matrix in
  let rows := m_rows matrix in
  let transposed := rows <? cols in
  let* A := (if transposed then let* t := m_Transpose matrix in m_Data t else m_Data matrix) in
  let m := Z.max rows cols in
  let n := Z.min rows cols in
  let* s := make fzero n in
  let* U := make2 m n in
  let* V := make2 n n in
  let* e := make fzero n in
  let* work := make fzero m in
  let nct := Z.min (m - 1) n in
  let nrt := Z.max 0 (n - 2) in
  let* (A, s, e, work, U, V) := for_ 0 (Z.max nct nrt) (sv_reduce m n nct nrt) (A, s, e, work, U, V) in
  let* (s, e) := sv_final m n nct nrt A s e in
  let* U := sv_genU m n nct s U in
  let* V := sv_genV n nrt e V in
  let* (s, e, U, V, _) := while_ fuel (fun st => 0 <? snd st) (sv_turn m n) (s, e, U, V, n) in
  let* s0 := zget s 0 in
  let tol := fmax (flit (inject_Z m) * s0 * eps_svd)%f (fsqrt doubleeps) in
  let* (u, v) := (if negb transposed then
      let* u := NewRealMatrixFromSlices (Some U) in
      let* v := NewRealMatrixFromSlices (Some V) in Ok (u, v)
    else
      let* u := NewRealMatrixFromSlices (Some V) in
      let* v := NewRealMatrixFromSlices (Some U) in Ok (u, v)) in
  Ok (mkSvD s m n transposed u None None v None tol).

(** ** Accessors *)
(** U: singular_value_decomposition.go:476-480; V: singular_value_decomposition.go:524-527. *)
Definition sv_U (d : SvD) : RealMatrix := sv_cachedU d.
Definition sv_V (d : SvD) : RealMatrix := sv_cachedV d.

(** UT: singular_value_decomposition.go:486-492. *)
Definition sv_UT (d : SvD) : res (RealMatrix * SvD) :=
  match sv_cachedUt d with
  | Some t => Ok (t, d)
  | None =>
      let* t := m_Transpose (sv_U d) in
      Ok (t, mkSvD (sv_s d) (sv_m d) (sv_n d) (sv_transposed d) (sv_cachedU d) (Some t) (sv_cachedS d) (sv_cachedV d) (sv_cachedVt d) (sv_tol d))
  end.

(** VT: singular_value_decomposition.go:533-539. *)
Definition sv_VT (d : SvD) : res (RealMatrix * SvD) :=
  match sv_cachedVt d with
  | Some t => Ok (t, d)
  | None =>
      let* t := m_Transpose (sv_V d) in
      Ok (t, mkSvD (sv_s d) (sv_m d) (sv_n d) (sv_transposed d) (sv_cachedU d) (sv_cachedUt d) (sv_cachedS d) (sv_cachedV d) (Some t) (sv_tol d))
  end.

(** S: singular_value_decomposition.go:499-509. *)
Definition sv_S (d : SvD) : res (RealMatrix * SvD) :=
  match sv_cachedS d with
  | Some t => Ok (t, d)
  | None =>
      let* t := orpanic (NewRealDiagonalMatrix (Some (sv_s d))) in
      Ok (t, mkSvD (sv_s d) (sv_m d) (sv_n d) (sv_transposed d) (sv_cachedU d) (sv_cachedUt d) (Some t) (sv_cachedV d) (sv_cachedVt d) (sv_tol d))
  end.

(** SingularValues: singular_value_decomposition.go:516-518. *)
Definition sv_SingularValues (d : SvD) : vec := sv_s d.

(** Covariance: singular_value_decomposition.go:541-586.  The visitor fills
    [data], which is the state of the walk. *)
Definition sv_covVisitor (s : vec) : MatVisitor mat :=
  mkMatVisitor (fun _ _ _ _ _ _ data => data)
    (fun row column value data =>
      let* x := zget s row in
      let* data := mset data row column (value / x)%f in Ok (value, data))
    (fun _ => fzero).
Definition sv_Covariance (d : SvD) (minSingularValue : F) : res (RealMatrix * SvD) :=
  let p := len (sv_s d) in
  let* (_, dimension) := for_brk 0 p (fun i _ =>
    let* x := zget (sv_s d) i in
    if fge x minSingularValue then Ok (false, i + 1) else Ok (true, i)) 0 in
  if dimension =? 0 then let* _ := zget (sv_s d) 0 in Panic ETooLarge else
  let* data := make2 dimension p in
  let* (vt, d) := sv_VT d in
  let* (data, _) := m_WalkBounded OptimizedOrder vt (sv_covVisitor (sv_s d)) 0 (dimension - 1) 0 (p - 1) data in
  let* jv := orpanic (NewArray2DRowRealMatrixFromSlices (Some data) true) in
  let* t := m_Transpose (MArr jv) in
  let* r := m_Multiply t (MArr jv) in
  Ok (r, d).

(** Norm, ConditionNumber, InverseConditionNumber:
    singular_value_decomposition.go:594-611. *)
Definition sv_Norm (d : SvD) : res F := zget (sv_s d) 0.
Definition sv_ConditionNumber (d : SvD) : res F :=
  let* x := zget (sv_s d) 0 in let* y := zget (sv_s d) (sv_n d - 1) in Ok (x / y)%f.
Definition sv_InverseConditionNumber (d : SvD) : res F :=
  let* y := zget (sv_s d) (sv_n d - 1) in let* x := zget (sv_s d) 0 in Ok (y / x)%f.

(** Rank: singular_value_decomposition.go:620-628. *)
Definition sv_Rank (d : SvD) : res Z :=
  for_ 0 (len (sv_s d)) (fun i r =>
    let* x := zget (sv_s d) i in Ok (if fgt x (sv_tol d) then r + 1 else r)) 0.

(** newSVDecompositionSolver: singular_value_decomposition.go:633-664; the
    solver is its pseudo-inverse, and the decomposition. *)
Definition sv_Solver (d : SvD) : res (RealMatrix * SvD) :=
  let* (ut, d) := sv_UT d in
  let* suT := m_Data ut in
  let* suT := for_ 0 (len (sv_s d)) (fun i suT =>
    let* x := zget (sv_s d) i in
    let a := if fgt x (sv_tol d) then (fone / x)%f else fzero in
    let* row := zget suT i in
    for_ 0 (len row) (fun j suT => let* y := mget suT i j in mset suT i j (y * a)%f) suT) suT in
  let* mt := orpanic (NewArray2DRowRealMatrixFromSlices (Some suT) true) in
  let* pinv := m_Multiply (sv_V d) (MArr mt) in
  Ok (pinv, d).

(** The methods of the solver: singular_value_decomposition.go:666-680. *)
Definition svs_SolveVector (pinv : RealMatrix) (b : RealVector) : res RealVector := m_OperateVector pinv b.
Definition svs_SolveMatrix (pinv b : RealMatrix) : res RealMatrix := m_Multiply pinv b.
Definition svs_IsNonSingular (d : SvD) : res bool := let* r := sv_Rank d in Ok (r =? sv_m d).
Definition svs_Inverse (pinv : RealMatrix) : RealMatrix := pinv.
End SVD.

(** Model of /repo/hessenberg_transformer.go. *)
From Coq Require Import ZArith QArith List Lia Bool.
From Verif Require Import Base Scalar Vector Matrix Array2D BlockM Diagonal RealMatrixM.
Import ListNotations.
Open Scope Z_scope.

Section Hess.
Context {O : Ops}.

(** HessenbergTransformer: hessenberg_transformer.go:37-41; a nil cache is
    [None].  P() writes to ort, so ort is part of what it returns. *)
(* [hs_hv] is also HouseholderVectorsRef: hessenberg_transformer.go:165-167. *)
Record HsD := mkHsD {
  hs_hv : mat;
  hs_ort : vec;
  hs_cachedP : option RealMatrix;
  hs_cachedPt : option RealMatrix;
  hs_cachedH : option RealMatrix
}.

(** One turn of transform: hessenberg_transformer.go:178-225. *)
Definition hs_step (n m : Z) (s : mat * vec) : res (mat * vec) :=
  let '(hv, ort) := s in
  let high := n - 1 in
  let* scale := for_ m (high + 1) (fun i scale =>
    let* x := mget hv i (m - 1) in Ok (scale + fabs x)%f) fzero in
  if fulp1 scale fzero then Ok (hv, ort) else
  let* (ort, h) := for_down high m (fun i '(ort, h) =>
    let* x := mget hv i (m - 1) in
    let* ort := zset ort i (x / scale)%f in
    let* a := zget ort i in
    let* b := zget ort i in
    Ok (ort, (h + a * b)%f)) (ort, fzero) in
  let g := fsqrt h in
  let* om := zget ort m in
  let g := if fgt om fzero then (g * fneg fone)%f else g in
  let* om := zget ort m in
  let h := (h - om * g)%f in
  let* om := zget ort m in
  let* ort := zset ort m (om - g)%f in
  let* hv := for_ m n (fun j hv =>
    let* f := for_down high m (fun i f =>
      let* o := zget ort i in
      let* x := mget hv i j in Ok (f + o * x)%f) fzero in
    let f := (f / h)%f in
    for_ m (high + 1) (fun i hv =>
      let* o := zget ort i in
      let* x := mget hv i j in mset hv i j (x - f * o)%f) hv) hv in
  let* hv := for_ 0 (high + 1) (fun i hv =>
    let* f := for_down high m (fun j f =>
      let* o := zget ort j in
      let* x := mget hv i j in Ok (f + o * x)%f) fzero in
    let f := (f / h)%f in
    for_ m (high + 1) (fun j hv =>
      let* o := zget ort j in
      let* x := mget hv i j in mset hv i j (x - f * o)%f) hv) hv in
  let* om := zget ort m in
  let* ort := zset ort m (scale * om)%f in
  let* hv := mset hv m (m - 1) (scale * g)%f in
  Ok (hv, ort).

(** NewHessenbergTransformer, transform: hessenberg_transformer.go:46-61, 173-228. *)
Definition NewHessenbergTransformer (matrix : RealMatrix) : res HsD :=
  let* sq := IsSquare matrix in
  if negb sq then let* _ := m_cols matrix in Err ENonSquare else
  let m := m_rows matrix in
  let* hv := m_Data matrix in
  let* ort := make fzero m in
  let n := len hv in
  let* (hv, ort) := for_ 1 (n - 1) (hs_step n) (hv, ort) in
  Ok (mkHsD hv ort None None None).

(** P: hessenberg_transformer.go:67-113. *)
Definition hs_P (d : HsD) : res (RealMatrix * HsD) :=
  match hs_cachedP d with
  | Some p => Ok (p, d)
  | None =>
      let n := len (hs_hv d) in
      let high := n - 1 in
      let* pa := make2 n n in
      let* pa := for_ 0 n (fun i pa => for_ 0 n (fun j pa => if i =? j then mset pa i j fone else Ok pa) pa) pa in
      let* (pa, ort) := for_down (high - 1) 1 (fun m '(pa, ort) =>
        let* x := mget (hs_hv d) m (m - 1) in
        if feq x fzero then Ok (pa, ort) else
        let* ort := for_ (m + 1) (high + 1) (fun i ort =>
          let* x := mget (hs_hv d) i (m - 1) in zset ort i x) ort in
        let* pa := for_ m (high + 1) (fun j pa =>
          let* g := for_ m (high + 1) (fun i g =>
            let* o := zget ort i in
            let* x := mget pa i j in Ok (g + o * x)%f) fzero in
          let* o := zget ort m in
          let* x := mget (hs_hv d) m (m - 1) in
          let g := (g / o / x)%f in
          for_ m (high + 1) (fun i pa =>
            let* x := mget pa i j in
            let* o := zget ort i in mset pa i j (x + g * o)%f) pa) pa in
        Ok (pa, ort)) (pa, hs_ort d) in
      let* p := orpanic (NewRealMatrixFromSlices (Some pa)) in
      Ok (p, mkHsD (hs_hv d) ort (Some p) (hs_cachedPt d) (hs_cachedH d))
  end.

(** PT: hessenberg_transformer.go:119-126. *)
Definition hs_PT (d : HsD) : res (RealMatrix * HsD) :=
  match hs_cachedPt d with
  | Some p => Ok (p, d)
  | None =>
      let* (p, d) := hs_P d in
      let* t := m_Transpose p in
      Ok (t, mkHsD (hs_hv d) (hs_ort d) (hs_cachedP d) (Some t) (hs_cachedH d))
  end.

(** H: hessenberg_transformer.go:131-158. *)
Definition hs_H (d : HsD) : res (RealMatrix * HsD) :=
  match hs_cachedH d with
  | Some h => Ok (h, d)
  | None =>
      let m := len (hs_hv d) in
      let* h := make2 m m in
      let* h := for_ 0 m (fun i h =>
        let* h := (if 0 <? i then let* x := mget (hs_hv d) i (i - 1) in mset h i (i - 1) x else Ok h) in
        for_ i m (fun j h => let* x := mget (hs_hv d) i j in mset h i j x) h) h in
      let* r := orpanic (NewRealMatrixFromSlices (Some h)) in
      Ok (r, mkHsD (hs_hv d) (hs_ort d) (hs_cachedP d) (hs_cachedPt d) (Some r))
  end.
End Hess.

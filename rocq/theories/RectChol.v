(** Model of /repo/rectangular_cholesky_decomposition.go. *)
From Coq Require Import ZArith QArith List Lia Bool.
From Verif Require Import Base Scalar Vector Matrix Array2D BlockM Diagonal RealMatrixM.
Import ListNotations.
Open Scope Z_scope.

Section RectChol.
Context {O : Ops}.

(** RectangularCholeskyDecomposition: rectangular_cholesky_decomposition.go:25-28. *)
Record RCD := mkRCD { rc_root : RealMatrix; rc_rank : Z }.

(** The largest remaining diagonal element: lines 49-56. *)
Definition rc_pick (order r : Z) (index : list Z) (c : mat) : res Z :=
  for_ (r + 1) order (fun i swapR =>
    let* ii := zget index i in
    let* isr := zget index swapR in
    let* x := mget c ii ii in
    let* y := mget c isr isr in
    Ok (if fgt x y then i else swapR)) r.

(** The exchange of indices and of rows: lines 58-66. *)
Definition rc_swap (r swapR : Z) (index : list Z) (b : mat) : res (list Z * mat) :=
  if negb (swapR =? r) then
    let* tmpIndex := zget index r in
    let* x := zget index swapR in
    let* index := zset index r x in
    let* index := zset index swapR tmpIndex in
    let* tmpRow := zget b r in
    let* y := zget b swapR in
    let* b := zset b r y in
    let* b := zset b swapR tmpRow in
    Ok (index, b)
  else Ok (index, b).

(** The transformation: lines 89-105. *)
Definition rc_transform (order r ir : Z) (index : list Z) (b c : mat) : res (mat * mat) :=
  let* p := mget c ir ir in
  let sqrt := fsqrt p in
  let* b := mset b r r sqrt in
  let inverse := (fone / sqrt)%f in
  let* p := mget c ir ir in
  let inverse2 := (fone / p)%f in
  for_ (r + 1) order (fun i '(b, c) =>
    let* ii := zget index i in
    let* x := mget c ii ir in
    let e := (inverse * x)%f in
    let* b := mset b i r e in
    let* y := mget c ii ii in
    let* x1 := mget c ii ir in
    let* x2 := mget c ii ir in
    let* c := mset c ii ii (y - x1 * x2 * inverse2)%f in
    for_ (r + 1) i (fun j '(b, c) =>
      let* ij := zget index j in
      let* z := mget c ii ij in
      let* bj := mget b j r in
      let f := (z - e * bj)%f in
      let* c := mset c ii ij f in
      let* c := mset c ij ii f in
      Ok (b, c)) (b, c)) (b, c).

(** One turn of the main loop: lines 47-113.  The result says whether the loop
    is left; the last component of the state is r. *)
Definition rc_turn (order : Z) (small : F) (r : Z) (s : list Z * mat * mat * Z) : res (bool * (list Z * mat * mat * Z)) :=
  let '(index, b, c, _) := s in
  let* swapR := rc_pick order r index c in
  let* (index, b) := rc_swap r swapR index b in
  let* ir := zget index r in
  let* p := mget c ir ir in
  if fle p small then
    if r =? 0 then Err ENonPosDef else
    let* _ := for_ r order (fun i _ =>
      let* ii := zget index i in
      let* x := mget c ii ii in
      if flt x (- small)%f then Err ENonPosDef else Ok tt) tt in
    Ok (true, (index, b, c, r))
  else
    let* (b, c) := rc_transform order r ir index b c in
    Ok (false, (index, b, c, r + 1)).

(** NewRectangularCholeskyDecompositionWithThreshold: lines 34-129.  The rows
    of b and the entries of index are filled in one loop there and one after
    the other here; the main loop runs at least once and at most [order] times. *)
Definition NewRectangularCholeskyDecompositionWithThreshold (matrix : RealMatrix) (small : F) : res RCD :=
  let order := m_rows matrix in
  let* c := m_Data matrix in
  let* b := make2 order order in
  let* index := make 0 order in
  let* index := for_ 0 order (fun i index => zset index i i) index in
  let* bs := for_brk 0 (Z.max 1 order) (rc_turn order small) (index, b, c, 0) in
  let '(index, b, c, r) := snd bs in
  let* root := NewRealMatrixWithDimension order r in
  let* root := for_ 0 order (fun i root =>
    for_ 0 r (fun j root =>
      let* ii := zget index i in
      let* x := mget b i j in
      m_SetEntry root ii j x) root) root in
  Ok (mkRCD root r).

(** NewRectangularCholeskyDecomposition: rectangular_cholesky_decomposition.go:30-32. *)
Definition NewRectangularCholeskyDecomposition (matrix : RealMatrix) : res RCD :=
  NewRectangularCholeskyDecompositionWithThreshold matrix fzero.

(** RootMatrix, Rank: rectangular_cholesky_decomposition.go:131-137. *)
Definition rc_RootMatrix (d : RCD) : RealMatrix := rc_root d.
Definition rc_Rank (d : RCD) : Z := rc_rank d.
End RectChol.

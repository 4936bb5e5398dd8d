(** The part of the code where sharing of storage matters, with the storage
    made explicit.  The other model files take slices as values; here a slice
    is a window into an array of the heap, and [copy] and assignments act on
    the heap.  A panic keeps the heap as it is at that moment.
    Integer overflow is not modelled. *)
From Coq Require Import ZArith List Lia Bool.
From Verif Require Import Base Scalar Vector Matrix.
Import ListNotations.
Open Scope Z_scope.

Section Heap.
Context {O : Ops}.

(** A slice header; the nil slice is [nilsl].  [sl_arr] is the index of the
    array in the heap. *)
Record slice := mkSl { sl_arr : Z; sl_off : Z; sl_len : Z; sl_cap : Z }.
Definition nilsl : slice := mkSl (-1) 0 0 0.
Definition isnil (s : slice) : bool := sl_arr s =? -1.

(** The heap: arrays of float64 and arrays of headers of []float64. *)
Record heap := mkHeap { hf : list (list F); hs : list (list slice) }.

(** What a slice holds. *)
Definition window {A} (m : list (list A)) (s : slice) : list A :=
  match zget m (sl_arr s) with
  | Ok a => firstn (Z.to_nat (sl_len s)) (skipn (Z.to_nat (sl_off s)) a)
  | _ => []
  end.
Definition cont (h : heap) (s : slice) : list F := window (hf h) s.
Definition heads (h : heap) (s : slice) : list slice := window (hs h) s.

(** ** Computations on the heap *)
Definition M (A : Type) : Type := heap -> res A * heap.
Definition ret {A} (x : A) : M A := fun h => (Ok x, h).
Definition mpanic {A} (e : err) : M A := fun h => (Panic e, h).
Definition merr {A} (e : err) : M A := fun h => (Err e, h).
Definition mbind {A B} (m : M A) (f : A -> M B) : M B := fun h =>
  match m h with
  | (Ok x, h') => f x h'
  | (Err e, h') => (Err e, h')
  | (Panic e, h') => (Panic e, h')
  end.
(** [if err != nil { panic(err) }] *)
Definition mpan {A} (m : M A) : M A := fun h =>
  match m h with (Err e, h') => (Panic e, h') | r => r end.

Section MLoop.
Context {T : Type}.
Fixpoint mup (n : nat) (i : Z) (body : Z -> T -> M T) (s : T) : M T :=
  match n with
  | 0%nat => ret s
  | Datatypes.S n' => mbind (body i s) (mup n' (i + 1) body)
  end.
(** [for i := lo; i < hi; i++ { body }] *)
Definition mfor (lo hi : Z) (body : Z -> T -> M T) (s : T) : M T :=
  mup (Z.to_nat (hi - lo)) lo body s.
End MLoop.

(** ** Primitives *)
(** A new array of float64 holding [l]: [make([]float64, n)] with zeros, and
    [append([]float64{}, d...)] with the values of d (the capacity append gives
    may be greater; here it is the length). *)
Definition newF (l : list F) : M slice := fun h =>
  (Ok (mkSl (len (hf h)) 0 (len l) (len l)), mkHeap (hf h ++ [l]) (hs h)).
Definition newS (l : list slice) : M slice := fun h =>
  (Ok (mkSl (len (hs h)) 0 (len l) (len l)), mkHeap (hf h) (hs h ++ [l])).
Definition makeF (n : Z) : M slice := if n <? 0 then mpanic ERuntime else newF (repeat fzero (Z.to_nat n)).
Definition makeS (n : Z) : M slice := if n <? 0 then mpanic ERuntime else newS (repeat nilsl (Z.to_nat n)).
Definition appendF (d : slice) : M slice := fun h => newF (cont h d) h.

(** [s[i]] and [s[i] = x]. *)
Definition rdF (s : slice) (i : Z) : M F := fun h =>
  ((if inb i (sl_len s) then let* a := zget (hf h) (sl_arr s) in zget a (sl_off s + i) else Panic ERuntime), h).
Definition rdS (s : slice) (i : Z) : M slice := fun h =>
  ((if inb i (sl_len s) then let* a := zget (hs h) (sl_arr s) in zget a (sl_off s + i) else Panic ERuntime), h).
Definition wrF (s : slice) (i : Z) (x : F) : M unit := fun h =>
  match (if inb i (sl_len s) then
           let* a := zget (hf h) (sl_arr s) in
           let* a := zset a (sl_off s + i) x in zset (hf h) (sl_arr s) a
         else Panic ERuntime) with
  | Ok m => (Ok tt, mkHeap m (hs h))
  | Err e => (Err e, h) | Panic e => (Panic e, h)
  end.
Definition wrS (s : slice) (i : Z) (x : slice) : M unit := fun h =>
  match (if inb i (sl_len s) then
           let* a := zget (hs h) (sl_arr s) in
           let* a := zset a (sl_off s + i) x in zset (hs h) (sl_arr s) a
         else Panic ERuntime) with
  | Ok m => (Ok tt, mkHeap (hf h) m)
  | Err e => (Err e, h) | Panic e => (Panic e, h)
  end.
(** [s[lo:hi]]: up to the capacity. *)
Definition reslice (s : slice) (lo hi : Z) : M slice :=
  if (0 <=? lo) && (lo <=? hi) && (hi <=? sl_cap s)
  then ret (mkSl (sl_arr s) (sl_off s + lo) (hi - lo) (sl_cap s - lo))
  else mpanic ERuntime.
(** [copy(dst, src)]: the values are those src has before the call, also when
    the two overlap. *)
Fixpoint blit (a : list F) (i : Z) (l : list F) : list F :=
  match l with [] => a | x :: t => blit (upd a i x) (i + 1) t end.
Definition gocopy (dst src : slice) : M unit := fun h =>
  let n := Z.min (sl_len dst) (sl_len src) in
  match zget (hf h) (sl_arr dst) with
  | Ok a => (Ok tt, mkHeap (upd (hf h) (sl_arr dst) (blit a (sl_off dst) (firstn (Z.to_nat n) (cont h src)))) (hs h))
  | _ => (Ok tt, h)
  end.
End Heap.
Arguments heap {O}.
Arguments M {O} A.

Declare Scope heap_scope.
Notation "'let!' x := m 'in' k" := (mbind m (fun x => k))
  (at level 200, x pattern, m at level 100, k at level 200, right associativity) : heap_scope.
Open Scope heap_scope.

Section Code.
Context {O : Ops}.

(** [s[i] = g(s[i])] and [s[i][j]], [s[i][j] = x]. *)
Definition modF (s : slice) (i : Z) (g : F -> F) : M unit := let! x := rdF s i in wrF s i (g x).
Definition rd2 (s : slice) (i j : Z) : M F := let! r := rdS s i in rdF r j.
Definition wr2 (s : slice) (i j : Z) (x : F) : M unit := let! r := rdS s i in wrF r j x.
(** [copy(d[i:j], s[k:l])] *)
Definition copyrange (d : slice) (i j : Z) (s : slice) (k l : Z) : M unit :=
  let! d := reslice d i j in let! s := reslice s k l in gocopy d s.

(** ** array_real_vector.go *)
(** An ArrayRealVector is its slice.  A RealVector is one, or a foreign
    implementation with storage of its own, of which only the values are seen. *)
Inductive HVec := HArr (s : slice) | HOther (d : list F).
Definition hv_dim (v : HVec) : Z := match v with HArr s => sl_len s | HOther d => len d end.
(** At: array_real_vector.go:359-366. *)
Definition hv_At (v : HVec) (i : Z) : M F :=
  if inb i (hv_dim v) then
    match v with HArr s => rdF s i | HOther d => fun h => (zget d i, h) end
  else mpanic EOutOfRange.
Definition hcheck (s : slice) (i : Z) : M unit := if inb i (sl_len s) then ret tt else mpanic EOutOfRange.

(** NewArrayRealVectorCopy: array_real_vector.go:41-52; Copy: 163-169. *)
Definition h_NewArrayRealVectorCopy (v : HVec) : M slice :=
  let! data := makeF (hv_dim v) in
  let! _ := mfor 0 (sl_len data) (fun i (_ : unit) => let! x := hv_At v i in wrF data i x) tt in
  ret data.
Definition h_Copy (arv : slice) : M slice := h_NewArrayRealVectorCopy (HArr arv).
(** NewArrayRealVectorFromSlice: array_real_vector.go:59-67; NewArrayRealVector:
    82-94. *)
Definition h_NewArrayRealVectorFromSlice (d : slice) : M slice :=
  if isnil d then merr EInvalidArgument else appendF d.
Definition h_NewArrayRealVector (d : slice) (copyArray : bool) : M slice :=
  if copyArray then h_NewArrayRealVectorFromSlice d
  else if isnil d then merr EInvalidArgument else ret d.
(** DataRef: array_real_vector.go:342-344; ToArray: 486-488. *)
Definition h_DataRef (arv : slice) : slice := arv.
Definition h_ToArray (arv : slice) : M slice := appendF arv.
(** SubVector: array_real_vector.go:402-425. *)
Definition h_SubVector (arv : slice) (index n : Z) : M slice :=
  if n <? 0 then mpanic ENotPositive else
  let! out := makeF n in
  let! _ := hcheck arv index in
  let! _ := hcheck arv (index + n - 1) in
  let! d := reslice out 0 n in
  let! s := reslice arv index (sl_len arv) in
  let! _ := gocopy d s in
  ret out.
(** NewArrayRealVectorFromTwoArrayRealVector: array_real_vector.go:115-124;
    Append: 390-400. *)
Definition h_FromTwo (v1 v2 : slice) : M slice :=
  let n1 := sl_len v1 in let n2 := sl_len v2 in
  let! data := makeF (n1 + n2) in
  let! d := reslice data 0 n1 in
  let! _ := gocopy d v1 in
  let! d := reslice data n1 (n1 + n2) in
  let! _ := gocopy d v2 in
  ret data.
Definition h_Append (arv : slice) (x : F) : M slice :=
  let n := sl_len arv in
  let! out := makeF (n + 1) in
  let! d := reslice out 0 n in
  let! _ := gocopy d arv in
  let! _ := wrF out n x in
  h_NewArrayRealVector out false.
(** SetEntry, AddToEntry: array_real_vector.go:427-443; Set: 480-484. *)
Definition h_SetEntry (arv : slice) (i : Z) (x : F) : M unit := let! _ := hcheck arv i in wrF arv i x.
Definition h_AddToEntry (arv : slice) (i : Z) (x : F) : M unit :=
  let! _ := hcheck arv i in modF arv i (fun y => (y + x)%f).
Definition h_Set (arv : slice) (x : F) : M unit :=
  mfor 0 (sl_len arv) (fun i (_ : unit) => wrF arv i x) tt.
(** Map: array_real_vector.go:171-175; the other Map methods (177-202) have
    the same loop. *)
Definition h_Map (arv : slice) (f : F -> F) : M unit :=
  mfor 0 (sl_len arv) (fun i (_ : unit) => modF arv i f) tt.
(** SetSubVectorWithSlice: array_real_vector.go:466-478; SetSubVector: 445-464.  The values are stored by
    SetSubVectorWithSlice and then a second time, one by one. *)
Definition h_SetSubVectorWithSlice (arv : slice) (index : Z) (v : slice) : M unit :=
  let! _ := hcheck arv index in
  let! _ := hcheck arv (index + sl_len v - 1) in
  let! d := reslice arv index (index + sl_len v) in
  gocopy d v.
Definition h_SetSubVector (arv : slice) (index : Z) (v : HVec) : M unit :=
  let! _ := hcheck arv index in
  let! _ := hcheck arv (index + hv_dim v - 1) in
  let! _ := match v with HArr s => h_SetSubVectorWithSlice arv index s | HOther _ => ret tt end in
  mfor index (index + hv_dim v) (fun i (_ : unit) => let! x := hv_At v (i - index) in wrF arv i x) tt.
(** CopyFrom: array_real_vector.go:150-161. *)
Definition h_CopyFrom (arv : slice) (v : HVec) : M unit :=
  if negb (sl_len arv =? hv_dim v) then mpanic EDimMismatch else
  mfor 0 (hv_dim v) (fun i (_ : unit) => let! x := hv_At v i in wrF arv i x) tt.
(** Combine: array_real_vector.go:539-548. *)
Definition h_Combine (arv : slice) (a b : F) (y : HVec) : M unit :=
  if negb (sl_len arv =? hv_dim y) then mpanic EDimMismatch else
  mfor 0 (sl_len arv) (fun i (_ : unit) =>
    let! x := rdF arv i in let! z := hv_At y i in wrF arv i (a * x + b * z)%f) tt.
(** Add: array_real_vector.go:204-238 (both branches). *)
Definition h_Add (arv : slice) (v : HVec) : M slice :=
  if negb (sl_len arv =? hv_dim v) then mpanic EDimMismatch else
  let! ret' := makeF (hv_dim v) in
  let! _ := mfor 0 (hv_dim v) (fun i (_ : unit) =>
    let! x := rdF arv i in let! y := hv_At v i in wrF ret' i (x + y)%f) tt in
  ret ret'.

(** ** array_2d_row_real_matrix.go *)
(** An Array2DRowRealMatrix is its slice of rows, [data]. *)
(** RowDimension, ColumnDimension: array_2d_row_real_matrix.go:402-416. *)
Definition h2_rows (a : slice) : Z := if isnil a then 0 else sl_len a.
Definition h2_cols (a : slice) : M Z :=
  if isnil a then ret 0 else let! r := rdS a 0 in ret (sl_len r).
(** checkRowIndex, checkColumnIndex: array_2d_row_real_matrix.go:868-882. *)
Definition h2_ckrow (a : slice) (i : Z) : M unit := if inb i (h2_rows a) then ret tt else mpanic EOutOfRange.
Definition h2_ckcol (a : slice) (j : Z) : M unit :=
  if j <? 0 then mpanic EOutOfRange else
  let! c := h2_cols a in if c <=? j then mpanic EOutOfRange else ret tt.
Definition h2_ck (a : slice) (i j : Z) : M unit := let! _ := h2_ckrow a i in h2_ckcol a j.

(** [data := make([][]float64, r); for i { data[i] = make([]float64, c) }];
    NewArray2DRowRealMatrix: array_2d_row_real_matrix.go:24-38. *)
Definition h_make2 (r c : Z) : M slice :=
  let! data := makeS r in
  let! _ := mfor 0 r (fun i (_ : unit) => let! row := makeF c in wrS data i row) tt in
  ret data.
Definition h2_New (r c : Z) : M slice :=
  if r <? 1 then merr ENotStrictlyPositive else
  if c <? 1 then merr ENotStrictlyPositive else h_make2 r c.

(** SetEntry, AddToEntry, MultiplyEntry, At: array_2d_row_real_matrix.go:345-400. *)
Definition h2_At (a : slice) (i j : Z) : M F := let! _ := h2_ck a i j in rd2 a i j.
Definition h2_SetEntry (a : slice) (i j : Z) (x : F) : M unit := let! _ := h2_ck a i j in wr2 a i j x.
Definition h2_modEntry (a : slice) (i j : Z) (g : F -> F) : M unit :=
  let! _ := h2_ck a i j in let! x := rd2 a i j in wr2 a i j (g x).
Definition h2_AddToEntry (a : slice) (i j : Z) (x : F) : M unit := h2_modEntry a i j (fun y => (y + x)%f).
Definition h2_MultiplyEntry (a : slice) (i j : Z) (x : F) : M unit := h2_modEntry a i j (fun y => (y * x)%f).

(** SetSubMatrix: array_2d_row_real_matrix.go:278-343; returns [data], which it
    sets when it was nil.  copyIn: 274-276. *)
Definition h2_SetSubMatrix (a sub : slice) (row column : Z) : M slice :=
  if isnil sub then mpanic EInvalidArgument else
  let nRows := sl_len sub in
  if nRows =? 0 then mpanic ENoData else
  let! sub0 := rdS sub 0 in
  let nCols := sl_len sub0 in
  if nCols =? 0 then mpanic ENoData else
  if isnil a then
    if 0 <? row then mpanic EIllegalState else
    if 0 <? column then mpanic EIllegalState else
    let! data := makeS nRows in
    let! _ := mfor 0 nRows (fun i (_ : unit) => let! r := makeF nCols in wrS data i r) tt in
    let! _ := mfor 0 (sl_len data) (fun i (_ : unit) =>
      let! si := rdS sub i in
      if negb (sl_len si =? nCols) then mpanic EDimMismatch else
      let! d := rdS data (i + row) in
      let! si := rdS sub i in
      copyrange d column (column + nCols) si 0 nCols) tt in
    ret data
  else
    let! _ := mfor 1 nRows (fun r (_ : unit) =>
      let! sr := rdS sub r in
      if negb (sl_len sr =? nCols) then mpanic EDimMismatch else ret tt) tt in
    let! _ := h2_ckrow a row in
    let! _ := h2_ckcol a column in
    let! _ := h2_ckrow a (nRows + row - 1) in
    let! _ := h2_ckcol a (nCols + column - 1) in
    let! _ := mfor 0 nRows (fun i (_ : unit) =>
      mfor 0 nCols (fun j (_ : unit) =>
        let! x := rd2 sub i j in h2_SetEntry a (row + i) (column + j) x) tt) tt in
    ret a.
Definition h2_copyIn (sub : slice) : M slice := h2_SetSubMatrix nilsl sub 0 0.
(** copyOut: array_2d_row_real_matrix.go:681-689; Data: 266-268; DataRef:
    270-272; Copy: 87-91. *)
Definition h2_copyOut (a : slice) : M slice :=
  let nRows := h2_rows a in
  let! out := makeS nRows in
  let! _ := mfor 0 nRows (fun i (_ : unit) =>
    let! c := h2_cols a in
    let! r := makeF c in
    let! _ := wrS out i r in
    let! o := rdS out i in
    let! di := rdS a i in
    copyrange o 0 (sl_len di) di 0 (sl_len di)) tt in
  ret out.
Definition h2_Data (a : slice) : M slice := h2_copyOut a.
(** DataRef: array_2d_row_real_matrix.go:270-272. *)
Definition h2_DataRef (a : slice) : slice := a.
Definition h2_Copy (a : slice) : M slice := let! d := h2_copyOut a in h2_copyIn d.
(** NewArray2DRowRealMatrixFromSlices: array_2d_row_real_matrix.go:40-65. *)
Definition h2_FromSlices (data : slice) (copyArray : bool) : M slice :=
  if copyArray then h2_copyIn data else
  if isnil data then merr EInvalidArgument else
  let nRows := sl_len data in
  if nRows =? 0 then merr ENoData else
  let! d0 := rdS data 0 in
  let nCols := sl_len d0 in
  if nCols =? 0 then merr ENoData else
  let! _ := mfor 1 nRows (fun r (_ : unit) =>
    let! dr := rdS data r in
    if negb (sl_len dr =? nCols) then merr EDimMismatch else ret tt) tt in
  ret data.
(** ColumnAt: array_2d_row_real_matrix.go:352-363; RowAt: 691-700. *)
Definition h2_ColumnAt (a : slice) (j : Z) : M slice :=
  let! _ := h2_ckcol a j in
  let nRows := h2_rows a in
  let! out := makeF nRows in
  let! _ := mfor 0 nRows (fun i (_ : unit) => let! x := rd2 a i j in wrF out i x) tt in
  ret out.
Definition h2_RowAt (a : slice) (i : Z) : M slice :=
  let! _ := h2_ckrow a i in
  let! nCols := h2_cols a in
  let! out := makeF nCols in
  let! r := rdS a i in
  let! _ := copyrange out 0 nCols r 0 nCols in
  ret out.
(** RowVectorAt, ColumnVectorAt: array_2d_row_real_matrix.go:771-775, 791-795. *)
Definition h2_RowVectorAt (a : slice) (i : Z) : M slice := let! r := h2_RowAt a i in appendF r.
Definition h2_ColumnVectorAt (a : slice) (j : Z) : M slice := let! r := h2_ColumnAt a j in appendF r.
(** SubMatrix: array_2d_row_real_matrix.go:542-557. *)
Definition h2_SubMatrix (a : slice) (r0 r1 c0 c1 : Z) : M slice :=
  let! _ := h2_ckrow a r0 in
  let! _ := h2_ckrow a r1 in
  if r1 <? r0 then mpanic ETooSmall else
  let! _ := h2_ckcol a c0 in
  let! _ := h2_ckcol a c1 in
  if c1 <? c0 then mpanic ETooSmall else
  let rowCount := r1 - r0 + 1 in
  let columnCount := c1 - c0 + 1 in
  let! out := makeS rowCount in
  let! _ := mfor 0 rowCount (fun i (_ : unit) =>
    let! r := makeF columnCount in
    let! _ := wrS out i r in
    let! o := rdS out i in
    let! s := rdS a (r0 + i) in
    copyrange o 0 columnCount s c0 (c0 + columnCount)) tt in
  ret out.
(** RowMatrixAt: array_2d_row_real_matrix.go:713-727; ColumnMatrixAt: 742-756. *)
Definition h2_RowMatrixAt (a : slice) (row : Z) : M slice :=
  let! _ := h2_ckrow a row in
  let! nCols := h2_cols a in
  let! out := mpan (h2_New 1 nCols) in
  let! _ := mfor 0 nCols (fun i (_ : unit) => let! x := rd2 a row i in wr2 out 0 i x) tt in
  ret out.
Definition h2_ColumnMatrixAt (a : slice) (column : Z) : M slice :=
  let! _ := h2_ckcol a column in
  let nRows := h2_rows a in
  let! out := mpan (h2_New nRows 1) in
  let! _ := mfor 0 nRows (fun i (_ : unit) => let! x := rd2 a i column in wr2 out i 0 x) tt in
  ret out.
(** Transpose: array_2d_row_real_matrix.go:418-434. *)
Definition h2_Transpose (a : slice) : M slice :=
  let nRows := h2_rows a in
  let! nCols := h2_cols a in
  let! data := makeS nCols in
  let! _ := mfor 0 (sl_len data) (fun i (_ : unit) => let! r := makeF nRows in wrS data i r) tt in
  let! _ := mfor 0 nRows (fun i (_ : unit) =>
    mfor 0 nCols (fun j (_ : unit) => let! x := rd2 a i j in wr2 data j i x) tt) tt in
  ret data.
(** SetColumn: array_2d_row_real_matrix.go:365-376; SetRow: 702-711. *)
Definition h2_SetColumn (a : slice) (column : Z) (array : slice) : M unit :=
  let! _ := h2_ckcol a column in
  let nRows := h2_rows a in
  if negb (sl_len array =? nRows) then mpanic EMatDimMismatch else
  mfor 0 nRows (fun i (_ : unit) => let! x := rdF array i in wr2 a i column x) tt.
Definition h2_SetRow (a : slice) (row : Z) (array : slice) : M unit :=
  let! _ := h2_ckrow a row in
  let! nCols := h2_cols a in
  if negb (sl_len array =? nCols) then mpanic EMatDimMismatch else
  let! d := rdS a row in
  copyrange d 0 (row + nCols) array 0 nCols.

(** ** diagonal_matrix.go: a DiagonalMatrix is its slice. *)
(** NewDiagonalMatrix: diagonal_matrix.go:42-55; Copy: 57-61; DataRef: 187-189. *)
Definition hd_New (data : slice) (copyArray : bool) : M slice :=
  if isnil data then merr EInvalidArgument else
  if copyArray then appendF data else ret data.
Definition hd_Copy (d : slice) : M slice := appendF d.
(** DataRef: diagonal_matrix.go:187-189. *)
Definition hd_DataRef (d : slice) : slice := d.
(** Data: diagonal_matrix.go:172-185; [out[i] == nil] always holds. *)
Definition hd_Data (d : slice) : M slice :=
  let dim := sl_len d in
  let! out := makeS dim in
  let! _ := mfor 0 dim (fun i (_ : unit) =>
    let! r := rdS out i in
    let! _ := (if isnil r then let! r := makeF dim in wrS out i r else ret tt) in
    let! x := rdF d i in
    wr2 out i i x) tt in
  ret out.
(** At, SetEntry, AddToEntry, MultiplyEntry: diagonal_matrix.go:191-244. *)
Definition hd_At (d : slice) (i j : Z) : M F :=
  let! _ := hcheck d i in let! _ := hcheck d j in
  if i =? j then rdF d i else ret fzero.
Definition hd_SetEntry (d : slice) (i j : Z) (x : F) : M unit :=
  if i =? j then let! _ := hcheck d i in wrF d i x
  else if fulp1 fzero x then ret tt else mpanic ETooLarge.
Definition hd_AddToEntry (d : slice) (i j : Z) (x : F) : M unit :=
  if i =? j then let! _ := hcheck d i in modF d i (fun y => (y + x)%f)
  else if fulp1 fzero x then ret tt else mpanic ETooLarge.
Definition hd_MultiplyEntry (d : slice) (i j : Z) (x : F) : M unit :=
  if i =? j then let! _ := hcheck d i in modF d i (fun y => (y * x)%f) else ret tt.
(** ColumnAt: diagonal_matrix.go:339-350; RowAt: 427-438. *)
Definition hd_ColumnAt (d : slice) (j : Z) : M slice :=
  let! _ := hcheck d j in
  let! out := makeF (sl_len d) in
  let! _ := mfor 0 (sl_len d) (fun i (_ : unit) => let! x := hd_At d i j in wrF out i x) tt in
  ret out.
Definition hd_RowAt (d : slice) (i : Z) : M slice :=
  let! _ := hcheck d i in
  let! out := makeF (sl_len d) in
  let! _ := mfor 0 (sl_len d) (fun j (_ : unit) => let! x := hd_At d i j in wrF out j x) tt in
  ret out.
(** SetRow: diagonal_matrix.go:518-529; SetColumn: 503-516. *)
Definition hd_SetRow (d : slice) (row : Z) (array : slice) : M unit :=
  let! _ := hcheck d row in
  if negb (sl_len array =? sl_len d) then mpanic EMatDimMismatch else
  mfor 0 (sl_len d) (fun i (_ : unit) => let! x := rdF array i in hd_SetEntry d row i x) tt.
Definition hd_SetColumn (d : slice) (column : Z) (array : slice) : M unit :=
  let! _ := hcheck d column in
  if negb (sl_len array =? sl_len d) then mpanic EMatDimMismatch else
  mfor 0 (sl_len d) (fun i (_ : unit) => let! x := rdF array i in hd_SetEntry d i column x) tt.

(** ** block_real_matrix.go *)
Record HBlk := mkHBlk { hb_blocks : slice; hb_rows : Z; hb_columns : Z; hb_blockRows : Z; hb_blockColumns : Z }.
(** blockHeight, blockWidth: block_real_matrix.go:1354-1368. *)
Definition hb_height (b : HBlk) (i : Z) : Z :=
  if i =? hb_blockRows b - 1 then hb_rows b - i * BLOCK_SIZE else BLOCK_SIZE.
Definition hb_width (b : HBlk) (j : Z) : Z :=
  if j =? hb_blockColumns b - 1 then hb_columns b - j * BLOCK_SIZE else BLOCK_SIZE.
Definition hb_nblk (n : Z) : Z := (n + BLOCK_SIZE - 1) / BLOCK_SIZE.
(** createBlocksLayout: block_real_matrix.go:160-180. *)
Definition hb_create (rows columns : Z) : M slice :=
  let! blocks := makeS (hb_nblk rows * hb_nblk columns) in
  let! _ := mfor 0 (hb_nblk rows) (fun iBlock idx =>
    let pStart := iBlock * BLOCK_SIZE in
    let iHeight := Z.min (pStart + BLOCK_SIZE) rows - pStart in
    mfor 0 (hb_nblk columns) (fun jBlock idx =>
      let qStart := jBlock * BLOCK_SIZE in
      let jWidth := Z.min (qStart + BLOCK_SIZE) columns - qStart in
      let! blk := makeF (iHeight * jWidth) in
      let! _ := wrS blocks idx blk in
      ret (idx + 1)) idx) 0 in
  ret blocks.
Definition hb_New (rows columns : Z) : M HBlk :=
  if rows <? 1 then merr ENotStrictlyPositive else
  if columns <? 1 then merr ENotStrictlyPositive else
  let! blocks := hb_create rows columns in
  ret (mkHBlk blocks rows columns (hb_nblk rows) (hb_nblk columns)).
(** NewBlockRealMatrixFromBlockData: block_real_matrix.go:85-116. *)
Definition hb_FromBlockData (rows columns : Z) (blockData : slice) : M HBlk :=
  if rows <? 1 then merr ENotStrictlyPositive else
  if columns <? 1 then merr ENotStrictlyPositive else
  let ans := mkHBlk blockData rows columns (hb_nblk rows) (hb_nblk columns) in
  let! _ := mfor 0 (hb_blockRows ans) (fun iBlock idx =>
    mfor 0 (hb_blockColumns ans) (fun jBlock idx =>
      let! blk := rdS (hb_blocks ans) idx in
      if negb (sl_len blk =? hb_height ans iBlock * hb_width ans jBlock) then merr EDimMismatch
      else ret (idx + 1)) idx) 0 in
  ret ans.
(** toBlocksLayout: block_real_matrix.go:118-158; NewBlockRealMatrixFromSlices:
    81-83. *)
Definition hb_toBlocks (raw : slice) : M slice :=
  let rows := sl_len raw in
  let! raw0 := rdS raw 0 in
  let columns := sl_len raw0 in
  let! _ := mfor 0 rows (fun i (_ : unit) =>
    let! ri := rdS raw i in
    if negb (sl_len ri =? columns) then mpanic EDimMismatch else ret tt) tt in
  let! blocks := makeS (hb_nblk rows * hb_nblk columns) in
  let! _ := mfor 0 (hb_nblk rows) (fun iBlock idx =>
    let pStart := iBlock * BLOCK_SIZE in
    let pEnd := Z.min (pStart + BLOCK_SIZE) rows in
    let iHeight := pEnd - pStart in
    mfor 0 (hb_nblk columns) (fun jBlock idx =>
      let qStart := jBlock * BLOCK_SIZE in
      let jWidth := Z.min (qStart + BLOCK_SIZE) columns - qStart in
      let! blk := makeF (iHeight * jWidth) in
      let! _ := wrS blocks idx blk in
      let! _ := mfor pStart pEnd (fun p index =>
        let! b := rdS blocks idx in
        let! rp := rdS raw p in
        let! _ := copyrange b index (index + jWidth) rp qStart (qStart + jWidth) in
        ret (index + jWidth)) 0 in
      ret (idx + 1)) idx) 0 in
  ret blocks.
Definition hb_FromSlices (raw : slice) : M HBlk :=
  let! raw0 := rdS raw 0 in
  let! blocks := hb_toBlocks raw in
  hb_FromBlockData (sl_len raw) (sl_len raw0) blocks.
(** Copy: block_real_matrix.go:182-194. *)
Definition hb_Copy (b : HBlk) : M HBlk :=
  let! blocks := hb_create (hb_rows b) (hb_columns b) in
  let! _ := mfor 0 (sl_len (hb_blocks b)) (fun i (_ : unit) =>
    let! c := rdS blocks i in
    let! s := rdS (hb_blocks b) i in
    gocopy c s) tt in
  ret (mkHBlk blocks (hb_rows b) (hb_columns b) (hb_nblk (hb_rows b)) (hb_nblk (hb_columns b))).
(** Data: block_real_matrix.go:426-450. *)
Definition hb_Data (b : HBlk) : M slice :=
  let! data := makeS (hb_rows b) in
  let lastColumns := hb_columns b - (hb_blockColumns b - 1) * BLOCK_SIZE in
  let! _ := mfor 0 (hb_blockRows b) (fun iBlock (_ : unit) =>
    let pStart := iBlock * BLOCK_SIZE in
    let pEnd := Z.min (pStart + BLOCK_SIZE) (hb_rows b) in
    let! _ := mfor pStart pEnd (fun p '(regularPos, lastPos) =>
      let! r := makeF (hb_columns b) in
      let! _ := wrS data p r in
      let! (idx, dataPos) := mfor 0 (hb_blockColumns b - 1) (fun jBlock '(idx, dataPos) =>
        let! dp := rdS data p in
        let! blk := rdS (hb_blocks b) idx in
        let! _ := copyrange dp dataPos (dataPos + BLOCK_SIZE) blk regularPos (regularPos + BLOCK_SIZE) in
        ret (idx + 1, dataPos + BLOCK_SIZE)) (iBlock * hb_blockColumns b, 0) in
      let! dp := rdS data p in
      let! blk := rdS (hb_blocks b) idx in
      let! _ := copyrange dp dataPos (dataPos + lastColumns) blk lastPos (lastPos + lastColumns) in
      ret (regularPos + BLOCK_SIZE, lastPos + lastColumns)) (0, 0) in
    ret tt) tt in
  ret data.
(** checkRowIndex, checkColumnIndex on a BlockRealMatrix. *)
Definition hb_ckrow (b : HBlk) (i : Z) : M unit := if inb i (hb_rows b) then ret tt else mpanic EOutOfRange.
Definition hb_ckcol (b : HBlk) (j : Z) : M unit := if inb j (hb_columns b) then ret tt else mpanic EOutOfRange.
(** At, SetEntry, AddToEntry, MultiplyEntry: block_real_matrix.go:887-925. *)
Definition hb_pos (b : HBlk) (i j : Z) : Z * Z :=
  let iBlock := i / BLOCK_SIZE in let jBlock := j / BLOCK_SIZE in
  (iBlock * hb_blockColumns b + jBlock, (i - iBlock * BLOCK_SIZE) * hb_width b jBlock + (j - jBlock * BLOCK_SIZE)).
Definition hb_At (b : HBlk) (i j : Z) : M F :=
  let! _ := hb_ckrow b i in let! _ := hb_ckcol b j in
  rd2 (hb_blocks b) (fst (hb_pos b i j)) (snd (hb_pos b i j)).
Definition hb_SetEntry (b : HBlk) (i j : Z) (x : F) : M unit :=
  let! _ := hb_ckrow b i in let! _ := hb_ckcol b j in
  wr2 (hb_blocks b) (fst (hb_pos b i j)) (snd (hb_pos b i j)) x.
Definition hb_modEntry (b : HBlk) (i j : Z) (g : F -> F) : M unit :=
  let! _ := hb_ckrow b i in let! _ := hb_ckcol b j in
  let! x := rd2 (hb_blocks b) (fst (hb_pos b i j)) (snd (hb_pos b i j)) in
  wr2 (hb_blocks b) (fst (hb_pos b i j)) (snd (hb_pos b i j)) (g x).
Definition hb_AddToEntry (b : HBlk) (i j : Z) (x : F) : M unit := hb_modEntry b i j (fun y => (y + x)%f).
Definition hb_MultiplyEntry (b : HBlk) (i j : Z) (x : F) : M unit := hb_modEntry b i j (fun y => (y * x)%f).
(** RowAt: block_real_matrix.go:803-820 (RowVectorAt, 724-743, has the same
    body); ColumnAt: 842-862 (ColumnVectorAt, 762-784). *)
Definition hb_RowAt (b : HBlk) (row : Z) : M slice :=
  let! _ := hb_ckrow b row in
  let! out := makeF (hb_columns b) in
  let iBlock := row / BLOCK_SIZE in
  let iRow := row - iBlock * BLOCK_SIZE in
  let! _ := mfor 0 (hb_blockColumns b) (fun jBlock outIndex =>
    let jWidth := hb_width b jBlock in
    let! s := rdS (hb_blocks b) (iBlock * hb_blockColumns b + jBlock) in
    let! _ := copyrange out outIndex (outIndex + jWidth) s (iRow * jWidth) (iRow * jWidth + jWidth) in
    ret (outIndex + jWidth)) 0 in
  ret out.
Definition hb_ColumnAt (b : HBlk) (column : Z) : M slice :=
  let! _ := hb_ckcol b column in
  let! out := makeF (hb_rows b) in
  let jBlock := column / BLOCK_SIZE in
  let jColumn := column - jBlock * BLOCK_SIZE in
  let jWidth := hb_width b jBlock in
  let! _ := mfor 0 (hb_blockRows b) (fun iBlock idx =>
    mfor 0 (hb_height b iBlock) (fun i outIndex =>
      let! x := rd2 (hb_blocks b) (iBlock * hb_blockColumns b + jBlock) (i * jWidth + jColumn) in
      let! _ := wrF out outIndex x in
      ret (outIndex + 1)) idx) 0 in
  ret out.
(** copyBlockPart: block_real_matrix.go:531-540; SubMatrix: 465-529. *)
Definition hb_part (src : slice) (sw sr0 sr1 sc0 sc1 : Z) (dst : slice) (dw dr0 dc0 : Z) : M unit :=
  let length := sc1 - sc0 in
  let! _ := mfor sr0 sr1 (fun srcRow '(srcPos, dstPos) =>
    let! _ := copyrange dst dstPos (dstPos + length) src srcPos (srcPos + length) in
    ret (srcPos + sw, dstPos + dw)) (sr0 * sw + sc0, dr0 * dw + dc0) in
  ret tt.
Definition hb_SubMatrix (b : HBlk) (r0 r1 c0 c1 : Z) : M HBlk :=
  let! _ := hb_ckrow b r0 in
  let! _ := hb_ckrow b r1 in
  if r1 <? r0 then mpanic ETooSmall else
  let! _ := hb_ckcol b c0 in
  let! _ := hb_ckcol b c1 in
  if c1 <? c0 then mpanic ETooSmall else
  let! out := mpan (hb_New (r1 - r0 + 1) (c1 - c0 + 1)) in
  let rs := r0 mod BLOCK_SIZE in
  let cs := c0 mod BLOCK_SIZE in
  let B := BLOCK_SIZE in
  let blk i := rdS (hb_blocks b) i in
  let! _ := mfor 0 (hb_blockRows out) (fun iBlock pBlock =>
    let iH := hb_height out iBlock in
    let! _ := mfor 0 (hb_blockColumns out) (fun jBlock qBlock =>
      let jW := hb_width out jBlock in
      let oi := iBlock * hb_blockColumns out + jBlock in
      let index := pBlock * hb_blockColumns b + qBlock in
      let w := hb_width b qBlock in
      let hE := iH + rs - B in
      let wE := jW + cs - B in
      let w2 := hb_width b (qBlock + 1) in
      let part si sw a0 a1 b0 b1 dr dc :=
        let! s := blk si in let! o := rdS (hb_blocks out) oi in hb_part s sw a0 a1 b0 b1 o jW dr dc in
      let! _ :=
        if 0 <? hE then
          if 0 <? wE then
            let! _ := part index w rs B cs B 0 0 in
            let! _ := part (index + 1) w2 rs B 0 wE 0 (jW - wE) in
            let! _ := part (index + hb_blockColumns b) w 0 hE cs B (iH - hE) 0 in
            part (index + hb_blockColumns b + 1) w2 0 hE 0 wE (iH - hE) (jW - wE)
          else
            let! _ := part index w rs B cs (jW + cs) 0 0 in
            part (index + hb_blockColumns b) w 0 hE cs (jW + cs) (iH - hE) 0
        else
          if 0 <? wE then
            let! _ := part index w rs (iH + rs) cs B 0 0 in
            part (index + 1) w2 rs (iH + rs) 0 wE 0 (jW - wE)
          else part index w rs (iH + rs) cs (jW + cs) 0 0 in
      ret (qBlock + 1)) (c0 / BLOCK_SIZE) in
    ret (pBlock + 1)) (r0 / BLOCK_SIZE) in
  ret out.
End Code.

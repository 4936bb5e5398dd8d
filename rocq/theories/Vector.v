(** Model of /repo/array_real_vector.go and /repo/real_vector.go. *)
From Coq Require Import ZArith List Lia Bool.
From Verif Require Import Base Scalar.
Import ListNotations.
Open Scope Z_scope.

Section Vector.
Context {O : Ops}.

(** A value of interface type RealVector (real_vector.go:1-215): either the
    library's *ArrayRealVector (array_real_vector.go:23-25, its field [data]),
    or some other implementation, lawful, holding the given values.
    Simplification: nil interfaces appear only where the code tests for them. *)
Inductive RealVector : Type :=
| VArr (data : vec)
| VOther (data : vec).

Definition v_data (v : RealVector) : vec := match v with VArr d | VOther d => d end.

(** Dimension(): array_real_vector.go:368-370. *)
Definition v_Dimension (v : RealVector) : Z := len (v_data v).

(** checkIndex: array_real_vector.go:613-620. *)
Definition checkIndex (dim idx : Z) : res unit :=
  if (idx <? 0) || (dim <=? idx) then Err EOutOfRange else Ok tt.
(** checkIndices: array_real_vector.go:622-635. *)
Definition checkIndices (dim start end_ : Z) : res unit :=
  if (start <? 0) || (dim <=? start) then Err EOutOfRange
  else if (end_ <? 0) || (dim <=? end_) then Err EOutOfRange
  else if end_ <? start then Err ETooSmall
  else Ok tt.
(** checkDimensions / checkVectorDimensions: array_real_vector.go:637-647. *)
Definition checkDimensions (dim n : Z) : res unit :=
  if dim =? n then Ok tt else Err EDimMismatch.

(** At: array_real_vector.go:359-366.  A foreign vector is assumed to reject
    bad indices in the same way. *)
Definition arv_At (arv : vec) (index : Z) : res F :=
  let* _ := orpanic (checkIndex (len arv) index) in zget arv index.
Definition v_At (v : RealVector) (i : Z) : res F := arv_At (v_data v) i.

(** NewSizedArrayRealVector: array_real_vector.go:32-34. *)
Definition NewSizedArrayRealVector (size : Z) : res vec := make fzero size.

(** NewArrayRealVectorCopy: array_real_vector.go:41-52; [None] is nil. *)
Definition NewArrayRealVectorCopy (v : option RealVector) : res vec :=
  match v with
  | None => Err EInvalidArgument
  | Some v =>
      let* data := make fzero (v_Dimension v) in
      for_ 0 (len data) (fun i data => let* x := v_At v i in zset data i x) data
  end.

(** NewArrayRealVectorFromSlice: array_real_vector.go:59-67. *)
Definition NewArrayRealVectorFromSlice (d : option vec) : res vec :=
  match d with None => Err EInvalidArgument | Some d => Ok ([] ++ d) end.

(** NewArrayRealVector: array_real_vector.go:82-94 (sharing is not visible
    here, see the heap model). *)
Definition NewArrayRealVector (d : option vec) (copyArray : bool) : res vec :=
  if copyArray then NewArrayRealVectorFromSlice d
  else match d with None => Err EInvalidArgument | Some d => Ok d end.

(** NewRealVector: real_vector.go:264-270. *)
Definition NewRealVector (d : option vec) : res RealVector :=
  match d with
  | None => Err EInvalidArgument
  | Some _ => let* a := NewArrayRealVector d true in Ok (VArr a)
  end.

(** NewSizedArrayRealVectorWithPreset: array_real_vector.go:102-108. *)
Definition NewSizedArrayRealVectorWithPreset (size : Z) (preset : F) : res vec :=
  let* data := make fzero size in
  for_ 0 size (fun i data => zset data i preset) data.

(** NewArrayRealVectorFromTwoArrayRealVector: array_real_vector.go:115-124. *)
Definition NewArrayRealVectorFromTwoArrayRealVector (v1 v2 : option vec) : res vec :=
  match v1, v2 with
  | Some v1, Some v2 =>
      let* data := make fzero (len v1 + len v2) in
      let* data := slice_copy data 0 (len v1) v1 0 (len v1) in
      slice_copy data (len v1) (len v1 + len v2) v2 0 (len v2)
  | _, _ => Err EInvalidArgument
  end.

(** NewArrayRealVectorFromTwoRealVector: array_real_vector.go:131-148; the
    second loop is transcribed as written. *)
Definition NewArrayRealVectorFromTwoRealVector (v1 v2 : option RealVector) : res vec :=
  match v1, v2 with
  | Some v1, Some v2 =>
      let l1 := v_Dimension v1 in
      let l2 := v_Dimension v2 in
      let* data := make fzero (l1 + l2) in
      let* data := for_ 0 l1 (fun i data => let* x := v_At v1 i in zset data i x) data in
      for_ l1 l2 (fun i data => let* x := v_At v2 i in zset data i x) data
  | _, _ => Err EInvalidArgument
  end.

(** CopyFrom: array_real_vector.go:150-161. *)
Definition arv_CopyFrom (arv : vec) (v : RealVector) : res vec :=
  let* _ := orpanic (checkDimensions (len arv) (v_Dimension v)) in
  let dim := v_Dimension v in
  for_ 0 dim (fun i arv => let* x := v_At v i in zset arv i x) arv.

(** Copy: array_real_vector.go:163-169. *)
Definition arv_Copy (arv : vec) : res vec :=
  orpanic (NewArrayRealVectorCopy (Some (VArr arv))).

(** Map: array_real_vector.go:171-175; [f] is assumed pure. *)
Definition arv_Map (arv : vec) (f : F -> F) : res vec :=
  for_ 0 (len arv) (fun i arv => let* x := zget arv i in zset arv i (f x)) arv.

(** MapAdd, MapSubtract, MapMultiply, MapDivide: array_real_vector.go:177-202. *)
Definition arv_MapAdd (arv : vec) (d : F) : res vec :=
  for_ 0 (len arv) (fun i arv => let* x := zget arv i in zset arv i (x + d)%f) arv.
Definition arv_MapSubtract (arv : vec) (d : F) : res vec :=
  for_ 0 (len arv) (fun i arv => let* x := zget arv i in zset arv i (x - d)%f) arv.
Definition arv_MapMultiply (arv : vec) (d : F) : res vec :=
  for_ 0 (len arv) (fun i arv => let* x := zget arv i in zset arv i (x * d)%f) arv.
Definition arv_MapDivide (arv : vec) (d : F) : res vec :=
  for_ 0 (len arv) (fun i arv => let* x := zget arv i in zset arv i (x / d)%f) arv.

(** Add: array_real_vector.go:204-238. *)
Definition arv_Add (arv : vec) (v : RealVector) : res vec :=
  match v with
  | VArr vData =>
      let dim := len vData in
      let* _ := orpanic (checkDimensions (len arv) dim) in
      let* ret := NewSizedArrayRealVector dim in
      for_ 0 dim (fun i ret =>
        let* x := zget arv i in let* y := zget vData i in zset ret i (x + y)%f) ret
  | _ =>
      let* _ := orpanic (checkDimensions (len arv) (v_Dimension v)) in
      let* ret := NewSizedArrayRealVector (v_Dimension v) in
      for_ 0 (len arv) (fun i ret =>
        let* x := zget arv i in let* y := v_At v i in zset ret i (x + y)%f) ret
  end.

(** Subtract: array_real_vector.go:240-273. *)
Definition arv_Subtract (arv : vec) (v : RealVector) : res vec :=
  match v with
  | VArr vData =>
      let dim := len vData in
      let* _ := orpanic (checkDimensions (len arv) dim) in
      let* ret := NewSizedArrayRealVector dim in
      for_ 0 dim (fun i ret =>
        let* x := zget arv i in let* y := zget vData i in zset ret i (x - y)%f) ret
  | _ =>
      let* _ := orpanic (checkDimensions (len arv) (v_Dimension v)) in
      let* ret := NewSizedArrayRealVector (v_Dimension v) in
      for_ 0 (len arv) (fun i ret =>
        let* x := zget arv i in let* y := v_At v i in zset ret i (x - y)%f) ret
  end.

(** EBEMultiply: array_real_vector.go:275-306. *)
Definition arv_EBEMultiply (arv : vec) (v : RealVector) : res vec :=
  match v with
  | VArr vData =>
      let dim := len vData in
      let* _ := orpanic (checkDimensions (len arv) dim) in
      let* ret := NewSizedArrayRealVector dim in
      for_ 0 dim (fun i ret =>
        let* x := zget arv i in let* y := zget vData i in zset ret i (x * y)%f) ret
  | _ =>
      let* _ := orpanic (checkDimensions (len arv) (v_Dimension v)) in
      let* ret := NewSizedArrayRealVector (v_Dimension v) in
      for_ 0 (len arv) (fun i ret =>
        let* x := zget arv i in let* y := v_At v i in zset ret i (x * y)%f) ret
  end.

(** EBEDivide: array_real_vector.go:308-340. *)
Definition arv_EBEDivide (arv : vec) (v : RealVector) : res vec :=
  match v with
  | VArr vData =>
      let dim := len vData in
      let* _ := orpanic (checkDimensions (len arv) dim) in
      let* ret := NewSizedArrayRealVector dim in
      for_ 0 dim (fun i ret =>
        let* x := zget arv i in let* y := zget vData i in zset ret i (x / y)%f) ret
  | _ =>
      let* _ := orpanic (checkDimensions (len arv) (v_Dimension v)) in
      let* ret := NewSizedArrayRealVector (v_Dimension v) in
      for_ 0 (len arv) (fun i ret =>
        let* x := zget arv i in let* y := v_At v i in zset ret i (x / y)%f) ret
  end.

(** AppendVector: array_real_vector.go:372-388. *)
Definition arv_AppendVector (arv : vec) (v : RealVector) : res vec :=
  match v with
  | VArr d => orpanic (NewArrayRealVectorFromTwoArrayRealVector (Some arv) (Some d))
  | _ => orpanic (NewArrayRealVectorFromTwoRealVector (Some (VArr arv)) (Some v))
  end.

(** Append: array_real_vector.go:390-400. *)
Definition arv_Append (arv : vec) (x : F) : res vec :=
  let* out := make fzero (len arv + 1) in
  let* out := slice_copy out 0 (len arv) arv 0 (len arv) in
  let* out := zset out (len arv) x in
  orpanic (NewArrayRealVector (Some out) false).

(** SubVector: array_real_vector.go:402-425. *)
Definition arv_SubVector (arv : vec) (index n : Z) : res vec :=
  if n <? 0 then Panic ENotPositive else
  let* out := orpanic (NewSizedArrayRealVector n) in
  let* _ := orpanic (checkIndex (len arv) index) in
  let* _ := orpanic (checkIndex (len arv) (index + n - 1)) in
  slice_copy out 0 n arv index (len arv).

(** SetEntry, AddToEntry: array_real_vector.go:427-443. *)
Definition arv_SetEntry (arv : vec) (index : Z) (value : F) : res vec :=
  let* _ := orpanic (checkIndex (len arv) index) in zset arv index value.
Definition arv_AddToEntry (arv : vec) (index : Z) (inc : F) : res vec :=
  let* _ := orpanic (checkIndex (len arv) index) in
  let* x := zget arv index in zset arv index (x + inc)%f.

(** SetSubVectorWithSlice: array_real_vector.go:466-478 ([v] not sharing
    storage with the receiver). *)
Definition arv_SetSubVectorWithSlice (arv : vec) (index : Z) (v : vec) : res vec :=
  let* _ := orpanic (checkIndex (len arv) index) in
  let* _ := orpanic (checkIndex (len arv) (index + len v - 1)) in
  slice_copy arv index (index + len v) v 0 (len v).

(** SetSubVector: array_real_vector.go:445-464 ([vec] not sharing storage
    with the receiver; the sharing case is in the heap model). *)
Definition arv_SetSubVector (arv : vec) (index : Z) (v : RealVector) : res vec :=
  let* _ := orpanic (checkIndex (len arv) index) in
  let* _ := orpanic (checkIndex (len arv) (index + v_Dimension v - 1)) in
  let* arv := match v with
              | VArr d => arv_SetSubVectorWithSlice arv index d
              | _ => Ok arv
              end in
  for_ index (index + v_Dimension v) (fun i arv =>
    let* x := v_At v (i - index) in zset arv i x) arv.

(** Set: array_real_vector.go:480-484. *)
Definition arv_Set (arv : vec) (v : F) : res vec :=
  for_ 0 (len arv) (fun i arv => zset arv i v) arv.

(** ToArray: array_real_vector.go:486-488. *)
Definition arv_ToArray (arv : vec) : vec := [] ++ arv.

(** IsNaN: array_real_vector.go:490-497. *)
Definition arv_IsNaN (arv : vec) : res bool :=
  let* r := for_brk 0 (len arv) (fun i _ =>
              let* x := zget arv i in Ok (fisnan x, tt)) tt in
  Ok (fst r).

(** IsInf: array_real_vector.go:499-511. *)
Definition arv_IsInf (arv : vec) : res bool :=
  let* n := arv_IsNaN arv in
  if n then Ok false else
  let* r := for_brk 0 (len arv) (fun i _ =>
              let* x := zget arv i in Ok (fispinf x || fisninf x, tt)) tt in
  Ok (fst r).

(** Equals: array_real_vector.go:513-537.  [same] says whether the argument
    is the receiver itself (pointer identity); [None] is an argument that is
    not a RealVector.  A foreign vector's IsNaN is assumed to mean the same. *)
Definition arv_Equals (arv : vec) (same : bool) (other : option RealVector) : res bool :=
  if same then Ok true else
  match other with
  | None => Ok false
  | Some rhs =>
      if negb (len arv =? v_Dimension rhs) then Ok false else
      let* n := arv_IsNaN (v_data rhs) in
      if n then arv_IsNaN arv else
      let* r := for_brk 0 (len arv) (fun i _ =>
                  let* x := zget arv i in
                  let* y := v_At rhs i in
                  Ok (fne x y, tt)) tt in
      Ok (negb (fst r))
  end.

(** Combine: array_real_vector.go:539-548. *)
Definition arv_Combine (arv : vec) (a b : F) (y : RealVector) : res vec :=
  let* _ := orpanic (checkDimensions (len arv) (v_Dimension y)) in
  for_ 0 (len arv) (fun i arv =>
    let* x := zget arv i in let* z := v_At y i in
    zset arv i (a * x + b * z)%f) arv.

(** Visitors (real_vector_visitor.go) are arbitrary state machines. *)
Record VecVisitor (St : Type) := mkVecVisitor {
  vv_start : Z -> Z -> Z -> St -> St;
  vv_visit : Z -> F -> St -> F * St;   (* a preserving visitor's value is ignored *)
  vv_end : St -> F
}.
Arguments vv_start {St}. Arguments vv_visit {St}. Arguments vv_end {St}.

(** WalkInDefaultOrder: array_real_vector.go:550-558 (also
    WalkInOptimizedOrder: array_real_vector.go:597-599).  Result: final visitor state, End value. *)
Definition arv_WalkInDefaultOrder {St} (arv : vec) (v : VecVisitor St) (st : St) : res (St * F) :=
  let st := vv_start v (len arv) 0 (len arv - 1) st in
  let* st := for_ 0 (len arv) (fun i st =>
               let* x := zget arv i in Ok (snd (vv_visit v i x st))) st in
  Ok (st, vv_end v st).

(** WalkInDefaultOrderBounded: array_real_vector.go:560-572 (also array_real_vector.go:601-603). *)
Definition arv_WalkInDefaultOrderBounded {St} (arv : vec) (v : VecVisitor St) (start end_ : Z) (st : St)
  : res (St * F) :=
  let* _ := orpanic (checkIndices (len arv) start end_) in
  let st := vv_start v (len arv) start end_ st in
  let* st := for_ start (end_ + 1) (fun i st =>
               let* x := zget arv i in Ok (snd (vv_visit v i x st))) st in
  Ok (st, vv_end v st).

(** WalkInUpdateDefaultOrder: array_real_vector.go:574-582 (also array_real_vector.go:605-607). *)
Definition arv_WalkInUpdateDefaultOrder {St} (arv : vec) (v : VecVisitor St) (st : St)
  : res (vec * St * F) :=
  let st := vv_start v (len arv) 0 (len arv - 1) st in
  let* (arv, st) := for_ 0 (len arv) (fun i '(arv, st) =>
               let* x := zget arv i in
               let '(y, st) := vv_visit v i x st in
               let* arv := zset arv i y in Ok (arv, st)) (arv, st) in
  Ok (arv, st, vv_end v st).

(** WalkInUpdateDefaultOrderBounded: array_real_vector.go:584-595 (also array_real_vector.go:609-611). *)
Definition arv_WalkInUpdateDefaultOrderBounded {St} (arv : vec) (v : VecVisitor St) (start end_ : Z) (st : St)
  : res (vec * St * F) :=
  let* _ := orpanic (checkIndices (len arv) start end_) in
  let st := vv_start v (len arv) start end_ st in
  let* (arv, st) := for_ start (end_ + 1) (fun i '(arv, st) =>
               let* x := zget arv i in
               let '(y, st) := vv_visit v i x st in
               let* arv := zset arv i y in Ok (arv, st)) (arv, st) in
  Ok (arv, st, vv_end v st).

(** ** real_vector.go *)

(** entryIteratorImpl.Next: real_vector.go:253-262; the iterator state is its
    index.  HasNext: real_vector.go:249-251; newEntryIterator and the
    accessors of an entry: real_vector.go:232-247; Iterator: array_real_vector.go:355-357. *)
Definition it_HasNext (v : RealVector) (idx : Z) : bool := idx <? v_Dimension v.
Definition it_Next (v : RealVector) (idx : Z) : res ((Z * F) * Z) :=
  if v_Dimension v <=? idx then Panic EString else
  let* x := v_At v idx in Ok ((idx, x), idx + 1).

(** [it := v.Iterator(); for it.HasNext() { e := it.Next(); body e }] *)
Definition it_loop {S} (v : RealVector) (body : Z -> F -> S -> res S) (s : S) : res S :=
  let* r := while_ (Datatypes.S (length (v_data v)))
              (fun '(idx, _) => it_HasNext v idx)
              (fun '(idx, s) =>
                 let* (e, idx) := it_Next v idx in
                 let* s := body (fst e) (snd e) s in Ok (idx, s)) (0, s) in
  Ok (snd r).

(** VecNorm: real_vector.go:276-285. *)
Definition VecNorm (v : RealVector) : res F :=
  let* sum := it_loop v (fun _ value sum => Ok (sum + value * value)%f) fzero in
  Ok (fsqrt sum).

(** VecDotProduct: real_vector.go:305-317. *)
Definition VecDotProduct (v1 v2 : RealVector) : res F :=
  let* _ := orpanic (checkDimensions (v_Dimension v1) (v_Dimension v2)) in
  for_ 0 (v_Dimension v1) (fun i d =>
    let* x := v_At v1 i in let* y := v_At v2 i in Ok (d + x * y)%f) fzero.

(** VecCosine: real_vector.go:291-300. *)
Definition VecCosine (v1 v2 : RealVector) : res F :=
  let* norm := VecNorm v1 in
  let* vNorm := VecNorm v2 in
  if feq norm fzero || feq vNorm fzero then Panic EArithmetic else
  let* d := VecDotProduct v1 v2 in Ok (d / (norm * vNorm))%f.

(** VecL1Norm: real_vector.go:323-331. *)
Definition VecL1Norm (v : RealVector) : res F :=
  it_loop v (fun _ x norm => Ok (norm + fabs x)%f) fzero.
(** VecLInfNorm: real_vector.go:337-345. *)
Definition VecLInfNorm (v : RealVector) : res F :=
  it_loop v (fun _ x norm => Ok (fmax norm (fabs x))) fzero.
(** VecDistance: real_vector.go:353-368. *)
Definition VecDistance (v1 v2 : RealVector) : res F :=
  let* _ := orpanic (checkDimensions (v_Dimension v1) (v_Dimension v2)) in
  let* d := it_loop v1 (fun i x d =>
    let* y := v_At v2 i in let diff := (x - y)%f in Ok (d + diff * diff)%f) fzero in
  Ok (fsqrt d).
(** VecL1Distance: real_vector.go:376-389. *)
Definition VecL1Distance (v1 v2 : RealVector) : res F :=
  let* _ := orpanic (checkDimensions (v_Dimension v1) (v_Dimension v2)) in
  it_loop v1 (fun i x d => let* y := v_At v2 i in Ok (d + fabs (x - y))%f) fzero.
(** VecLInfDistance: real_vector.go:397-410. *)
Definition VecLInfDistance (v1 v2 : RealVector) : res F :=
  let* _ := orpanic (checkDimensions (v_Dimension v1) (v_Dimension v2)) in
  it_loop v1 (fun i x d => let* y := v_At v2 i in Ok (fmax (fabs (x - y)%f) d)) fzero.

(** MinIndex: real_vector.go:415-427.  [minValue] starts at +Inf, written
    [None]; [x <= +Inf] holds exactly when x is not NaN. *)
Definition MinIndex (v : RealVector) : res Z :=
  let* r := it_loop v (fun i x '(minIndex, minValue) =>
    if match minValue with None => negb (fisnan x) | Some m => fle x m end
    then Ok (i, Some x) else Ok (minIndex, minValue)) (-1, None) in
  Ok (fst r).
(** MinValue: real_vector.go:432-440. *)
Definition MinValue (v : RealVector) : res F :=
  let* i := MinIndex v in if i <? 0 then Ok fnan else v_At v i.
(** MaxIndex: real_vector.go:445-457 ([None] is -Inf). *)
Definition MaxIndex (v : RealVector) : res Z :=
  let* r := it_loop v (fun i x '(maxIndex, maxValue) =>
    if match maxValue with None => negb (fisnan x) | Some m => fge x m end
    then Ok (i, Some x) else Ok (maxIndex, maxValue)) (-1, None) in
  Ok (fst r).
(** MaxValue: real_vector.go:462-468. *)
Definition MaxValue (v : RealVector) : res F :=
  let* i := MaxIndex v in if i <? 0 then Ok fnan else v_At v i.

(** Unitize: array_real_vector.go:346-353. *)
Definition arv_Unitize (arv : vec) : res vec :=
  let* norm := VecNorm (VArr arv) in
  if feq norm fzero then Panic EArithmetic else arv_MapDivide arv norm.

(** Projection: real_vector.go:473-481.  [dest] is scaled in place and
    returned: the outcome is (the returned vector, [dest] afterwards).  A
    foreign [dest] is not modelled. *)
Definition Projection (src dest : RealVector) : res (RealVector * RealVector) :=
  match dest with
  | VOther _ => Panic EForeign
  | VArr arv =>
      let* norm2 := VecDotProduct dest dest in
      if feq norm2 fzero then Panic EArithmetic else
      let* a := VecDotProduct src dest in
      let* b := VecDotProduct dest dest in
      let* arv := arv_MapMultiply arv (a / b)%f in
      Ok (VArr arv, VArr arv)
  end.

(** UnitVector: real_vector.go:487-496. *)
Definition UnitVector (v : option RealVector) : res vec :=
  let* a := orpanic (NewArrayRealVectorCopy v) in arv_Unitize a.

End Vector.
Arguments vv_start {O St}. Arguments vv_visit {O St}. Arguments vv_end {O St}.
Arguments mkVecVisitor {O St}.

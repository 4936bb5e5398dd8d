(** Results, checked slices and loops: the vocabulary in which the Go code is
    transcribed.  Nothing here is specific to one function of /repo. *)
From Coq Require Import ZArith List Lia Bool.
Import ListNotations.
Open Scope Z_scope.

(** Error values.  One constructor per error type of /repo/error.go that the
    modelled code can produce, plus Go runtime panics and exhausted fuel.
    Simplification: message texts and most payloads are dropped. *)
Inductive err : Type :=
| ERuntime            (* Go runtime panic: index/slice bounds, nil dereference, makeslice *)
| EFuel               (* not a Go outcome: the model's fuel ran out *)
| EForeign            (* not a Go outcome: receiver is a foreign implementation *)
| EOutOfRange         (* outOfRangeErrorf *)
| EInvalidArgument    (* invalidArgumentSimpleErrorf *)
| EDimMismatch        (* dimensionsMismatchSimpleErrorf *)
| EMatDimMismatch     (* matrixDimensionMismatchErrorf *)
| ENoData             (* noDataErrorf *)
| ETooSmall           (* numberIsTooSmallErrorf *)
| ETooLarge           (* numberIsTooLargeErrorf *)
| ENotPositive        (* notPositiveErrorf *)
| ENotStrictlyPositive (* notStrictlyPositiveErrorf *)
| ESingular           (* singularMatrixSimpleErrorf *)
| ENonSquare          (* nonSquareMatrixSimpleErrorf *)
| ENonSymmetric (i j : Z)  (* nonSymmetricMatrixErrorf *)
| ENonPosDef          (* nonPositiveDefiniteMatrixErrorf *)
| EMaxIter            (* maxIterationErrorf / maxCountExceeded *)
| EArithmetic         (* mathArithmeticErrorf *)
| EIllegalState
| EUnsupported
| EString.            (* panic("...") with a plain string *)

(** Outcome of a Go call: a value, a non-nil error returned, or a panic. *)
Inductive res (A : Type) : Type :=
| Ok (a : A)
| Err (e : err)
| Panic (e : err).
Arguments Ok {A} a.
Arguments Err {A} e.
Arguments Panic {A} e.

Definition bind {A B} (m : res A) (f : A -> res B) : res B :=
  match m with Ok a => f a | Err e => Err e | Panic e => Panic e end.

Declare Scope res_scope.
Delimit Scope res_scope with res.
Open Scope res_scope.
Notation "'let*' x := m 'in' k" := (bind m (fun x => k))
  (at level 200, x pattern, m at level 100, k at level 200, right associativity) : res_scope.

(** [if err != nil { panic(err) }] after a call returning an error. *)
Definition orpanic {A} (m : res A) : res A :=
  match m with Err e => Panic e | _ => m end.

(** [check b e]: [if b-is-false { return e }]. *)
Definition checkE (b : bool) (e : err) : res unit := if b then Ok tt else Err e.
Definition checkP (b : bool) (e : err) : res unit := if b then Ok tt else Panic e.

(** ** Slices *)
Class Default (A : Type) := dflt : A.
Global Instance default_list {A} : Default (list A) := nil.

Definition len {A} (l : list A) : Z := Z.of_nat (length l).

Section Slices.
Context {A : Type}.

Definition inb (i n : Z) : bool := (0 <=? i) && (i <? n).

(** [l[i]] as a read: panics when out of range. *)
Definition zget (l : list A) (i : Z) : res A :=
  if inb i (len l) then
    match nth_error l (Z.to_nat i) with Some x => Ok x | None => Panic ERuntime end
  else Panic ERuntime.

Fixpoint upd_nat (l : list A) (n : nat) (v : A) : list A :=
  match l, n with
  | [], _ => []
  | _ :: t, O => v :: t
  | x :: t, S n' => x :: upd_nat t n' v
  end.
Definition upd (l : list A) (i : Z) (v : A) : list A :=
  if 0 <=? i then upd_nat l (Z.to_nat i) v else l.

(** [l[i] = v]: panics when out of range. *)
Definition zset (l : list A) (i : Z) (v : A) : res (list A) :=
  if inb i (len l) then Ok (upd l i v) else Panic ERuntime.

(** [make([]T, n)] with every element the zero value [x]. *)
Definition make (x : A) (n : Z) : res (list A) :=
  if n <? 0 then Panic ERuntime else Ok (repeat x (Z.to_nat n)).

(** [copy(dst[dlo:dhi], src[slo:shi])] for two different slices whose
    capacity equals their length. *)
Definition slice_copy (dst : list A) (dlo dhi : Z) (src : list A) (slo shi : Z) : res (list A) :=
  if (0 <=? dlo) && (dlo <=? dhi) && (dhi <=? len dst) &&
     (0 <=? slo) && (slo <=? shi) && (shi <=? len src) then
    let n := Z.min (dhi - dlo) (shi - slo) in
    Ok (firstn (Z.to_nat dlo) dst ++
        firstn (Z.to_nat n) (skipn (Z.to_nat slo) src) ++
        skipn (Z.to_nat (dlo + n)) dst)
  else Panic ERuntime.

(** [l[lo:hi]] as a value. *)
Definition slice (l : list A) (lo hi : Z) : res (list A) :=
  if (0 <=? lo) && (lo <=? hi) && (hi <=? len l)
  then Ok (firstn (Z.to_nat (hi - lo)) (skipn (Z.to_nat lo) l))
  else Panic ERuntime.
End Slices.

(** ** Loops *)
Section Loops.
Context {S : Type}.
Fixpoint iter_up (n : nat) (i : Z) (body : Z -> S -> res S) (s : S) : res S :=
  match n with
  | O => Ok s
  | Datatypes.S n' => let* s' := body i s in iter_up n' (i + 1) body s'
  end.
(** [for i := lo; i < hi; i++ { body }] *)
Definition for_ (lo hi : Z) (body : Z -> S -> res S) (s : S) : res S :=
  iter_up (Z.to_nat (hi - lo)) lo body s.

Fixpoint iter_dn (n : nat) (i : Z) (body : Z -> S -> res S) (s : S) : res S :=
  match n with
  | O => Ok s
  | Datatypes.S n' => let* s' := body i s in iter_dn n' (i - 1) body s'
  end.
(** [for i := hi; i >= lo; i-- { body }] *)
Definition for_down (hi lo : Z) (body : Z -> S -> res S) (s : S) : res S :=
  iter_dn (Z.to_nat (hi - lo + 1)) hi body s.

(** [for i := lo; i < hi; i++ { ... if c { return/break } }]: the body says
    whether to leave the loop. *)
Fixpoint iter_brk (n : nat) (i : Z) (body : Z -> S -> res (bool * S)) (s : S) : res (bool * S) :=
  match n with
  | O => Ok (false, s)
  | Datatypes.S n' =>
      let* bs := body i s in
      if fst bs then Ok bs else iter_brk n' (i + 1) body (snd bs)
  end.
Definition for_brk (lo hi : Z) (body : Z -> S -> res (bool * S)) (s : S) : res (bool * S) :=
  iter_brk (Z.to_nat (hi - lo)) lo body s.
End Loops.

(** [for cond { body }] with explicit fuel; running out is [Panic EFuel]. *)
Section While.
Context {S : Type}.
Fixpoint while_ (fuel : nat) (cond : S -> bool) (body : S -> res S) (s : S) : res S :=
  match fuel with
  | O => Panic EFuel
  | Datatypes.S n => if cond s then let* s' := body s in while_ n cond body s' else Ok s
  end.
End While.

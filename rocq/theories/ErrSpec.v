(** What an error message should say, independently of package fmt. *)
From Coq Require Import ZArith List String Ascii Bool.
From Verif Require Import Base Scalar ErrorGo.
Import ListNotations.
Open Scope Z_scope.

(** [fills p ws s]: [s] is the pattern [p] with its verbs (%v, %d) replaced, in order,
    by the words [ws]. *)
Inductive fills : string -> list string -> string -> Prop :=
| fills_end : fills EmptyString [] EmptyString
| fills_char c p ws s : c <> "%"%char -> fills p ws s -> fills (String c p) ws (String c s)
| fills_verb c p w ws s : c = "v"%char \/ c = "d"%char -> fills p ws s -> fills (String "%" (String c p)) (w :: ws) (w ++ s)%string.

(** The text of a plain argument. *)
Definition word {O : Ops} (showF : F -> string) (a : F + Z) : string := match a with inl x => showF x | inr z => dec z end.
(** The message is "Math Error: " and the pattern filled with the arguments, as
    far as the pattern uses them. *)
Definition says {O : Ops} (showF : F -> string) (e : LinearMathError) (pattern : string) (args : list (F + Z)) : Prop :=
  exists used rest, args = (used ++ rest)%list /\ fills ("Math Error: " ++ pattern) (List.map (word showF) used) (Error e).

(** The kinds of error: one per Go type. *)
Definition same_type {O : Ops} (e e' : LinearMathError) : Prop :=
  match e, e' with
  | LMaxIteration _, LMaxIteration _ | LUnsupported _, LUnsupported _ | LArithmetic _, LArithmetic _ | LInvalidArgument _, LInvalidArgument _ | LNoData _, LNoData _
  | LMatrixDimension _, LMatrixDimension _ | LMultiDimension _, LMultiDimension _ | LNonSymmetric _, LNonSymmetric _ | LNonSquare _, LNonSquare _ | LDimension _, LDimension _
  | LNotStrictlyPositive _, LNotStrictlyPositive _ | LNotPositive _, LNotPositive _ | LOutOfRange _, LOutOfRange _ | LNonPositiveDefinite _, LNonPositiveDefinite _
  | LSingular _, LSingular _ | LTooLarge _, LTooLarge _ | LTooSmall _, LTooSmall _ | LIllegalNumber _, LIllegalNumber _ | LIllegalArgument _, LIllegalArgument _
  | LIllegalState _, LIllegalState _ | LMath _, LMath _ => True
  | _, _ => False
  end.
(** A check of the value model, and the same check with its error value. *)
Definition agrees {O : Ops} (r : res unit) (o : option LinearMathError) : Prop :=
  match o with None => r = Ok tt | Some e => r = Err (code e) end.
(** [e] reports [a] as outside [lo, hi]. *)
Definition reports_range {O : Ops} (e : LinearMathError) (a lo hi : F) : Prop :=
  exists o, e = LOutOfRange o /\ in_argument (or_num o) = a /\ or_lo o = lo /\ or_high o = hi.
(** [e] reports [a] as below (above) the bound [b]. *)
Definition reports_lower {O : Ops} (e : LinearMathError) (a b : F) (allowed : bool) : Prop :=
  exists n, number e = Some n /\ in_argument n = a /\ lower e = Some (b, allowed).
Definition reports_upper {O : Ops} (e : LinearMathError) (a b : F) (allowed : bool) : Prop :=
  exists n, number e = Some n /\ in_argument n = a /\ upper e = Some (b, allowed).

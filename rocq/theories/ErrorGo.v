(** error.go: the error types, their messages, status codes and accessors.  The
    rendering of a float64 by %v is a parameter [showF]; every definition that
    needs it takes it as an argument.  The rest of the model (Base.v, [err])
    keeps only the kind of an error; [code] maps the errors of this file to it. *)
From Coq Require Import ZArith QArith List String Ascii DecimalString DecimalZ Bool.
From Verif Require Import Base Scalar.
Import ListNotations.
Open Scope Z_scope.

(** ** fmt.Sprintf *)
(** An argument of a format: an int, a float64, or a []interface{} of them. *)
Inductive garg {O : Ops} := GInt (z : Z) | GFlt (x : F) | GList (l : list garg).

Section Fmt.
Context {O : Ops} (showF : F -> string).
Local Open Scope string_scope.
Definition dec (z : Z) : string := NilZero.string_of_int (Z.to_int z).
Fixpoint join (l : list string) : string :=
  match l with [] => "" | [a] => a | a :: r => a ++ " " ++ join r end.
(** Rendering of one argument under the verb %v or %d (package fmt; only these
    two verbs occur in error.go).  %d on a float64 is a bad verb. *)
Fixpoint render (d : bool) (a : garg) : string :=
  match a with
  | GInt z => dec z
  | GFlt x => if d then "%!d(float64=" ++ showF x ++ ")" else showF x
  | GList l => "[" ++ join (List.map (render d) l) ++ "]"
  end.
Definition typeName (a : garg) : string :=
  match a with GInt _ => "int" | GFlt _ => "float64" | GList _ => "[]interface {}" end.
(** Arguments left over at the end of the format: %!(EXTRA type=value, ...). *)
Fixpoint extraList (l : list garg) : string :=
  match l with
  | [] => ""
  | [a] => typeName a ++ "=" ++ render false a
  | a :: r => typeName a ++ "=" ++ render false a ++ ", " ++ extraList r
  end.
Definition extra (l : list garg) : string := match l with [] => "" | _ => "%!(EXTRA " ++ extraList l ++ ")" end.
(** fmt.Sprintf on formats whose only verbs are %v and %d; a lone % at the end is
    %!(NOVERB); any other verb (none occurs) is copied, a simplification. *)
Fixpoint Sprintf (p : string) (args : list garg) : string :=
  match p with
  | EmptyString => extra args
  | String "%" EmptyString => "%!(NOVERB)" ++ extra args
  | String "%" (String c p') =>
      if Ascii.eqb c "v" || Ascii.eqb c "d" then
        match args with
        | [] => "%!" ++ String c "(MISSING)" ++ Sprintf p' []
        | a :: r => render (Ascii.eqb c "d") a ++ Sprintf p' r
        end
      else String "%" (String c (Sprintf p' args))
  | String c p' => String c (Sprintf p' args)
  end.
End Fmt.

(** ** Constants: error.go:12-34, 36-72 *)
Definition FAILURE := -1. Definition SUCCESS := 0. Definition ERANGE := 1. Definition EMAXITER := 2. Definition ESING := 3. Definition EUNSUP := 4.
Definition EARITH := 5. Definition EINV := 6. Definition ENODAT := 7. Definition EMATDIM := 8. Definition EMULTIDIM := 9. Definition ESYMM := 10.
Definition ESQMAT := 11. Definition EDIM := 12. Definition ENOTSPOS := 13. Definition ENOTPOS := 14. Definition ENSMALL := 15. Definition ENBIG := 16.
Definition EILLN := 17. Definition EILLARG := 18. Definition EILLSTATE := 19.

Definition invalid_input := "invalid input"%string.
Definition arithmetic_exception := "arithmetic exception"%string.
Definition zero_norm := "zero norm"%string.
Definition dimensions_mismatch_simple := "%v != %v"%string.
Definition dimensions_mismatch := "dimensions mismatch"%string.
Definition no_data := "no data"%string.
Definition out_of_range_simple := "%v out of [%v, %v] range"%string.
Definition index := "index (%v)"%string.
Definition number_of_elements_should_be_positive := "number of elements should be positive (%v)"%string.
Definition initial_row_after_final_row := "initial row %v after final row %v"%string.
Definition initial_column_after_final_column := "initial column %v after final column %v"%string.
Definition number_too_small := "%v is smaller than the minimum (%v)"%string.
Definition number_too_small_bound_excluded := "%v is smaller than, or equal to, the minimum (%v)"%string.
Definition number_too_large := "%v is larger than the maximum (%v)"%string.
Definition number_too_large_bound_excluded := "%v is larger than, or equal to, the maximum (%v)"%string.
Definition empty_selected_column_index_array := "empty selected column index array"%string.
Definition empty_selected_row_index_array := "empty selected row index array"%string.
Definition row_index := "row index (%v)"%string.
Definition column_index := "column index ((%v)"%string.
Definition illegal_state := "illegal state"%string.
Definition first_rows_not_initialized_yet := "first %v rows are not initialized yet"%string.
Definition first_columns_not_initialized_yet := "first %v columns are not initialized yet"%string.
Definition at_least_one_column := "matrix must have at least one column"%string.
Definition at_least_one_row := "matrix must have at least one row"%string.
Definition dimensions_mismatch_2x2 := "got %vx%v but expected %vx%v"%string.
Definition non_square_matrix := "non square (%vx%v) matrix"%string.
Definition non_symmetric_matrix := "non symmetric matrix: the difference between entries at (%v,%v) and (%v,%v) is larger than %v"%string.
Definition not_positive_definite_matrix := "not positive definite matrix"%string.
Definition array_element := "value %v at index %v"%string.
Definition not_positive_exponent := "invalid exponent %v (must be positive)"%string.
Definition singular_matrix := "matrix is singular"%string.
Definition unsupported_operation := "unsupported operation"%string.
Definition convergence_failed := "convergence failed"%string.
Definition max_count_exceeded := "maximal count (%d) exceeded"%string.
Definition too_large_cutoff_singular_value := "cutoff singular value is {0}, should be at most {1}"%string.

Section Errors.
Context {O : Ops} (showF : F -> string).
Local Open Scope string_scope.
(** float64(n) of an int. *)
Definition f64 (n : Z) : F := flit (inject_Z n).

(** mathError, mathErrorf: error.go:530-532, 546-548. *)
Record mathError := { me_msg : string }.
Definition mathErrorf (pattern : string) (args : list garg) : mathError := {| me_msg := Sprintf showF ("Math Error: " ++ pattern) args |}.
(** addMsg: error.go:542-544.  The receiver is a value: the assignment changes the
    method's own copy, and the result here is what the caller still holds. *)
Definition me_addMsg (e : mathError) (msg : string) : mathError :=
  let copy := {| me_msg := me_msg e ++ " : " ++ msg |} in let _ := copy in e.

(** mathIllegalArgumentError: error.go:498-510. *)
Record mathIllegalArgumentError := { ia_math : mathError }.
Definition mathIllegalArgumentErrorf (pattern : string) (args : list garg) := {| ia_math := mathErrorf pattern args |}.
(** mathIllegalStateError: error.go:512-528; the simple form ignores its arguments. *)
Record mathIllegalStateError := { is_math : mathError }.
Definition mathIllegalStateErrorf (pattern : string) (args : list garg) := {| is_math := mathErrorf pattern args |}.
Definition mathIllegalStateSimpleErrorf (pattern : string) (args : list garg) := mathIllegalStateErrorf illegal_state [].
(** mathIllegalNumberError: error.go:479-496.  [arguments] is passed on as one
    argument of type []interface{}, not spread. *)
Record mathIllegalNumberError := { in_arg : mathIllegalArgumentError; in_argument : F }.
Definition mathIllegalNumberErrorf (pattern : string) (wrong : F) (args : list garg) :=
  {| in_arg := mathIllegalArgumentErrorf pattern [GFlt wrong; GList args]; in_argument := wrong |}.
(** maxIterationError: error.go:74-95. *)
Record maxIterationError := { mi_state : mathIllegalStateError; mi_max : Z }.
Definition maxIterationErrorf (pattern : string) (max : Z) (args : list garg) := {| mi_state := mathIllegalStateErrorf pattern args; mi_max := max |}.
Definition maxIterationSimpleErrorf (max : Z) := maxIterationErrorf max_count_exceeded max [].
(** mathUnsupportedOperationError: error.go:97-109. *)
Record mathUnsupportedOperationError := { uo_math : mathError }.
Definition mathUnsupportedOperationErrorf := {| uo_math := mathErrorf unsupported_operation [] |}.
(** mathArithmeticError: error.go:111-127. *)
Record mathArithmeticError := { ae_math : mathError }.
Definition mathArithmeticErrorf (pattern : string) (args : list garg) := {| ae_math := mathErrorf pattern args |}.
Definition mathArithmeticSimpleErrorf := mathArithmeticErrorf arithmetic_exception [].
(** invalidArgumentError: error.go:129-145. *)
Record invalidArgumentError := { iv_math : mathError }.
Definition invalidArgumentErrorf (pattern : string) (args : list garg) := {| iv_math := mathErrorf pattern args |}.
Definition invalidArgumentSimpleErrorf := invalidArgumentErrorf invalid_input [].
(** noDataError: error.go:147-163. *)
Record noDataError := { nd_arg : mathIllegalArgumentError }.
Definition noDataErrorf (pattern : string) (args : list garg) := {| nd_arg := mathIllegalArgumentErrorf pattern args |}.
Definition noDataErrorSimpleErrorf := noDataErrorf no_data [].
(** multiDimensionMismatchError: error.go:195-241; the loop of lines 228-237 fills
    [args] with the two slices one after the other. *)
Record multiDimensionMismatchError := { md_arg : mathIllegalArgumentError; md_wrong : list Z; md_expected : list Z }.
Definition multiDimensionMismatchErrorf (pattern : string) (wrong expected : list Z) :=
  {| md_arg := mathIllegalArgumentErrorf pattern (List.map GInt (wrong ++ expected)%list); md_wrong := wrong; md_expected := expected |}.
Definition multiDimensionMismatchSimpleErrorf (wrong expected : list Z) := multiDimensionMismatchErrorf dimensions_mismatch wrong expected.
Definition md_WrongDimension (e : multiDimensionMismatchError) (i : Z) : res Z := zget (md_wrong e) i.
Definition md_ExpectedDimension (e : multiDimensionMismatchError) (i : Z) : res Z := zget (md_expected e) i.
(** matrixDimensionMismatchError: error.go:165-193. *)
Record matrixDimensionMismatchError := { xd_multi : multiDimensionMismatchError }.
Definition matrixDimensionMismatchErrorf (wr wc er ec : Z) :=
  {| xd_multi := multiDimensionMismatchErrorf dimensions_mismatch_2x2 [wr; wc] [er; ec] |}.
Definition xd_WrongRowDimension e := md_WrongDimension (xd_multi e) 0.
Definition xd_ExpectedRowDimension e := md_ExpectedDimension (xd_multi e) 0.
Definition xd_WrongColumnDimension e := md_WrongDimension (xd_multi e) 1.
Definition xd_ExpectedColumnDimension e := md_ExpectedDimension (xd_multi e) 1.
(** nonSymmetricMatrixError: error.go:243-273. *)
Record nonSymmetricMatrixError := { ns_arg : mathIllegalArgumentError; ns_row : Z; ns_column : Z; ns_threshold : F }.
Definition nonSymmetricMatrixErrorf (pattern : string) (row column : Z) (threshold : F) :=
  {| ns_arg := mathIllegalArgumentErrorf pattern [GInt row; GInt column; GInt column; GInt row; GFlt threshold]; ns_row := row; ns_column := column; ns_threshold := threshold |}.
Definition nonSymmetricMatrixSimpleErrorf := nonSymmetricMatrixErrorf non_symmetric_matrix.
(** dimensionsMismatchError: error.go:293-310. *)
Record dimensionsMismatchError := { dm_num : mathIllegalNumberError; dm_dimension : Z }.
Definition dimensionsMismatchErrorf (pattern : string) (wrong expected : Z) :=
  {| dm_num := mathIllegalNumberErrorf pattern (f64 wrong) [GInt expected]; dm_dimension := expected |}.
Definition dimensionsMismatchSimpleErrorf := dimensionsMismatchErrorf dimensions_mismatch_simple.
(** nonSquareMatrixError: error.go:275-291. *)
Record nonSquareMatrixError := { nq_dim : dimensionsMismatchError }.
Definition nonSquareMatrixErrorf (pattern : string) (wrong expected : Z) := {| nq_dim := dimensionsMismatchErrorf pattern wrong expected |}.
Definition nonSquareMatrixSimpleErrorf := nonSquareMatrixErrorf non_square_matrix.
(** numberIsTooSmallError: error.go:447-477. *)
Record numberIsTooSmallError := { ts_num : mathIllegalNumberError; ts_min : F; ts_allowed : bool }.
Definition numberIsTooSmallErrorf (pattern : string) (wrong min : F) (allowed : bool) :=
  {| ts_num := mathIllegalNumberErrorf pattern wrong [GFlt min]; ts_min := min; ts_allowed := allowed |}.
Definition numberIsTooSmallBoundedErrorf (wrong min : F) (allowed : bool) :=
  if allowed then numberIsTooSmallErrorf number_too_small wrong min allowed else numberIsTooSmallErrorf number_too_small_bound_excluded wrong min allowed.
(** numberIsTooLargeError: error.go:415-445. *)
Record numberIsTooLargeError := { tl_num : mathIllegalNumberError; tl_max : F; tl_allowed : bool }.
Definition numberIsTooLargeErrorf (pattern : string) (wrong max : F) (allowed : bool) :=
  {| tl_num := mathIllegalNumberErrorf pattern wrong [GFlt max]; tl_max := max; tl_allowed := allowed |}.
Definition numberIsTooLargeBoundedErrorf (wrong max : F) (allowed : bool) :=
  if allowed then numberIsTooLargeErrorf number_too_large wrong max allowed else numberIsTooLargeErrorf number_too_large_bound_excluded wrong max allowed.
(** notStrictlyPositiveError, notPositiveError: error.go:312-338. *)
Record notStrictlyPositiveError := { sp_small : numberIsTooSmallError }.
Definition notStrictlyPositiveErrorf (number : F) := {| sp_small := numberIsTooSmallBoundedErrorf number fzero true |}.
Record notPositiveError := { np_small : numberIsTooSmallError }.
Definition notPositiveErrorf (pattern : string) (number : F) := {| np_small := numberIsTooSmallErrorf pattern number fzero true |}.
(** outOfRangeError: error.go:340-365. *)
Record outOfRangeError := { or_num : mathIllegalNumberError; or_lo : F; or_high : F }.
Definition outOfRangeErrorf (pattern : string) (wrong lo high : F) :=
  {| or_num := mathIllegalNumberErrorf pattern wrong [GFlt lo; GFlt high]; or_lo := lo; or_high := high |}.
Definition outOfRangeSimpleErrorf := outOfRangeErrorf out_of_range_simple.
(** nonPositiveDefiniteMatrixError: error.go:367-395; [addMsg] is promoted from the
    embedded mathError. *)
Record nonPositiveDefiniteMatrixError := { pd_small : numberIsTooSmallError; pd_index : Z; pd_threshold : F }.
Definition pd_addMsg (e : nonPositiveDefiniteMatrixError) (msg : string) : nonPositiveDefiniteMatrixError :=
  let s := pd_small e in let n := ts_num s in let a := in_arg n in
  {| pd_small := {| ts_num := {| in_arg := {| ia_math := me_addMsg (ia_math a) msg |}; in_argument := in_argument n |}; ts_min := ts_min s; ts_allowed := ts_allowed s |};
     pd_index := pd_index e; pd_threshold := pd_threshold e |}.
Definition nonPositiveDefiniteMatrixErrorf (wrong : F) (i : Z) (threshold : F) :=
  let ret := {| pd_small := numberIsTooSmallBoundedErrorf wrong threshold false; pd_index := i; pd_threshold := threshold |} in
  let ret := pd_addMsg ret not_positive_definite_matrix in
  pd_addMsg ret (Sprintf showF array_element [GFlt wrong; GInt i]).
(** singularMatrixError: error.go:397-413. *)
Record singularMatrixError := { sg_arg : mathIllegalArgumentError }.
Definition singularMatrixErrorf (pattern : string) (args : list garg) := {| sg_arg := mathIllegalArgumentErrorf pattern args |}.
Definition singularMatrixSimpleErrorf := singularMatrixErrorf singular_matrix [].

(** ** The interface LinearMathError: error.go:7-10 *)
Inductive LinearMathError :=
| LMaxIteration (e : maxIterationError)
| LUnsupported (e : mathUnsupportedOperationError)
| LArithmetic (e : mathArithmeticError)
| LInvalidArgument (e : invalidArgumentError)
| LNoData (e : noDataError)
| LMatrixDimension (e : matrixDimensionMismatchError)
| LMultiDimension (e : multiDimensionMismatchError)
| LNonSymmetric (e : nonSymmetricMatrixError)
| LNonSquare (e : nonSquareMatrixError)
| LDimension (e : dimensionsMismatchError)
| LNotStrictlyPositive (e : notStrictlyPositiveError)
| LNotPositive (e : notPositiveError)
| LOutOfRange (e : outOfRangeError)
| LNonPositiveDefinite (e : nonPositiveDefiniteMatrixError)
| LSingular (e : singularMatrixError)
| LTooLarge (e : numberIsTooLargeError)
| LTooSmall (e : numberIsTooSmallError)
| LIllegalNumber (e : mathIllegalNumberError)
| LIllegalArgument (e : mathIllegalArgumentError)
| LIllegalState (e : mathIllegalStateError)
| LMath (e : mathError).
(** Status of each type: error.go:83, 101, 115, 133, 151, 169, 200, 249, 279, 298,
    316, 330, 345, 373, 401, 421, 453, 484, 502, 516, 534. *)
Definition Status (e : LinearMathError) : Z :=
  match e with
  | LMaxIteration _ => EMAXITER | LUnsupported _ => EUNSUP | LArithmetic _ => EARITH | LInvalidArgument _ => EINV | LNoData _ => ENODAT
  | LMatrixDimension _ => EMATDIM | LMultiDimension _ => EMULTIDIM | LNonSymmetric _ => ESYMM | LNonSquare _ => ESQMAT | LDimension _ => EDIM
  | LNotStrictlyPositive _ => ENOTSPOS | LNotPositive _ => ENOTPOS | LOutOfRange _ => ERANGE | LNonPositiveDefinite _ => ENSMALL | LSingular _ => ESING
  | LTooLarge _ => ENBIG | LTooSmall _ => ENSMALL | LIllegalNumber _ => EILLN | LIllegalArgument _ => EILLARG | LIllegalState _ => EILLSTATE | LMath _ => FAILURE
  end.
(** The embedded mathIllegalNumberError, when the type has one (Argument, error.go:488-490). *)
Definition number (e : LinearMathError) : option mathIllegalNumberError :=
  match e with
  | LNonSquare e => Some (dm_num (nq_dim e)) | LDimension e => Some (dm_num e) | LNotStrictlyPositive e => Some (ts_num (sp_small e))
  | LNotPositive e => Some (ts_num (np_small e)) | LOutOfRange e => Some (or_num e) | LNonPositiveDefinite e => Some (ts_num (pd_small e))
  | LTooLarge e => Some (tl_num e) | LTooSmall e => Some (ts_num e) | LIllegalNumber e => Some e
  | _ => None
  end.
(** The embedded mathError, and Error of error.go:538-540, promoted to every type. *)
Definition base (e : LinearMathError) : mathError :=
  match e with
  | LMaxIteration e => is_math (mi_state e) | LUnsupported e => uo_math e | LArithmetic e => ae_math e | LInvalidArgument e => iv_math e
  | LNoData e => ia_math (nd_arg e) | LMatrixDimension e => ia_math (md_arg (xd_multi e)) | LMultiDimension e => ia_math (md_arg e)
  | LNonSymmetric e => ia_math (ns_arg e) | LNonSquare e => ia_math (in_arg (dm_num (nq_dim e))) | LDimension e => ia_math (in_arg (dm_num e))
  | LNotStrictlyPositive e => ia_math (in_arg (ts_num (sp_small e))) | LNotPositive e => ia_math (in_arg (ts_num (np_small e)))
  | LOutOfRange e => ia_math (in_arg (or_num e)) | LNonPositiveDefinite e => ia_math (in_arg (ts_num (pd_small e)))
  | LSingular e => ia_math (sg_arg e) | LTooLarge e => ia_math (in_arg (tl_num e)) | LTooSmall e => ia_math (in_arg (ts_num e))
  | LIllegalNumber e => ia_math (in_arg e) | LIllegalArgument e => ia_math e | LIllegalState e => is_math e | LMath e => e
  end.
Definition Error (e : LinearMathError) : string := me_msg (base e).
(** The bound of a number error: value, whether it is allowed (error.go:425-431, 457-463). *)
Definition lower (e : LinearMathError) : option (F * bool) :=
  match e with
  | LNotStrictlyPositive e => Some (ts_min (sp_small e), ts_allowed (sp_small e)) | LNotPositive e => Some (ts_min (np_small e), ts_allowed (np_small e))
  | LNonPositiveDefinite e => Some (ts_min (pd_small e), ts_allowed (pd_small e)) | LTooSmall e => Some (ts_min e, ts_allowed e)
  | _ => None
  end.
Definition upper (e : LinearMathError) : option (F * bool) := match e with LTooLarge e => Some (tl_max e, tl_allowed e) | _ => None end.
(** The kind kept by the rest of the model. *)
Definition code (e : LinearMathError) : err :=
  match e with
  | LMaxIteration _ => EMaxIter | LUnsupported _ => EUnsupported | LArithmetic _ => EArithmetic | LInvalidArgument _ => EInvalidArgument | LNoData _ => ENoData
  | LMatrixDimension _ => EMatDimMismatch | LMultiDimension _ => EMatDimMismatch | LNonSymmetric e => ENonSymmetric (ns_row e) (ns_column e) | LNonSquare _ => ENonSquare
  | LDimension _ => EDimMismatch | LNotStrictlyPositive _ => ENotStrictlyPositive | LNotPositive _ => ENotPositive | LOutOfRange _ => EOutOfRange
  | LNonPositiveDefinite _ => ENonPosDef | LSingular _ => ESingular | LTooLarge _ => ETooLarge | LTooSmall _ => ETooSmall
  | LIllegalNumber _ => EInvalidArgument | LIllegalArgument _ => EInvalidArgument | LIllegalState _ => EIllegalState | LMath _ => EString
  end.

(** ** The checks of the package, with the error they return *)
Local Open Scope Z_scope.
Definition orelse (a b : option LinearMathError) : option LinearMathError := match a with Some _ => a | None => b end.
(** checkIndex, checkIndices, checkDimensions: array_real_vector.go:613-647;
    float64(dim)-1 of line 616 is one float subtraction. *)
Definition checkIndexE (dim idx : Z) : option LinearMathError :=
  if (idx <? 0) || (dim <=? idx) then Some (LOutOfRange (outOfRangeErrorf index (f64 idx) fzero (f64 dim - fone)%f)) else None.
Definition checkIndicesE (dim start end_ : Z) : option LinearMathError :=
  if (start <? 0) || (dim <=? start) then Some (LOutOfRange (outOfRangeErrorf index (f64 start) fzero (f64 (dim - 1)))) else
  if (end_ <? 0) || (dim <=? end_) then Some (LOutOfRange (outOfRangeErrorf index (f64 end_) fzero (f64 (dim - 1)))) else
  if end_ <? start then Some (LTooSmall (numberIsTooSmallErrorf initial_row_after_final_row (f64 end_) (f64 start) false)) else None.
Definition checkDimensionsE (dim n : Z) : option LinearMathError :=
  if dim =? n then None else Some (LDimension (dimensionsMismatchSimpleErrorf dim n)).
(** checkAdditionCompatible, checkMultiplicationCompatible, checkRowIndex,
    checkColumnIndex, checkSubMatrixIndex, checkSubMatrixIndexFromIndices:
    array_2d_row_real_matrix.go:833-939; the matrix is given by its dimensions. *)
Definition checkAdditionCompatibleE (lr lc rr rc : Z) : option LinearMathError :=
  if (lr =? rr) && (lc =? rc) then None else Some (LMatrixDimension (matrixDimensionMismatchErrorf lr lc rr rc)).
Definition checkMultiplicationCompatibleE (lc rr : Z) : option LinearMathError :=
  if lc =? rr then None else Some (LDimension (dimensionsMismatchSimpleErrorf lc rr)).
Definition checkRowIndexE (rows row : Z) : option LinearMathError :=
  if (row <? 0) || (rows <=? row) then Some (LOutOfRange (outOfRangeErrorf row_index (f64 row) fzero (f64 (rows - 1)))) else None.
Definition checkColumnIndexE (cols column : Z) : option LinearMathError :=
  if (column <? 0) || (cols <=? column) then Some (LOutOfRange (outOfRangeErrorf column_index (f64 column) fzero (f64 (cols - 1)))) else None.
Definition checkMatrixIndexE (rows cols row column : Z) := orelse (checkRowIndexE rows row) (checkColumnIndexE cols column).
Definition checkSubMatrixIndexE (rows cols sr er sc ec : Z) : option LinearMathError :=
  orelse (checkRowIndexE rows sr) (orelse (checkRowIndexE rows er)
  (if er <? sr then Some (LTooSmall (numberIsTooSmallErrorf initial_row_after_final_row (f64 er) (f64 sr) false)) else
  orelse (checkColumnIndexE cols sc) (orelse (checkColumnIndexE cols ec)
  (if ec <? sc then Some (LTooSmall (numberIsTooSmallErrorf initial_column_after_final_column (f64 ec) (f64 sc) false)) else None)))).
Definition checkSubMatrixIndexFromIndicesE (rows cols : Z) (sr sc : option (list Z)) : option LinearMathError :=
  match sr, sc with
  | Some sr, Some sc =>
      if len sr =? 0 then Some (LNoData (noDataErrorf empty_selected_row_index_array [])) else
      if len sc =? 0 then Some (LNoData (noDataErrorf empty_selected_column_index_array [])) else
      orelse (fold_left (fun acc r => orelse acc (checkRowIndexE rows r)) sr None) (fold_left (fun acc c => orelse acc (checkColumnIndexE cols c)) sc None)
  | _, _ => Some (LInvalidArgument invalidArgumentSimpleErrorf)
  end.
(** The dimension test of NewArray2DRowRealMatrix and NewBlockRealMatrix:
    array_2d_row_real_matrix.go:25-30, block_real_matrix.go:65-70. *)
Definition checkShapeE (rows cols : Z) : option LinearMathError :=
  if rows <? 1 then Some (LNotStrictlyPositive (notStrictlyPositiveErrorf (f64 rows))) else
  if cols <? 1 then Some (LNotStrictlyPositive (notStrictlyPositiveErrorf (f64 cols))) else None.
(** ensureZero: diagonal_matrix.go:228-234. *)
Definition ensureZeroE (value : F) : option LinearMathError :=
  if fulp1 fzero value then None else Some (LTooLarge (numberIsTooLargeBoundedErrorf (fabs value) fzero true)).
End Errors.

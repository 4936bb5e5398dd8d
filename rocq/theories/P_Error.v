(** Properties C62 and C63: the errors of error.go.  [says e p args] (ErrSpec.v):
    the message of [e] is "Math Error: " and the pattern [p] with its verbs replaced
    by the arguments in order; [showF] is the rendering of a float64, any function.
    [inl] is a float64 argument, [inr] an int. *)
From Coq Require Import ZArith QArith List String Ascii Bool Lia.
From Verif Require Import Base Scalar Vector Matrix Array2D BlockM Float64 ExampleOps ErrorGo ErrSpec ErrFacts.
Import ListNotations.
Open Scope Z_scope.

(** C62, full statement: Error() is the documented text filled with the offending
    values.  It holds for every error that is not a number error; for those see below. *)
Theorem C62_messages_partial : forall (O : Ops) (showF : F -> string),
  (forall wr wc er ec, says showF (LMatrixDimension (matrixDimensionMismatchErrorf showF wr wc er ec)) "got %vx%v but expected %vx%v" [inr wr; inr wc; inr er; inr ec]) /\
  (forall i j t, says showF (LNonSymmetric (nonSymmetricMatrixSimpleErrorf showF i j t))
     "non symmetric matrix: the difference between entries at (%v,%v) and (%v,%v) is larger than %v" [inr i; inr j; inr j; inr i; inl t]) /\
  (forall n, says showF (LIllegalState (mathIllegalStateErrorf showF first_rows_not_initialized_yet [GInt n])) "first %v rows are not initialized yet" [inr n]) /\
  (forall n, says showF (LIllegalState (mathIllegalStateErrorf showF first_columns_not_initialized_yet [GInt n])) "first %v columns are not initialized yet" [inr n]) /\
  (forall d m i, says showF (LSingular (singularMatrixErrorf showF (singular_matrix ++ " : " ++ number_too_small ++ " : " ++ index)%string [GFlt d; GFlt m; GInt i]))
     "matrix is singular : %v is smaller than the minimum (%v) : index (%v)" [inl d; inl m; inr i]) /\
  Error (LSingular (singularMatrixSimpleErrorf showF)) = "Math Error: matrix is singular"%string /\
  Error (LInvalidArgument (invalidArgumentSimpleErrorf showF)) = "Math Error: invalid input"%string /\
  Error (LUnsupported (mathUnsupportedOperationErrorf showF)) = "Math Error: unsupported operation"%string /\
  Error (LArithmetic (mathArithmeticErrorf showF zero_norm [])) = "Math Error: zero norm"%string /\
  Error (LNoData (noDataErrorf showF at_least_one_row [])) = "Math Error: matrix must have at least one row"%string /\
  Error (LNoData (noDataErrorf showF at_least_one_column [])) = "Math Error: matrix must have at least one column"%string /\
  (forall k, Error (LMaxIteration (maxIterationErrorf showF convergence_failed k [])) = "Math Error: convergence failed"%string).
Proof. exact @messages. Qed.
Print Assumptions C62_messages_partial.

(** No number error says its text, whatever the arguments: mathIllegalNumberErrorf
    passes its remaining arguments as one list; addMsg changes a copy, so
    "not positive definite matrix" is lost; maxIterationSimpleErrorf drops its count. *)
Theorem C62_refuted : forall (O : Ops) (showF : F -> string),
  (forall w lo hi, ~ says showF (LOutOfRange (outOfRangeErrorf showF index w lo hi)) "index (%v)" [inl w; inl lo; inl hi]) /\
  (forall w lo hi, ~ says showF (LOutOfRange (outOfRangeErrorf showF row_index w lo hi)) "row index (%v)" [inl w; inl lo; inl hi]) /\
  (forall w lo hi, ~ says showF (LOutOfRange (outOfRangeErrorf showF column_index w lo hi)) "column index ((%v)" [inl w; inl lo; inl hi]) /\
  (forall w lo hi, ~ says showF (LOutOfRange (outOfRangeSimpleErrorf showF w lo hi)) "%v out of [%v, %v] range" [inl w; inl lo; inl hi]) /\
  (forall w n, ~ says showF (LDimension (dimensionsMismatchSimpleErrorf showF w n)) "%v != %v" [inl (f64 w); inr n]) /\
  (forall w n, ~ says showF (LNonSquare (nonSquareMatrixSimpleErrorf showF w n)) "non square (%vx%v) matrix" [inl (f64 w); inr n]) /\
  (forall w m, ~ says showF (LTooSmall (numberIsTooSmallErrorf showF initial_row_after_final_row w m false)) "initial row %v after final row %v" [inl w; inl m]) /\
  (forall w m, ~ says showF (LTooLarge (numberIsTooLargeBoundedErrorf showF w m true)) "%v is larger than the maximum (%v)" [inl w; inl m]) /\
  (forall w, ~ says showF (LNotStrictlyPositive (notStrictlyPositiveErrorf showF w)) "%v is smaller than the minimum (%v)" [inl w; inl fzero]) /\
  (forall w i t, ~ says showF (LNonPositiveDefinite (nonPositiveDefiniteMatrixErrorf showF w i t)) "%v is smaller than, or equal to, the minimum (%v) : not positive definite matrix : value %v at index %v" [inl w; inl t; inl w; inr i]) /\
  (forall k, ~ says showF (LMaxIteration (maxIterationSimpleErrorf showF k)) "maximal count (%d) exceeded" [inr k]).
Proof. exact @number_messages. Qed.
Print Assumptions C62_refuted.

(** What they say instead: the right numbers, all but the first in brackets. *)
Theorem C62_number_text : forall (O : Ops) (showF : F -> string),
  (forall w lo hi, Error (LOutOfRange (outOfRangeErrorf showF row_index w lo hi)) = ("Math Error: row index (" ++ showF w ++ ")%!(EXTRA []interface {}=[" ++ showF lo ++ " " ++ showF hi ++ "])")%string) /\
  (forall w n, Error (LDimension (dimensionsMismatchSimpleErrorf showF w n)) = ("Math Error: " ++ showF (f64 w) ++ " != [" ++ dec n ++ "]")%string) /\
  (forall w n, Error (LNonSquare (nonSquareMatrixSimpleErrorf showF w n)) = ("Math Error: non square (" ++ showF (f64 w) ++ "x[" ++ dec n ++ "]) matrix")%string) /\
  (forall w m a, Error (LTooSmall (numberIsTooSmallBoundedErrorf showF w m a)) =
     ("Math Error: " ++ showF w ++ (if a then " is smaller than the minimum ([" else " is smaller than, or equal to, the minimum ([") ++ showF m ++ "])")%string) /\
  (forall w m a, Error (LTooLarge (numberIsTooLargeBoundedErrorf showF w m a)) =
     ("Math Error: " ++ showF w ++ (if a then " is larger than the maximum ([" else " is larger than, or equal to, the maximum ([") ++ showF m ++ "])")%string) /\
  (forall w, Error (LNotStrictlyPositive (notStrictlyPositiveErrorf showF w)) = ("Math Error: " ++ showF w ++ " is smaller than the minimum ([" ++ showF fzero ++ "])")%string) /\
  (forall w i t, Error (LNonPositiveDefinite (nonPositiveDefiniteMatrixErrorf showF w i t)) = ("Math Error: " ++ showF w ++ " is smaller than, or equal to, the minimum ([" ++ showF t ++ "])")%string).
Proof. exact @number_text. Qed.
Print Assumptions C62_number_text.

(** The messages a user sees, with a stand-in rendering of 7 and 0 and 2. *)
Definition show_ex (x : @F E64) : string := if @feq E64 x (f64 7) then "7" else if @feq E64 x (f64 0) then "0" else if @feq E64 x (f64 2) then "2" else "?".
Example C62_ex :
  option_map Error (checkRowIndexE (O := E64) show_ex 3 7) = Some "Math Error: row index (7)%!(EXTRA []interface {}=[0 2])"%string /\
  option_map Error (checkMultiplicationCompatibleE (O := E64) show_ex 7 2) = Some "Math Error: 7 != [2]"%string /\
  option_map Error (checkIndicesE (O := E64) show_ex 9 7 2) = Some "Math Error: initial row 2 after final row [7]"%string /\
  Error (O := E64) (LOutOfRange (outOfRangeSimpleErrorf show_ex (f64 7) (f64 0) (f64 2))) = "Math Error: 7 out of [[0 2], %!v(MISSING)] range"%string /\
  Error (O := E64) (LMaxIteration (maxIterationSimpleErrorf show_ex 30)) = "Math Error: maximal count (%!d(MISSING)) exceeded"%string /\
  option_map Error (checkAdditionCompatibleE (O := E64) show_ex 2 3 4 5) = Some "Math Error: got 2x3 but expected 4x5"%string.
Proof. repeat split; vm_compute; reflexivity. Qed.

(** C63.  The checks of the library return exactly these error values ... *)
Theorem C63_checks : forall (O : Ops) (showF : F -> string) (m : RealMatrix) r c, m_rows m = r -> m_cols m = Ok c ->
  (forall dim i, agrees (checkIndex dim i) (checkIndexE showF dim i)) /\
  (forall dim s e, agrees (checkIndices dim s e) (checkIndicesE showF dim s e)) /\
  (forall dim n, agrees (checkDimensions dim n) (checkDimensionsE showF dim n)) /\
  (forall i, agrees (checkRowIndex m i) (checkRowIndexE showF r i)) /\
  (forall i, agrees (checkColumnIndex m i) (checkColumnIndexE showF c i)) /\
  (forall i j, agrees (checkMatrixIndex m i j) (checkMatrixIndexE showF r c i j)) /\
  (forall sr er sc ec, agrees (checkSubMatrixIndex m sr er sc ec) (checkSubMatrixIndexE showF r c sr er sc ec)) /\
  (forall rs cs, agrees (checkSubMatrixIndexFromIndices m rs cs) (checkSubMatrixIndexFromIndicesE showF r c rs cs)) /\
  (forall m' r' c', m_rows m' = r' -> m_cols m' = Ok c' -> agrees (checkAdditionCompatible m m') (checkAdditionCompatibleE showF r c r' c') /\
     agrees (checkMultiplicationCompatible m m') (checkMultiplicationCompatibleE showF c r')).
Proof. exact @checks_agree. Qed.
Print Assumptions C63_checks.
(** ... as do the constructors ... *)
Theorem C63_shape : forall (O : Ops) (showF : F -> string) r c,
  match checkShapeE showF r c with Some e => NewArray2DRowRealMatrix r c = Err (code e) /\ NewBlockRealMatrix r c = Err (code e) | None => 1 <= r /\ 1 <= c end.
Proof. exact @shape_agrees. Qed.
Print Assumptions C63_shape.
(** ... an index error carries the refused index and the legal range, and only an
    illegal index is refused ... *)
Theorem C63_range : forall (O : Ops) (showF : F -> string),
  (forall dim i e, checkIndexE showF dim i = Some e -> reports_range e (f64 i) fzero (f64 dim - fone)%f /\ ~ 0 <= i < dim) /\
  (forall r i e, checkRowIndexE showF r i = Some e -> reports_range e (f64 i) fzero (f64 (r - 1)) /\ ~ 0 <= i < r) /\
  (forall c i e, checkColumnIndexE showF c i = Some e -> reports_range e (f64 i) fzero (f64 (c - 1)) /\ ~ 0 <= i < c).
Proof. exact @range_reports. Qed.
Print Assumptions C63_range.
(** ... a shape error carries both shapes. *)
Theorem C63_dims : forall (O : Ops) (showF : F -> string) lr lc rr rc e, checkAdditionCompatibleE showF lr lc rr rc = Some e ->
  (lr <> rr \/ lc <> rc) /\ exists d, e = LMatrixDimension d /\ xd_WrongRowDimension d = Ok lr /\ xd_WrongColumnDimension d = Ok lc /\ xd_ExpectedRowDimension d = Ok rr /\ xd_ExpectedColumnDimension d = Ok rc.
Proof. exact @dims_report. Qed.
Print Assumptions C63_dims.
(** Full statement: the status tells the types apart.  Missing: one pair. *)
Theorem C63_status_partial : forall (O : Ops) (e e' : LinearMathError), Status e = Status e' ->
  same_type e e' \/ (exists a b, e = LNonPositiveDefinite a /\ e' = LTooSmall b) \/ (exists a b, e = LTooSmall a /\ e' = LNonPositiveDefinite b).
Proof. exact @status_types. Qed.
Print Assumptions C63_status_partial.
Theorem C63_status_refuted : forall (showF : @F E64 -> string), exists a b,
  Status (LNonPositiveDefinite (nonPositiveDefiniteMatrixErrorf showF a 0 b)) = Status (LTooSmall (numberIsTooSmallErrorf showF initial_row_after_final_row a b false)).
Proof. exact status_refuted. Qed.
Print Assumptions C63_status_refuted.
(** Full statement: IsBoundAllowed tells whether the bound itself is legal.  False:
    a matrix with 0 rows is refused by an error that says 0 is allowed. *)
Theorem C63_bound_refuted : forall (showF : @F E64 -> string) c, exists e, NewArray2DRowRealMatrix (O := E64) 0 c = Err (code e) /\ checkShapeE showF 0 c = Some e /\
  exists n, number e = Some n /\ lower e = Some (sf_zero, true) /\ @feq E64 (in_argument n) sf_zero = true.
Proof. exact bound_refuted. Qed.
Print Assumptions C63_bound_refuted.
(** The number errors carry the refused number and the bound it broke. *)
Theorem C63_bounds : forall (O : Ops) (showF : F -> string),
  (forall dim s e x, checkIndicesE showF dim s e = Some x -> 0 <= s < dim -> 0 <= e < dim -> reports_lower x (f64 e) (f64 s) false /\ e < s) /\
  (forall v, agrees (Matrix.ensureZero v) (ensureZeroE showF v)) /\
  (forall v x, ensureZeroE showF v = Some x -> reports_upper x (fabs v) fzero true /\ Status x = 16) /\
  (forall r c x, checkShapeE showF r c = Some x -> (r < 1 /\ reports_lower x (f64 r) fzero true) \/ (c < 1 /\ reports_lower x (f64 c) fzero true)) /\
  (forall w m a, reports_lower (LTooSmall (numberIsTooSmallBoundedErrorf showF w m a)) w m a /\ reports_upper (LTooLarge (numberIsTooLargeBoundedErrorf showF w m a)) w m a) /\
  (forall w i t, let x := nonPositiveDefiniteMatrixErrorf showF w i t in reports_lower (LNonPositiveDefinite x) w t false /\ pd_index x = i /\ pd_threshold x = t).
Proof. exact @bounds_report. Qed.
Print Assumptions C63_bounds.
Example C63_ex : exists (m : @RealMatrix E64), m_rows m = 2 /\ m_cols m = Ok 3 /\ checkRowIndex m 5 = Err EOutOfRange /\
  (exists e, checkRowIndexE (O := E64) show_ex 2 5 = Some e /\ Status e = 1) /\ (exists e, checkAdditionCompatibleE (O := E64) show_ex 2 3 2 4 = Some e /\ Status e = 8).
Proof. exists (MArr (mkA2D (Some (flss [[1; 2; 3]; [4; 5; 6]])))). repeat split; try reflexivity; eexists; split; reflexivity. Qed.

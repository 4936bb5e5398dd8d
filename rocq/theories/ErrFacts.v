(** Proofs about error.go. *)
From Coq Require Import ZArith QArith List String Ascii DecimalString Bool Lia.
From Verif Require Import Base BaseLemmas Scalar Vector Matrix Array2D BlockM ErrorGo ErrSpec.
Import ListNotations.
Open Scope Z_scope.

Lemma append_length s t : String.length (s ++ t)%string = (String.length s + String.length t)%nat.
Proof. induction s; cbn; auto. Qed.

Section S.
Context {O : Ops} (showF : F -> string).
Definition garg_of (a : F + Z) : garg := match a with inl x => GFlt x | inr z => GInt z end.

(** The pattern has no % but in %v. *)
Fixpoint verbs (p : string) : option nat :=
  match p with
  | EmptyString => Some 0%nat
  | String "%" (String "v" p') => match verbs p' with Some n => Some (S n) | None => None end
  | String "%" _ => None
  | String _ p' => verbs p'
  end.
Lemma Sprintf_char c p args : c <> "%"%char -> Sprintf showF (String c p) args = String c (Sprintf showF p args).
Proof. intros H. destruct c as [b0 b1 b2 b3 b4 b5 b6 b7]. destruct b0, b1, b2, b3, b4, b5, b6, b7; try reflexivity. destruct H; reflexivity. Qed.
Lemma verbs_char c p : c <> "%"%char -> verbs (String c p) = verbs p.
Proof. intros H. destruct c as [b0 b1 b2 b3 b4 b5 b6 b7]. destruct b0, b1, b2, b3, b4, b5, b6, b7; try reflexivity. destruct H; reflexivity. Qed.
Lemma Sprintf_fills : forall p args, verbs p = Some (List.length args) -> fills p (List.map (word showF) args) (Sprintf showF p (List.map garg_of args)).
Proof.
  assert (K : forall n p args, (String.length p <= n)%nat -> verbs p = Some (List.length args) -> fills p (List.map (word showF) args) (Sprintf showF p (List.map garg_of args))).
  { induction n as [|n IH]; intros p args Hn H.
    - destruct p; [|cbn in Hn; lia]. destruct args; [|discriminate H]. constructor.
    - destruct p as [|c p].
      + destruct args; [|discriminate H]. constructor.
      + destruct (ascii_dec c "%") as [->|Hc].
        * destruct p as [|c p]; [discriminate H|]. destruct (ascii_dec c "v") as [->|Hc].
          -- cbn [verbs] in H. destruct (verbs p) as [k|] eqn:E; [|discriminate H]. injection H as H. destruct args as [|a args]; [discriminate H|]. injection H as ->.
             cbn [List.map Sprintf Ascii.eqb Bool.eqb orb].
             replace (render showF false (garg_of a)) with (word showF a) by (destruct a; reflexivity).
             apply fills_verb; [auto|]. apply IH; auto. cbn in Hn. lia.
          -- exfalso. clear - H Hc. cbn [verbs] in H. destruct c as [b0 b1 b2 b3 b4 b5 b6 b7]. destruct b0, b1, b2, b3, b4, b5, b6, b7; try discriminate H. apply Hc; reflexivity.
        * rewrite Sprintf_char by auto. rewrite verbs_char in H by auto. constructor; [auto|]. apply IH; auto. cbn in Hn. lia. }
  intros. eapply K; eauto.
Qed.
Lemma fills_det p ws s s' : fills p ws s -> fills p ws s' -> s = s'.
Proof.
  intros H. revert s'. induction H as [|c p ws s Hc H IH|c p w ws s Hc H IH]; intros s' H'.
  - inversion H'; auto.
  - inversion H' as [|? ? ? ? ? K|]; subst; [f_equal; auto|]. destruct Hc; reflexivity.
  - inversion H' as [|? ? ? ? N| ? ? ? ? ? ? K]; subst; [destruct N; reflexivity|]. f_equal; auto.
Qed.
Lemma fills_length p ws s : fills p ws s -> (String.length s + 2 * List.length ws = String.length p + list_sum (List.map String.length ws))%nat.
Proof.
  induction 1 as [|c p ws s Hc H IH|c p w ws s Hc H IH]; [reflexivity|cbn [String.length]; lia|].
  cbn [String.length List.length List.map list_sum fold_right] in *. rewrite append_length. unfold list_sum in *. cbn [fold_right]. lia.
Qed.
Lemma fills_verbs p ws s n : fills p ws s -> verbs p = Some n -> List.length ws = n.
Proof.
  intros H. revert n. induction H as [|c p ws s Hc H IH|c p w ws s Hc H IH]; intros n E.
  - injection E as <-. reflexivity.
  - rewrite verbs_char in E by auto. auto.
  - destruct Hc as [-> | ->]; [|discriminate E]. cbn [verbs] in E. destruct (verbs p) as [k|]; [|discriminate E]. injection E as <-. cbn. f_equal. auto.
Qed.

Lemma says_of e pattern used rest args : base e = mathErrorf showF pattern (List.map garg_of used) -> args = (used ++ rest)%list -> verbs pattern = Some (List.length used) -> says showF e pattern args.
Proof.
  intros E -> V. exists used, rest. split; [reflexivity|]. unfold Error. rewrite E. cbn [me_msg mathErrorf]. apply Sprintf_fills. cbn. auto.
Qed.

Lemma messages :
  (forall wr wc er ec, says showF (LMatrixDimension (matrixDimensionMismatchErrorf showF wr wc er ec)) "got %vx%v but expected %vx%v" [inr wr; inr wc; inr er; inr ec]) /\
  (forall i j t, says showF (LNonSymmetric (nonSymmetricMatrixSimpleErrorf showF i j t))
     "non symmetric matrix: the difference between entries at (%v,%v) and (%v,%v) is larger than %v" [inr i; inr j; inr j; inr i; inl t]) /\
  (forall n, says showF (LIllegalState (mathIllegalStateErrorf showF first_rows_not_initialized_yet [GInt n])) "first %v rows are not initialized yet" [inr n]) /\
  (forall n, says showF (LIllegalState (mathIllegalStateErrorf showF first_columns_not_initialized_yet [GInt n])) "first %v columns are not initialized yet" [inr n]) /\
  (forall d m i, says showF (LSingular (singularMatrixErrorf showF (singular_matrix ++ " : " ++ number_too_small ++ " : " ++ index)%string [GFlt d; GFlt m; GInt i]))
     "matrix is singular : %v is smaller than the minimum (%v) : index (%v)" [inl d; inl m; inr i]) /\
  Error (LSingular (singularMatrixSimpleErrorf showF)) = "Math Error: matrix is singular"%string /\
  Error (LInvalidArgument (invalidArgumentSimpleErrorf showF)) = "Math Error: invalid input"%string /\
  Error (LUnsupported (mathUnsupportedOperationErrorf showF)) = "Math Error: unsupported operation"%string /\
  Error (LArithmetic (mathArithmeticErrorf showF zero_norm [])) = "Math Error: zero norm"%string /\
  Error (LNoData (noDataErrorf showF at_least_one_row [])) = "Math Error: matrix must have at least one row"%string /\
  Error (LNoData (noDataErrorf showF at_least_one_column [])) = "Math Error: matrix must have at least one column"%string /\
  (forall k, Error (LMaxIteration (maxIterationErrorf showF convergence_failed k [])) = "Math Error: convergence failed"%string).
Proof.
  repeat split; intros; try reflexivity.
  - apply (says_of _ _ [inr wr; inr wc; inr er; inr ec] []); reflexivity.
  - apply (says_of _ _ [inr i; inr j; inr j; inr i; inl t] []); reflexivity.
  - apply (says_of _ _ [inr n] []); reflexivity.
  - apply (says_of _ _ [inr n] []); reflexivity.
  - apply (says_of _ _ [inl d; inl m; inr i] []); reflexivity.
Qed.

(** A number error never says its pattern: the remaining arguments arrive as one list. *)
Lemma not_says e pattern n args : verbs ("Math Error: " ++ pattern) = Some n -> List.length args = n \/ (n <= List.length args)%nat ->
  (forall ws, List.length ws = n -> ws = firstn n (List.map (word showF) args) ->
     (String.length (Error e) + 2 * n <> String.length ("Math Error: " ++ pattern) + list_sum (List.map String.length ws))%nat) -> ~ says showF e pattern args.
Proof.
  intros V Hl H (used & rest & E & Hf). pose proof (fills_verbs _ _ _ _ Hf V) as Hu. pose proof (fills_length _ _ _ Hf) as L.
  apply (H (List.map (word showF) used) Hu).
  - rewrite E, map_app, firstn_app, Hu, Nat.sub_diag, firstn_O, app_nil_r, firstn_all2; [reflexivity|lia].
  - rewrite Hu in L. exact L.
Qed.

(** Both verbs. *)
Fixpoint verbsd (p : string) : nat :=
  match p with
  | EmptyString => 0%nat
  | String "%" (String _ p') => S (verbsd p')
  | String _ p' => verbsd p'
  end.
Lemma fills_verbsd p ws s : fills p ws s -> List.length ws = verbsd p.
Proof.
  induction 1 as [|c p ws s Hc H IH|c p w ws s Hc H IH]; [reflexivity| |].
  - rewrite IH. destruct c as [b0 b1 b2 b3 b4 b5 b6 b7]. destruct b0, b1, b2, b3, b4, b5, b6, b7; try reflexivity. destruct Hc; reflexivity.
  - cbn. auto.
Qed.
Ltac len_tac := eapply not_says; [reflexivity|right; cbn; lia|]; intros ws Hw ->; unfold Error; clear Hw; cbn; rewrite ?append_length; cbn; rewrite ?append_length; cbn; rewrite ?append_length; cbn; rewrite ?append_length; cbn; lia.
Lemma number_messages :
  (forall w lo hi, ~ says showF (LOutOfRange (outOfRangeErrorf showF index w lo hi)) "index (%v)" [inl w; inl lo; inl hi]) /\
  (forall w lo hi, ~ says showF (LOutOfRange (outOfRangeErrorf showF row_index w lo hi)) "row index (%v)" [inl w; inl lo; inl hi]) /\
  (forall w lo hi, ~ says showF (LOutOfRange (outOfRangeErrorf showF column_index w lo hi)) "column index ((%v)" [inl w; inl lo; inl hi]) /\
  (forall w lo hi, ~ says showF (LOutOfRange (outOfRangeSimpleErrorf showF w lo hi)) "%v out of [%v, %v] range" [inl w; inl lo; inl hi]) /\
  (forall w n, ~ says showF (LDimension (dimensionsMismatchSimpleErrorf showF w n)) "%v != %v" [inl (f64 w); inr n]) /\
  (forall w n, ~ says showF (LNonSquare (nonSquareMatrixSimpleErrorf showF w n)) "non square (%vx%v) matrix" [inl (f64 w); inr n]) /\
  (forall w m, ~ says showF (LTooSmall (numberIsTooSmallErrorf showF initial_row_after_final_row w m false)) "initial row %v after final row %v" [inl w; inl m]) /\
  (forall w m, ~ says showF (LTooLarge (numberIsTooLargeBoundedErrorf showF w m true)) "%v is larger than the maximum (%v)" [inl w; inl m]) /\
  (forall w, ~ says showF (LNotStrictlyPositive (notStrictlyPositiveErrorf showF w)) "%v is smaller than the minimum (%v)" [inl w; inl fzero]) /\
  (forall w i t, ~ says showF (LNonPositiveDefinite (nonPositiveDefiniteMatrixErrorf showF w i t)) "%v is smaller than, or equal to, the minimum (%v) : not positive definite matrix : value %v at index %v" [inl w; inl t; inl w; inr i]) /\
  (forall k, ~ says showF (LMaxIteration (maxIterationSimpleErrorf showF k)) "maximal count (%d) exceeded" [inr k]).
Proof.
  do 10 (split; [intros; len_tac|]).
  intros k (used & rest & E & Hf). pose proof (fills_verbsd _ _ _ Hf) as Hv. cbn in Hv. destruct used as [|a [|]]; try discriminate Hv.
  injection E as <- _. pose proof (fills_length _ _ _ Hf) as L. cbn in L.
  assert (D : fills "Math Error: maximal count (%d) exceeded" [dec k] ("Math Error: maximal count (" ++ dec k ++ ") exceeded")%string).
  { repeat (apply fills_char; [discriminate|]). apply fills_verb; [auto|]. repeat (apply fills_char; [discriminate|]). constructor. }
  pose proof (fills_det _ _ _ _ Hf D) as X. cbn in X. repeat (injection X as X). 
  unfold dec, NilZero.string_of_int in X. destruct (Z.to_int k) as [u|u]; [|discriminate X]. destruct u; discriminate X.
Qed.

Lemma checks_agree (m : RealMatrix) r c : m_rows m = r -> m_cols m = Ok c ->
  (forall dim i, agrees (checkIndex dim i) (checkIndexE showF dim i)) /\
  (forall dim s e, agrees (checkIndices dim s e) (checkIndicesE showF dim s e)) /\
  (forall dim n, agrees (checkDimensions dim n) (checkDimensionsE showF dim n)) /\
  (forall i, agrees (checkRowIndex m i) (checkRowIndexE showF r i)) /\
  (forall i, agrees (checkColumnIndex m i) (checkColumnIndexE showF c i)) /\
  (forall i j, agrees (checkMatrixIndex m i j) (checkMatrixIndexE showF r c i j)) /\
  (forall sr er sc ec, agrees (checkSubMatrixIndex m sr er sc ec) (checkSubMatrixIndexE showF r c sr er sc ec)) /\
  (forall rs cs, agrees (checkSubMatrixIndexFromIndices m rs cs) (checkSubMatrixIndexFromIndicesE showF r c rs cs)) /\
  (forall m' r' c', m_rows m' = r' -> m_cols m' = Ok c' -> agrees (checkAdditionCompatible m m') (checkAdditionCompatibleE showF r c r' c') /\
     agrees (checkMultiplicationCompatible m m') (checkMultiplicationCompatibleE showF c r')).
Proof.
  intros Hr Hc.
  assert (R : forall i, agrees (checkRowIndex m i) (checkRowIndexE showF r i)).
  { intros i. unfold checkRowIndex, checkRowIndexE. rewrite Hr. destruct (_ || _); reflexivity. }
  assert (C : forall i, agrees (checkColumnIndex m i) (checkColumnIndexE showF c i)).
  { intros i. unfold checkColumnIndex, checkColumnIndexE. rewrite Hc. cbn [bind]. destruct (i <? 0); [reflexivity|]. cbn [orb]. destruct (c <=? i); reflexivity. }
  assert (B : forall a b x y, agrees a x -> agrees b y -> agrees (let* _ := a in b) (orelse x y)).
  { intros a b x y H H'. destruct x; cbn in H; subst a; cbn; auto. }
  split; [|split; [|split; [|split; [exact R|split; [exact C|split; [|split; [|split]]]]]]].
  - intros. unfold checkIndex, checkIndexE. destruct (_ || _); reflexivity.
  - intros. unfold checkIndices, checkIndicesE. destruct (_ || _); [reflexivity|]. destruct (_ || _); [reflexivity|]. destruct (_ <? _); reflexivity.
  - intros. unfold checkDimensions, checkDimensionsE. destruct (_ =? _); reflexivity.
  - intros. apply B; auto.
  - intros. unfold checkSubMatrixIndex, checkSubMatrixIndexE. apply B; [auto|]. apply B; [auto|]. destruct (er <? sr); [reflexivity|]. apply B; [auto|]. apply B; [auto|]. destruct (ec <? sc); reflexivity.
  - intros [rs|] [cs|]; try reflexivity. cbn. destruct (len rs =? 0); [reflexivity|]. destruct (len cs =? 0); [reflexivity|].
    assert (Fo : forall (f : Z -> res unit) g, (forall i, agrees (f i) (g i)) -> forall l a x, agrees a x ->
      agrees (fold_left (fun acc i => let* _ := acc in f i) l a) (fold_left (fun acc i => orelse acc (g i)) l x)).
    { intros f g H l. induction l as [|i l IH]; intros a x Ha; [exact Ha|]. cbn. apply IH. apply B; auto. }
    apply B; apply Fo; auto; reflexivity.
  - intros m' r' c' Hr' Hc'. unfold checkAdditionCompatible, checkAdditionCompatibleE, checkMultiplicationCompatible, checkMultiplicationCompatibleE. rewrite Hr, Hr', Hc, Hc'. cbn [bind].
    destruct (r =? r'), (c =? c'), (c =? r'); cbn; auto.
Qed.
Lemma shape_agrees r c :
  match checkShapeE showF r c with Some e => NewArray2DRowRealMatrix r c = Err (code e) /\ NewBlockRealMatrix r c = Err (code e) | None => 1 <= r /\ 1 <= c end.
Proof.
  unfold checkShapeE, NewArray2DRowRealMatrix, NewBlockRealMatrix. destruct (r <? 1) eqn:E; [split; reflexivity|]. destruct (c <? 1) eqn:E'; [split; reflexivity|]. apply Z.ltb_ge in E, E'. auto.
Qed.
Lemma range_reports :
  (forall dim i e, checkIndexE showF dim i = Some e -> reports_range e (f64 i) fzero (f64 dim - fone)%f /\ ~ 0 <= i < dim) /\
  (forall r i e, checkRowIndexE showF r i = Some e -> reports_range e (f64 i) fzero (f64 (r - 1)) /\ ~ 0 <= i < r) /\
  (forall c i e, checkColumnIndexE showF c i = Some e -> reports_range e (f64 i) fzero (f64 (c - 1)) /\ ~ 0 <= i < c).
Proof.
  assert (N : forall d i, (i <? 0) || (d <=? i) = true -> ~ 0 <= i < d).
  { intros d i H. apply orb_prop in H. destruct H as [H|H]; [apply Z.ltb_lt in H|apply Z.leb_le in H]; lia. }
  repeat split; try (unfold checkIndexE, checkRowIndexE, checkColumnIndexE in *; destruct (_ || _) eqn:E in H; [|discriminate H]; injection H as <-; eexists; repeat split; fail);
    unfold checkIndexE, checkRowIndexE, checkColumnIndexE in *; (destruct (_ || _) eqn:E in H; [|discriminate H]); apply N; auto.
Qed.
Lemma dims_report : forall lr lc rr rc e, checkAdditionCompatibleE showF lr lc rr rc = Some e ->
  (lr <> rr \/ lc <> rc) /\ exists d, e = LMatrixDimension d /\ xd_WrongRowDimension d = Ok lr /\ xd_WrongColumnDimension d = Ok lc /\ xd_ExpectedRowDimension d = Ok rr /\ xd_ExpectedColumnDimension d = Ok rc.
Proof.
  intros lr lc rr rc e H. unfold checkAdditionCompatibleE in H. destruct (lr =? rr) eqn:E, (lc =? rc) eqn:E'; cbn in H; try discriminate H; injection H as <-; rewrite ?Z.eqb_eq, ?Z.eqb_neq in *;
    (split; [lia|]); eexists; repeat split.
Qed.
Lemma app_assoc_s (a b c : string) : ((a ++ b) ++ c = a ++ (b ++ c))%string.
Proof. induction a; cbn; [|rewrite IHa]; auto. Qed.
Ltac txt := intros; repeat match goal with a : bool |- _ => destruct a end; unfold Error; cbn; rewrite ?app_assoc_s; reflexivity.
Lemma number_text :
  (forall w lo hi, Error (LOutOfRange (outOfRangeErrorf showF row_index w lo hi)) = ("Math Error: row index (" ++ showF w ++ ")%!(EXTRA []interface {}=[" ++ showF lo ++ " " ++ showF hi ++ "])")%string) /\
  (forall w n, Error (LDimension (dimensionsMismatchSimpleErrorf showF w n)) = ("Math Error: " ++ showF (f64 w) ++ " != [" ++ dec n ++ "]")%string) /\
  (forall w n, Error (LNonSquare (nonSquareMatrixSimpleErrorf showF w n)) = ("Math Error: non square (" ++ showF (f64 w) ++ "x[" ++ dec n ++ "]) matrix")%string) /\
  (forall w m a, Error (LTooSmall (numberIsTooSmallBoundedErrorf showF w m a)) =
     ("Math Error: " ++ showF w ++ (if a then " is smaller than the minimum ([" else " is smaller than, or equal to, the minimum ([") ++ showF m ++ "])")%string) /\
  (forall w m a, Error (LTooLarge (numberIsTooLargeBoundedErrorf showF w m a)) =
     ("Math Error: " ++ showF w ++ (if a then " is larger than the maximum ([" else " is larger than, or equal to, the maximum ([") ++ showF m ++ "])")%string) /\
  (forall w, Error (LNotStrictlyPositive (notStrictlyPositiveErrorf showF w)) = ("Math Error: " ++ showF w ++ " is smaller than the minimum ([" ++ showF fzero ++ "])")%string) /\
  (forall w i t, Error (LNonPositiveDefinite (nonPositiveDefiniteMatrixErrorf showF w i t)) = ("Math Error: " ++ showF w ++ " is smaller than, or equal to, the minimum ([" ++ showF t ++ "])")%string).
Proof. repeat split; txt. Qed.
Lemma bounds_report :
  (forall dim s e x, checkIndicesE showF dim s e = Some x -> 0 <= s < dim -> 0 <= e < dim -> reports_lower x (f64 e) (f64 s) false /\ e < s) /\
  (forall v, agrees (Matrix.ensureZero v) (ensureZeroE showF v)) /\
  (forall v x, ensureZeroE showF v = Some x -> reports_upper x (fabs v) fzero true /\ Status x = 16) /\
  (forall r c x, checkShapeE showF r c = Some x -> (r < 1 /\ reports_lower x (f64 r) fzero true) \/ (c < 1 /\ reports_lower x (f64 c) fzero true)) /\
  (forall w m a, reports_lower (LTooSmall (numberIsTooSmallBoundedErrorf showF w m a)) w m a /\ reports_upper (LTooLarge (numberIsTooLargeBoundedErrorf showF w m a)) w m a) /\
  (forall w i t, let x := nonPositiveDefiniteMatrixErrorf showF w i t in reports_lower (LNonPositiveDefinite x) w t false /\ pd_index x = i /\ pd_threshold x = t).
Proof.
  split; [|split; [|split; [|split; [|split]]]].
  - intros dim s e x H Hs He. unfold checkIndicesE in H. destruct (Z.ltb_spec s 0); [lia|]. destruct (Z.leb_spec dim s); [lia|]. destruct (Z.ltb_spec e 0); [lia|]. destruct (Z.leb_spec dim e); [lia|].
    cbn [orb] in H. destruct (Z.ltb_spec e s); [|discriminate H]. injection H as <-. split; [|auto]. eexists. split; [reflexivity|]. split; reflexivity.
  - intros v. unfold agrees, ensureZeroE, Matrix.ensureZero. destruct (fulp1 fzero v); reflexivity.
  - intros v x H. unfold ensureZeroE in H. destruct (fulp1 fzero v); [discriminate H|]. injection H as <-. split; [|reflexivity]. eexists. split; [reflexivity|]. split; reflexivity.
  - intros r c x H. unfold checkShapeE in H. destruct (Z.ltb_spec r 1); [left|destruct (Z.ltb_spec c 1); [right|discriminate H]]; (injection H as <-; split; [auto|]; eexists; split; [reflexivity|]; split; reflexivity).
  - intros w m a. destruct a; split; eexists; (split; [reflexivity|]; split; reflexivity).
  - intros w i t. split; [|split; reflexivity]. eexists. split; [reflexivity|]. split; reflexivity.
Qed.
Lemma status_types e e' : Status e = Status e' -> same_type e e' \/ (exists a b, e = LNonPositiveDefinite a /\ e' = LTooSmall b) \/ (exists a b, e = LTooSmall a /\ e' = LNonPositiveDefinite b).
Proof. intros H. destruct e, e'; try discriminate H; try (left; exact I); right; [left|right]; eauto. Qed.
End S.

(** Zero rows: the error says that 0 is allowed, and that 0 was refused. *)
From Verif Require Import Float64 ExampleOps.
Lemma bound_refuted showF c : exists e, NewArray2DRowRealMatrix (O := E64) 0 c = Err (code e) /\ checkShapeE (O := E64) showF 0 c = Some e /\
  exists n, number e = Some n /\ lower e = Some (sf_zero, true) /\ @feq E64 (in_argument n) sf_zero = true.
Proof. eexists. split; [|split; [reflexivity|]]; [reflexivity|]. eexists. split; [reflexivity|]. split; [reflexivity|]. vm_compute. reflexivity. Qed.
Lemma status_refuted showF : exists a b, Status (O := E64) (LNonPositiveDefinite (nonPositiveDefiniteMatrixErrorf showF a 0 b)) = Status (LTooSmall (numberIsTooSmallErrorf showF initial_row_after_final_row a b false)).
Proof. exists sf_zero, sf_zero. reflexivity. Qed.

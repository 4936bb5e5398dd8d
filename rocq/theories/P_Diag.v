(** Properties C15-C17 and the diagonal parts of C03-C05, C07-C11.
    [DiagIs m n g]: m is a DiagonalMatrix, observably the n by n table with
    diagonal g and zeros elsewhere.  [zero_like x]: the float comparison
    helper says 0 equals x (on float64: x is +0, see C18). *)
From Coq Require Import ZArith List Lia Bool Floats.SpecFloat.
From Verif Require Import Base BaseLemmas Scalar Vector VecSpec Matrix Array2D BlockM Diagonal RealMatrixM MatSpec HistSpec DiagSpec DiagProps Float64 ExampleOps.
Import ListNotations.
Open Scope Z_scope.

Definition onD {A} (v : list (@F E64)) (k : @RealMatrix E64 -> res A) : res A :=
  let* m := liftD (NewDiagonalMatrixFromSlice (O := E64) (Some v)) in k m.

(** C15: under every history of entry operations exactly the diagonal changes,
    and exactly the calls of the specification are refused. *)
Theorem C15_entry_histories : forall (O : Ops) os m n g, DiagIs m n g ->
  DiagIs (fst (e_run m os)) n (fst (de_table n g os)) /\ snd (e_run m os) = snd (de_table n g os).
Proof. exact (@diag_entries). Qed.
Print Assumptions C15_entry_histories.
(** Under any history of any operations, whatever the arguments, a diagonal
    matrix stays a diagonal matrix, and as long as the arguments fit the
    diagonal is the one a plain table would have. *)
Theorem C15_histories : forall (O : Ops) os m n g m', DiagIs m n g -> Forall wf_op os -> o_run m os = Ok m' ->
  exists n' g', DiagIs m' n' g' /\
  forall k h, d_tables n g os = Some (k, h) -> k = n' /\ forall i, 0 <= i < k -> g' i = h i.
Proof. exact (@diag_histories). Qed.
Print Assumptions C15_histories.
Theorem C15_new : forall (O : Ops),
  (forall n, 1 <= n -> gives_diag (liftD (NewDiagonalMatrixWithDimension n)) n (fun _ => fzero)) /\
  (forall n, n < 1 -> rejects (liftD (NewDiagonalMatrixWithDimension n))) /\
  (forall v b, gives_diag (liftD (NewDiagonalMatrix (Some v) b)) (len v) (nthZ v)) /\
  (forall v, gives_diag (liftD (NewDiagonalMatrixFromSlice (Some v))) (len v) (nthZ v)) /\
  (forall b, rejects (liftD (NewDiagonalMatrix None b))).
Proof. exact (@diag_new). Qed.
Print Assumptions C15_new.
Example C15_entries_ex :
  onD (fls [1; 2; 3]) (fun m => let '(m, acc) := e_run m [ESet 1 1 (fl 7); EAdd 1 1 (fl 3); ESet 0 1 (fl 5); ESet 0 1 (fl 0); EMul 2 1 (fl 9); ESet 3 3 (fl 1)] in
    let* d := m_Data m in Ok (d, acc)) = Ok (flss [[1; 0; 0]; [0; 10; 0]; [0; 0; 3]], [true; true; false; true; true; false]).
Proof. vm_compute. reflexivity. Qed.
Definition ex_dhist : list (@mop E64) :=
  [OSetColumn 1 (fls [0; 9; 0]); OSetSub (flss [[5; 0]; [0; 6]]) 0 0; OScalarMultiply (fl 2); OTranspose; OSubMatrix 1 2 1 2].
Example C15_ex : onD (fls [1; 2; 3]) (fun m => let* m := o_run m ex_dhist in m_Data m) = Ok (flss [[12; 0]; [0; 6]]) /\
  Forall wf_op ex_dhist.
Proof. split; [vm_compute; reflexivity|repeat constructor]. Qed.
(** "Panics and changes nothing" fails for the row and column writes: SetRow
    can store the diagonal entry before it meets a refused one.  The model's
    panicking outcomes carry no state, so this is seen one entry at a time:
    SetRow(1, [0, 5, 7]) is these three writes, the second accepted and the
    third refused. *)
Example C15_setrow_ex : onD (fls [1; 2; 3]) (fun m => let '(m, acc) := e_run m [ESet 1 0 (fl 0); ESet 1 1 (fl 5); ESet 1 2 (fl 7)] in
    let* d := m_Data m in Ok (d, acc)) = Ok (flss [[1; 0; 0]; [0; 5; 0]; [0; 0; 3]], [true; true; false]).
Proof. vm_compute. reflexivity. Qed.

(** C16.  The claim is: for every finite d, ScalarMultiply(d) multiplies every
    diagonal entry by d.  It holds for n = 1 and for d with a clear sign bit
    ... *)
Theorem C16_scaling_partial : forall c m n g x, 1 < c -> @DiagIs (SFOps c) m n g -> 1 <= n ->
  n = 1 \/ sf_finite x = true /\ sf_signbit x = false ->
  @gives_diag (SFOps c) (@m_ScalarMultiply (SFOps c) m x) n (fun i => sf_mul (g i) x).
Proof. exact diag_scale_ok. Qed.
Print Assumptions C16_scaling_partial.
Example C16_ex : onD (fls [1; 2; 3]) (fun m => let* m := m_ScalarMultiply m (fl 4) in m_Data m) = Ok (flss [[4; 0; 0]; [0; 8; 0]; [0; 0; 12]]).
Proof. vm_compute. reflexivity. Qed.
(** ... and fails for every other d, whatever the entries: in particular for
    every negative number (0 * d is -0, which is not accepted). *)
Theorem C16_scaling_refuted : forall c m n g x, 1 < c -> @DiagIs (SFOps c) m n g -> 2 <= n ->
  ~ (sf_finite x = true /\ sf_signbit x = false) -> panics (@m_ScalarMultiply (SFOps c) m x).
Proof. exact diag_scale_bad. Qed.
Print Assumptions C16_scaling_refuted.
Example C16_refuted_ex : onD (fls [1; 2]) (fun m => let* m := m_ScalarMultiply m (fl (-1)) in m_Data m) = Panic ETooLarge /\ sf_finite (fl (-1)) = true.
Proof. split; vm_compute; reflexivity. Qed.

(** C17 on float64 (and any other scalars): products and the entries of the
    inverse. *)
Theorem C17_products : forall (O : Ops) m n g, DiagIs m n g ->
  (forall p h, DiagIs p n h -> gives_diag (m_Multiply m p) n (fun i => (g i * h i)%f)) /\
  (forall p c f, 1 <= n -> 1 <= c -> MatIs p n c f -> (forall d, p <> MDiag d) ->
     gives (m_Multiply m p) n c (fun i j => (g i * f i j)%f)).
Proof. exact (@diag_product). Qed.
Print Assumptions C17_products.
Example C17_products_ex : onD (fls [2; 3]) (fun m => let* p := liftA (NewArray2DRowRealMatrixFromSlices (O := E64) (Some (flss [[1; 2; 3]; [4; 5; 6]])) true) in
   let* q := m_Multiply m p in m_Data q) = Ok (flss [[2; 4; 6]; [12; 15; 18]]).
Proof. vm_compute. reflexivity. Qed.
Theorem C17_inverse : forall (O : Ops) d n g t, DiagIs (MDiag d) n g ->
  ((forall i, 0 <= i < n -> equalsWithError (g i) fzero t = false) ->
    gives_diag (liftD (d_InverseWithThreshold d t)) n (fun i => (fone / g i)%f)) /\
  (forall i, 0 <= i < n -> equalsWithError (g i) fzero t = true -> panics (d_InverseWithThreshold d t)).
Proof. exact (@diag_inverse). Qed.
Print Assumptions C17_inverse.
Example C17_inverse_ex : (let* d := NewDiagonalMatrixFromSlice (O := E64) (Some (fls [1; 1])) in let* e := d_Inverse d in Ok (d_data e)) = Ok (fls [1; 1]) /\
  (let* d := NewDiagonalMatrixFromSlice (O := E64) (Some (fls [1; 0])) in let* e := d_Inverse d in Ok (d_data e)) = Panic ESingular.
Proof. split; vm_compute; reflexivity. Qed.

(** C04, C05, C09, C10, C11 for diagonal matrices.  [zero_like fzero] holds on
    float64. *)
Example zero_like_ex : @zero_like E64 fzero.
Proof. vm_compute. reflexivity. Qed.
Theorem C04_diagonal : forall (O : Ops) m n g, zero_like fzero -> DiagIs m n g -> gives_diag (m_Transpose m) n g.
Proof. exact (@diag_transpose). Qed.
Print Assumptions C04_diagonal.
Example C04_diagonal_ex : onD (fls [2; 3]) (fun m => let* m := m_Transpose m in m_Data m) = Ok (flss [[2; 0]; [0; 3]]).
Proof. vm_compute. reflexivity. Qed.
Theorem C05_diagonal : forall (O : Ops) m p n g h, DiagIs m n g -> DiagIs p n h ->
  gives_diag (m_Add m p) n (fun i => (g i + h i)%f) /\ gives_diag (m_Subtract m p) n (fun i => (g i - h i)%f).
Proof. exact (@diag_add). Qed.
Print Assumptions C05_diagonal.
(** With another matrix the sum must itself be diagonal. *)
Theorem C05_diagonal_other : forall (O : Ops) m p n g f, DiagIs m n g -> MatIs p n n f -> 1 <= n -> (forall d, p <> MDiag d) ->
  ((forall i j, 0 <= i < n -> 0 <= j < n -> i <> j -> zero_like (fzero + f i j)%f) ->
    gives_diag (m_Add m p) n (fun i => (g i + f i i)%f)) /\
  (forall i j, 0 <= i < n -> 0 <= j < n -> i <> j -> ~ zero_like (fzero + f i j)%f -> panics (m_Add m p)) /\
  ((forall i j, 0 <= i < n -> 0 <= j < n -> i <> j -> zero_like (fzero - f i j)%f) ->
    gives_diag (m_Subtract m p) n (fun i => (g i - f i i)%f)) /\
  (forall i j, 0 <= i < n -> 0 <= j < n -> i <> j -> ~ zero_like (fzero - f i j)%f -> panics (m_Subtract m p)).
Proof. exact (@diag_add_other). Qed.
Print Assumptions C05_diagonal_other.
Theorem C05_diagonal_scalar : forall (O : Ops) m n g x, DiagIs m n g -> 1 <= n ->
  (n = 1 \/ zero_like (fzero * x)%f -> gives_diag (m_ScalarMultiply m x) n (fun i => (g i * x)%f)) /\
  (2 <= n -> ~ zero_like (fzero * x)%f -> panics (m_ScalarMultiply m x)) /\
  (n = 1 \/ zero_like (fzero + x)%f -> gives_diag (m_ScalarAdd m x) n (fun i => (g i + x)%f)) /\
  (2 <= n -> ~ zero_like (fzero + x)%f -> panics (m_ScalarAdd m x)).
Proof. exact (@diag_scalar). Qed.
Print Assumptions C05_diagonal_scalar.
Example C05_diagonal_ex : let other d := liftA (NewArray2DRowRealMatrixFromSlices (O := E64) (Some (flss d)) true) in
  onD (fls [2; 3]) (fun m => let* p := other [[1; 0]; [0; 4]] in let* m := m_Add m p in m_Data m) = Ok (flss [[3; 0]; [0; 7]]) /\
  onD (fls [2; 3]) (fun m => let* p := other [[1; 0]; [1; 4]] in let* m := m_Add m p in m_Data m) = Panic ETooLarge /\
  onD (fls [2; 3]) (fun m => let* m := m_ScalarAdd m (fl 1) in m_Data m) = Panic ETooLarge /\
  onD (fls [2]) (fun m => let* m := m_ScalarAdd m (fl 1) in m_Data m) = Ok (flss [[3]]).
Proof. vm_compute. auto. Qed.
Theorem C09_diagonal : forall (O : Ops) m n g r0 r1 c0 c1, zero_like fzero -> DiagIs m n g ->
  (0 <= r0 <= r1 -> r1 < n -> r0 = c0 -> r1 = c1 -> gives_diag (m_SubMatrix m r0 r1 c0 c1) (r1 - r0 + 1) (fun i => g (r0 + i))) /\
  (r1 - r0 <> c1 - c0 -> panics (m_SubMatrix m r0 r1 c0 c1)) /\
  (r0 <> c0 -> forall k, r0 <= k <= r1 -> c0 <= k <= c1 -> 0 <= k < n -> ~ zero_like (g k) -> panics (m_SubMatrix m r0 r1 c0 c1)) /\
  (~ (0 <= r0 <= r1 /\ r1 < n /\ 0 <= c0 <= c1 /\ c1 < n) -> panics (m_SubMatrix m r0 r1 c0 c1)).
Proof. exact (@diag_submatrix). Qed.
Print Assumptions C09_diagonal.
Example C09_diagonal_ex : onD (fls [2; 3; 4]) (fun m => let* m := m_SubMatrix m 1 2 1 2 in m_Data m) = Ok (flss [[3; 0]; [0; 4]]) /\
  onD (fls [2; 3; 4]) (fun m => let* m := m_SubMatrix m 0 1 1 2 in m_Data m) = Panic ETooLarge.
Proof. vm_compute. auto. Qed.
Theorem C10_diagonal : forall (O : Ops) m n g s row column, DiagIs m n g -> good s -> fits s row column n n ->
  ((forall i j, 0 <= i < len s -> 0 <= j < len (nthZ s 0) -> row + i <> column + j -> zero_like (nthZ (nthZ s i) j)) ->
   gives_diag (m_SetSubMatrix m (Some s) row column) n (fun i =>
     if (row <=? i) && (i <? row + len s) && (column <=? i) && (i <? column + len (nthZ s 0))
     then nthZ (nthZ s (i - row)) (i - column) else g i)) /\
  (forall i j, 0 <= i < len s -> 0 <= j < len (nthZ s 0) -> row + i <> column + j -> ~ zero_like (nthZ (nthZ s i) j) ->
     panics (m_SetSubMatrix m (Some s) row column)).
Proof. exact (@diag_setsub). Qed.
Print Assumptions C10_diagonal.
(** "If it does not fit it panics" fails here: zeros off the diagonal are
    accepted anywhere. *)
Theorem C10_diagonal_fit_refuted : exists s row column, good s /\ ~ fits s row column 2 2 /\
  onD (fls [2; 3]) (fun m => let* m := m_SetSubMatrix m (Some s) row column in m_Data m) = Ok (flss [[2; 0]; [0; 3]]).
Proof.
  exists (flss [[0]]), 5, 9. split; [split; [|split]; vm_compute; congruence|]. split; [intros (_ & H & _); vm_compute in H; congruence|].
  vm_compute. reflexivity.
Qed.
Print Assumptions C10_diagonal_fit_refuted.
Example C10_diagonal_ex : onD (fls [2; 3; 4]) (fun m => let* m := m_SetSubMatrix m (Some (flss [[7; 0]; [0; 8]])) 1 1 in m_Data m)
  = Ok (flss [[2; 0; 0]; [0; 7; 0]; [0; 0; 8]]) /\
  onD (fls [2; 3; 4]) (fun m => let* m := m_SetSubMatrix m (Some (flss [[7; 1]])) 1 1 in m_Data m) = Panic ETooLarge.
Proof. vm_compute. auto. Qed.
Theorem C11_diagonal_rows : forall (O : Ops) m n g k, DiagIs m n g -> 0 <= k < n ->
  wp (m_RowAt m k) (fun v => VecIs (VArr v) n (diagonal g k)) /\
  wp (m_ColumnAt m k) (fun v => VecIs (VArr v) n (fun i => diagonal g i k)) /\
  wp (m_RowVectorAt m k) (fun v => VecIs v n (diagonal g k)) /\
  wp (m_ColumnVectorAt m k) (fun v => VecIs v n (fun i => diagonal g i k)).
Proof. exact (@diag_rows). Qed.
Print Assumptions C11_diagonal_rows.
Theorem C11_diagonal_set : forall (O : Ops) m n g k v, DiagIs m n g -> 0 <= k < n -> len v = n ->
  ((forall i, 0 <= i < n -> i <> k -> zero_like (nthZ v i)) ->
    gives_diag (m_SetRow m k v) n (fun i => if i =? k then nthZ v k else g i) /\
    gives_diag (m_SetColumn m k v) n (fun i => if i =? k then nthZ v k else g i)) /\
  (forall i, 0 <= i < n -> i <> k -> ~ zero_like (nthZ v i) -> panics (m_SetRow m k v) /\ panics (m_SetColumn m k v)).
Proof. exact (@diag_set_lines). Qed.
Print Assumptions C11_diagonal_set.
Example C11_diagonal_ex : onD (fls [2; 3]) (fun m => let* m := m_SetRow m 1 (fls [0; 9]) in m_RowAt m 1) = Ok (fls [0; 9]) /\
  onD (fls [2; 3]) (fun m => m_ColumnAt m 0) = Ok (fls [2; 0]).
Proof. vm_compute. auto. Qed.
(** The documented row and column matrices of a diagonal matrix do not exist
    beyond 1 by 1. *)
Theorem C11_diagonal_matrices_refuted :
  onD (fls [2; 3]) (fun m => let* m := m_RowMatrixAt m 0 in m_Data m) = Panic EDimMismatch /\
  onD (fls [2; 3]) (fun m => let* m := m_ColumnMatrixAt m 0 in m_Data m) = Panic EDimMismatch.
Proof. vm_compute. auto. Qed.
Print Assumptions C11_diagonal_matrices_refuted.

(** C07, C08 for diagonal matrices. *)
Theorem C07_diagonal : forall (O : Ops) m n g v h, DiagIs m n g -> VecIs (VArr v) n h ->
  wp (m_Operate m v) (fun out => VecIs (VArr out) n (fun i => (g i * h i)%f)) /\
  wp (m_PreMultiply m v) (fun out => VecIs (VArr out) n (fun i => (g i * h i)%f)) /\
  wp (m_OperateVector m (VArr v)) (fun out => VecIs out n (fun i => (g i * h i)%f)) /\
  wp (m_PreMultiplyVector m (VArr v)) (fun out => VecIs out n (fun i => (g i * h i)%f)).
Proof. exact (@diag_operate). Qed.
Print Assumptions C07_diagonal.
Theorem C08_diagonal_foreign : forall (O : Ops) m n g v h, DiagIs m n g -> VecIs (VOther v) n h ->
  wp (m_OperateVector m (VOther v)) (fun out => VecIs out n (fun i => fsum n (fun k => (diagonal g i k * h k)%f))) /\
  wp (m_PreMultiplyVector m (VOther v)) (fun out => VecIs out n (fun i => (g i * h i)%f)).
Proof. exact (@foreign_vectors). Qed.
Print Assumptions C08_diagonal_foreign.
(** So with an infinity in it a foreign vector gives another result than an
    *ArrayRealVector with the same values. *)
Theorem C08_diagonal_refuted : let v := [S754_infinity false; fl 1] : list (@F E64) in
  onD (fls [2; 3]) (fun m => let* w := m_OperateVector m (VArr v) in Ok (v_data w)) = Ok [S754_infinity false; fl 3] /\
  onD (fls [2; 3]) (fun m => let* w := m_OperateVector m (VOther v) in Ok (v_data w)) = Ok [S754_infinity false; NaN64].
Proof. vm_compute. auto. Qed.
Print Assumptions C08_diagonal_refuted.
Example C07_diagonal_ex : onD (fls [2; 3]) (fun m => m_Operate m (fls [4; 5])) = Ok (fls [8; 15]) /\
  onD (fls [2; 3]) (fun m => let* w := m_OperateVector m (VOther (fls [4; 5])) in Ok (v_data w)) = Ok (fls [8; 15]).
Proof. vm_compute. auto. Qed.

(** The eigen decomposition of symmetric matrices: C42, C44, C47, C48.
    [ed_of x d]: [d] is what NewEigenDecomposition(x) returned, after any
    sequence of calls to V, D, VT and SquareRoot; [ed_of_tri] the same for
    NewEigenDecompositionFromTridiagonal.
    [RTolOps tol] is exact real arithmetic except that the test "e + delta ==
    delta", which ends the iteration, holds when |e| <= tol * delta, as it does
    on float64 with tol about 2^-53; tol = 0 is exact arithmetic. *)
From Coq Require Import ZArith QArith List Lia Bool Reals Lra Floats.SpecFloat.
From Verif Require Import Base BaseLemmas Scalar Vector VecSpec VectorFacts Matrix Array2D BlockM Diagonal RealMatrixM MatSpec MatFacts TabTac Eigen EigenSpec EigenFacts RealOps RSum Frob RTol EigenReal2 EigenSmall EigenProps EigenProps2 Float64 FloatOrder ExampleOps ExampleDec ExampleTol.
Import ListNotations.
Open Scope Z_scope.

(** C42: V orthogonal, D diagonal with the eigenvalues in descending order, no
    imaginary part, and V D V^T close to A: the relative difference in the
    Frobenius norm is at most growth n tol - 1, of the order of n (31*4 tol +
    4*2^-53). [S] is A made symmetric from its upper triangle: A itself when A
    is symmetric. *)
Theorem C42_symmetric : forall tol, (0 <= tol)%R -> forall (x : @RealMatrix (RTolOps tol)) n A S d,
  library x -> MatIs x n n A -> 1 <= n -> nearly_symmetric n A -> mirror_of n A S -> ed_of x d ->
  exists Vm Dm Tm V lam d1 d2 d3, ed_V d = Ok (Vm, d1) /\ ed_D d = Ok (Dm, d2) /\ ed_VT d = Ok (Tm, d3) /\
    MatIs Vm n n V /\ MatIs Dm n n (fun i j => if i =? j then lam i else 0%R) /\ MatIs Tm n n (trm V) /\
    VecIs (VArr (ed_RealEigenvalues d)) n lam /\ VecIs (VArr (ed_ImagEigenvalues d)) n (fun _ => 0%R) /\
    orthogonal n V /\ (forall i j, 0 <= i -> i <= j -> j < n -> (lam j <= lam i)%R) /\
    (nF n (msub S (mmul n (mmul n V (fun i j => if i =? j then lam i else 0%R)) (trm V))) <= (growth n tol - 1) * nF n S)%R.
Proof. exact sym_factor. Qed.
Print Assumptions C42_symmetric.
(** The same from the main and secondary diagonals of a tridiagonal matrix. *)
Theorem C42_tridiagonal : forall tol, (0 <= tol)%R -> forall (mn sec : list (@F (RTolOps tol))) n Mn ns Sc (d : @EdD (RTolOps tol)),
  1 <= n -> n - 1 <= ns -> VecIs (O := RTolOps tol) (VArr mn) n Mn -> VecIs (O := RTolOps tol) (VArr sec) ns Sc -> ed_of_tri mn sec d ->
  exists Vm Dm Tm V lam d1 d2 d3, ed_V d = Ok (Vm, d1) /\ ed_D d = Ok (Dm, d2) /\ ed_VT d = Ok (Tm, d3) /\
    MatIs Vm n n V /\ MatIs Dm n n (fun i j => if i =? j then lam i else 0%R) /\ MatIs Tm n n (trm V) /\
    VecIs (VArr (ed_RealEigenvalues d)) n lam /\ VecIs (VArr (ed_ImagEigenvalues d)) n (fun _ => 0%R) /\
    orthogonal n V /\ (forall i j, 0 <= i -> i <= j -> j < n -> (lam j <= lam i)%R) /\
    let S := fun i j => if i =? j then Mn i else if i =? j + 1 then Sc j else if j =? i + 1 then Sc i else 0%R in
    (nF n (msub S (mmul n (mmul n V (fun i j => if i =? j then lam i else 0%R)) (trm V))) <= (growth n tol - 1) * nF n S)%R.
Proof. exact tri_factor. Qed.
Print Assumptions C42_tridiagonal.
(** In any arithmetic the constructors return a decomposition or the error for
    too many iterations, never panic, and more than thirty-one turns on one
    eigenvalue change nothing: the thirty-first returns or is an error. *)
Theorem C42_terminates : forall (O : Ops) (x : @RealMatrix O) n A, library x -> MatIs x n n A -> 1 <= n -> passes_symmetry n A ->
  (exists d, NewEigenDecomposition x = Ok d) \/ NewEigenDecomposition x = Err EMaxIter.
Proof. exact (@sym_total). Qed.
Print Assumptions C42_terminates.
Theorem C42_tridiagonal_terminates : forall (O : Ops) (mn sec : list F) n ns Mn Sc, 1 <= n -> n - 1 <= ns -> VecIs (VArr mn) n Mn -> VecIs (VArr sec) ns Sc ->
  (exists d, NewEigenDecompositionFromTridiagonal mn sec = Ok d) \/ NewEigenDecompositionFromTridiagonal mn sec = Err EMaxIter.
Proof. exact (@tri_total). Qed.
Print Assumptions C42_tridiagonal_terminates.
Theorem C42_thirty : forall (O : Ops) n K (st : list F * list F * list (list F)), tabs n st -> 0 <= n -> 31 <= K ->
  for_ 0 n (fun j st => let* (_, st) := for_brk 0 K (ed_turn n j) st in Ok st) st = ed_ql n st.
Proof. exact (@ed_thirty). Qed.
Print Assumptions C42_thirty.
(** Up to two rows the iteration always converges. *)
Theorem C42_small_converges : forall tol, (0 <= tol)%R -> forall (x : @RealMatrix (RTolOps tol)) n A, library x -> MatIs x n n A -> 1 <= n <= 2 -> nearly_symmetric n A ->
  exists d, NewEigenDecomposition x = Ok d.
Proof. intros tol H x n A Hl Hx Hn Hs. exact (new_sym_2 tol H x n A Hl Hx Hn (near_eta n A Hs)). Qed.
Print Assumptions C42_small_converges.
(** On float64: whatever the rounding, the eigenvalues are in descending order
    when none is NaN. *)
Theorem C42_float_sorted : forall (c : Z) (x : @RealMatrix (SFOps c)) n A d, library x -> MatIs x n n A -> 1 <= n -> passes_symmetry n A -> ed_of x d ->
  (forall i v, ed_RealEigenvalueAt d i = Ok v -> sf_isnan v = false) ->
  forall i j v w, 0 <= i -> i <= j -> ed_RealEigenvalueAt d i = Ok v -> ed_RealEigenvalueAt d j = Ok w -> SFltb v w = false.
Proof. exact sym_sorted. Qed.
Print Assumptions C42_float_sorted.
Theorem C42_float_tridiagonal_sorted : forall (c : Z) (mn sec : list (@F (SFOps c))) n ns Mn Sc (d : @EdD (SFOps c)), 1 <= n -> n - 1 <= ns ->
  VecIs (O := SFOps c) (VArr mn) n Mn -> VecIs (O := SFOps c) (VArr sec) ns Sc -> ed_of_tri mn sec d ->
  (forall i v, ed_RealEigenvalueAt d i = Ok v -> sf_isnan v = false) ->
  forall i j v w, 0 <= i -> i <= j -> ed_RealEigenvalueAt d i = Ok v -> ed_RealEigenvalueAt d j = Ok w -> SFltb v w = false.
Proof. exact tri_sorted. Qed.
Print Assumptions C42_float_tridiagonal_sorted.
(** [[2,1],[1,2]] meets the hypotheses, for every tolerance. *)
Example C42_ex : forall tol, (0 <= tol)%R -> exists d, ed_of (tmat tol [[2; 1]; [1; 2]]%R) d /\ exists Vm V d1, ed_V d = Ok (Vm, d1) /\ MatIs Vm 2 2 V /\ orthogonal 2 V.
Proof.
  intros tol Ht. destruct (C42_small_converges tol Ht (tmat tol [[2; 1]; [1; 2]]%R) 2 s22 I (tmat_is tol) ltac:(lia) s22_near) as (d & E).
  assert (Hd : ed_of (tmat tol [[2; 1]; [1; 2]]%R) d) by (exists d; split; [exact E|constructor]). exists d. split; auto.
  destruct (C42_symmetric tol Ht (tmat tol [[2; 1]; [1; 2]]%R) 2 s22 s22 d I (tmat_is tol) ltac:(lia) s22_near s22_mirror Hd) as (Vm & Dm & Tm & V & lam & d1 & d2 & d3 & EV & _ & _ & HV & _ & _ & _ & _ & HO & _).
  exists Vm, V, d1. auto.
Qed.
(** On float64: eigenvalues 3 and nearly 1; a diagonal given as a tridiagonal
    matrix is sorted. *)
Example C42_float_ex : (exists v a b, ed_obs [[2; 1]; [1; 2]] = Ok (v, [a; b], fls [0; 0]) /\ a = fl 3 /\ SFltb b a = true) /\
  ed_obsT [1; 3; 2] [0; 0] = Ok (flss [[0; 0; 1]; [1; 0; 0]; [0; 1; 0]], fls [3; 2; 1]).
Proof. split; [eexists; eexists; eexists; split; [vm_compute; reflexivity|split; vm_compute; reflexivity]|vm_compute; reflexivity]. Qed.

(** C44: Determinant is the product of the real parts of the eigenvalues. The
    determinant of A it is not, for a rotation, whose eigenvalues are not real,
    nor for diag(2^30, 2^-30), whose small eigenvalue is replaced by zero. *)
Theorem C44_product_partial : forall (O : Ops) (d : @EdD O), ed_Determinant d = Ok (fold_left fmul (ed_RealEigenvalues d) fone).
Proof. exact (@det_is_fold). Qed.
Print Assumptions C44_product_partial.
Theorem C44_refuted : ~ (forall rows x y, ed_dets rows = Ok (x, y) -> x = y).
Proof. intros H. specialize (H (flss [[0; -1]; [1; 0]]) (fl 0) (fl 1) ltac:(vm_compute; reflexivity)). discriminate. Qed.
Print Assumptions C44_refuted.
Theorem C44_symmetric_refuted : ~ (forall rows x y, ed_dets rows = Ok (x, y) -> (forall i j, nth_error (nth i rows []) j = nth_error (nth j rows []) i) -> x = y).
Proof.
  intros H. specialize (H [[fl 1073741824; fl 0]; [fl 0; S754_finite false 4503599627370496 (-82)]] (fl 0) (fl 1) ltac:(vm_compute; reflexivity)).
  assert (E : fl 0 = fl 1); [apply H|discriminate].
  intros [|[|i]] [|[|j]]; try reflexivity; cbn [nth nth_error]; try destruct i; try destruct j; reflexivity.
Qed.
Print Assumptions C44_symmetric_refuted.
Example C44_ex : ed_dets (flss [[2; 0]; [0; 3]]) = Ok (fl 6, fl 6).
Proof. vm_compute. reflexivity. Qed.

(** C47: SquareRoot is symmetric, has no negative direction and its square is
    V D V^T, when the eigenvalues are positive; otherwise it panics. *)
Theorem C47_square_root : forall tol, (0 <= tol)%R -> forall (x : @RealMatrix (RTolOps tol)) n A S d,
  library x -> MatIs x n n A -> 1 <= n -> nearly_symmetric n A -> mirror_of n A S -> ed_of x d ->
  exists Vm Dm V D d1 d2, ed_V d = Ok (Vm, d1) /\ ed_D d = Ok (Dm, d2) /\ MatIs Vm n n V /\ MatIs Dm n n D /\
    ((exists i, 0 <= i < n /\ (D i i <= 0)%R) -> ed_SquareRoot d = Panic EUnsupported) /\
    ((forall i, 0 <= i < n -> (0 < D i i)%R) -> exists Rm B d3, ed_SquareRoot d = Ok (Rm, d3) /\ MatIs Rm n n B /\
       meq n n B (trm B) /\ meq n n (mmul n B B) (mmul n (mmul n V D) (trm V)) /\
       (forall x, Rs 0 n (fun i => x i * mvec n B x i) >= 0)%R).
Proof. intros tol Ht x n A S d Hl Hx Hn Hs Hm Hd. exact (sqrt_ok tol n S d Hn (ed_of_good tol Ht x n A S d Hl Hx Hn Hs Hm Hd)). Qed.
Print Assumptions C47_square_root.
Example C47_ex : ed_root [[4; 0]; [0; 9]] = Ok (flss [[2; 0]; [0; 3]]) /\ ed_root [[4; 0]; [0; -9]] = Panic EUnsupported /\ ed_root [[4; 1]; [0; -9]] = Panic EUnsupported.
Proof. vm_compute. auto. Qed.

(** C48: the solver. *)
Theorem C48_solver : forall tol, (0 <= tol)%R -> forall (x : @RealMatrix (RTolOps tol)) n A S d,
  library x -> MatIs x n n A -> 1 <= n -> nearly_symmetric n A -> mirror_of n A S -> ed_of x d ->
  exists Vm Dm V D d1 d2, ed_V d = Ok (Vm, d1) /\ ed_D d = Ok (Dm, d2) /\ MatIs Vm n n V /\ MatIs Dm n n D /\
    let M := mmul n (mmul n V D) (trm V) in
    exists b, eds_IsNonSingular d = Ok b /\ (b = true <-> forall i j, 0 <= i < n -> 0 <= j < n -> (Rabs (D j j) * / 1000000000000 < Rabs (D i i))%R) /\
    (forall v B, VecIs v n B -> if b then exists r X, eds_SolveVector d v = Ok r /\ VecIs r n X /\ forall i, 0 <= i < n -> mvec n M X i = B i else eds_SolveVector d v = Panic ESingular) /\
    (forall m c B, 1 <= c -> MatIs m n c B -> if b then exists r X, eds_SolveMatrix d m = Ok r /\ MatIs r n c X /\ meq n c (mmul n M X) B else eds_SolveMatrix d m = Panic ESingular) /\
    (if b then exists r X, eds_Inverse d = Ok r /\ MatIs r n n X /\ meq n n (mmul n M X) idm else eds_Inverse d = Panic ESingular).
Proof. intros tol Ht x n A S d Hl Hx Hn Hs Hm Hd. exact (solver_ok tol n S d Hn (ed_of_good tol Ht x n A S d Hl Hx Hn Hs Hm Hd)). Qed.
Print Assumptions C48_solver.
Theorem C48_dimension : forall tol, (0 <= tol)%R -> forall (x : @RealMatrix (RTolOps tol)) n A S d,
  library x -> MatIs x n n A -> 1 <= n -> nearly_symmetric n A -> mirror_of n A S -> ed_of x d ->
  (forall v k B, VecIs v k B -> k <> n -> eds_SolveVector d v = Panic EDimMismatch) /\
  (forall m k c B, MatIs m k c B -> k <> n -> eds_SolveMatrix d m = Panic EDimMismatch).
Proof. intros tol Ht x n A S d Hl Hx Hn Hs Hm Hd. exact (solver_dim tol n S d (ed_of_good tol Ht x n A S d Hl Hx Hn Hs Hm Hd)). Qed.
Print Assumptions C48_dimension.
Example C48_ex : ed_solve [[4; 0]; [0; 2]] [8; 2] = Ok (fls [2; 1]) /\ ed_solve [[4; 0]; [0; 0]] [8; 2] = Panic ESingular.
Proof. vm_compute. auto. Qed.

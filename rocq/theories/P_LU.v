(** The LU decomposition: C24, C25, C26.
    [lu_of m thr d]: [d] is what NewLUDecompositionWithThreshold(m, thr) with
    thr > 0 (or NewLUDecomposition(m), thr = 1e-11) returned, after any sequence
    of calls to L, U and P.  [mmul], [mvec], [idm], [meq]: see P_Real.v.
    [det n A] is the expansion of the determinant along the first column.
    [fsubs x n g] is ((x - g 0) - g 1) - ... - g (n-1). *)
From Coq Require Import ZArith List Lia Bool Reals Lra.
From Verif Require Import Base BaseLemmas Scalar Vector VecSpec VectorFacts Matrix Array2D BlockM Diagonal RealMatrixM MatSpec TabTac LU LUSpec RealOps RSum Det LUFacts LUProps Float64 ExampleOps ExampleReal ExampleDec.
Import ListNotations.
Open Scope Z_scope.
#[local] Existing Instance ROps.

(** C24 *)
Theorem C24_factorisation : forall (m : @RealMatrix ROps) n A thr d, library m -> MatIs m n n A -> 1 <= n -> lu_of m thr d -> lus_IsNonSingular d = true ->
  exists Lm Um Pm L U P d1 d2 d3,
    lu_L d = Ok (Some Lm, d1) /\ lu_U d = Ok (Some Um, d2) /\ lu_P d = Ok (Some Pm, d3) /\
    MatIs Lm n n L /\ MatIs Um n n U /\ MatIs Pm n n P /\
    meq n n (mmul n P A) (mmul n L U) /\
    (forall i, 0 <= i < n -> L i i = 1%R) /\ (forall i j, 0 <= i < j -> j < n -> L i j = 0%R) /\
    (forall i j, 0 <= i < n -> 0 <= j < n -> (Rabs (L i j) <= 1)%R) /\
    (forall i j, 0 <= j < i -> i < n -> U i j = 0%R) /\ (forall i, 0 <= i < n -> U i i <> 0%R) /\
    len (lu_Pivot d) = n /\ permutes n (nthZ (lu_Pivot d)) /\
    (forall i j, 0 <= i < n -> 0 <= j < n -> P i j = if j =? nthZ (lu_Pivot d) i then 1%R else 0%R).
Proof. exact lu_factorisation. Qed.
Print Assumptions C24_factorisation.
(** In any arithmetic: no panic, the pivots are a permutation, the entries are
    the elimination formulas evaluated in that order on the rows of A taken in
    pivot order, whatever sequence of accessor calls came before; when the
    decomposition is singular the accessors return nil. *)
Theorem C24_any_arithmetic : forall (O : Ops) (m : @RealMatrix O) n A thr, library m -> MatIs m n n A -> 1 <= n ->
  exists d, NewLUDecompositionWithThreshold m thr = Ok d /\ forall d', lu_calls d d' ->
    lu_Pivot d' = lu_Pivot d /\ len (lu_Pivot d') = n /\ permutes n (nthZ (lu_Pivot d')) /\
    lus_IsNonSingular d' = lus_IsNonSingular d /\
    (lus_IsNonSingular d = false -> lu_L d' = Ok (None, d') /\ lu_U d' = Ok (None, d') /\ lu_P d' = Ok (None, d') /\ lu_Determinant d' = Ok fzero) /\
    (lus_IsNonSingular d = true -> exists Lm Um Pm L U P d1 d2 d3 x, let p := nthZ (lu_Pivot d) in
       lu_L d' = Ok (Some Lm, d1) /\ lu_U d' = Ok (Some Um, d2) /\ lu_P d' = Ok (Some Pm, d3) /\ lu_Determinant d' = Ok x /\
       MatIs Lm n n L /\ MatIs Um n n U /\ MatIs Pm n n P /\
       (forall i j, 0 <= i < n -> 0 <= j < n -> P i j = if j =? p i then fone else fzero) /\
       (forall i j, 0 <= i < n -> 0 <= j < n -> i <= j -> U i j = fsubs (A (p i) j) i (fun t => L i t * U t j)%f) /\
       (forall i j, 0 <= i < n -> 0 <= j < n -> j < i -> U i j = fzero) /\
       (forall i j, 0 <= i < n -> 0 <= j < n -> j < i -> L i j = (fsubs (A (p i) j) j (fun t => L i t * U t j) / U j j)%f) /\
       (forall i j, 0 <= i < n -> 0 <= j < n -> i <= j -> L i j = if i =? j then fone else fzero)).
Proof. exact (@lu_any). Qed.
Print Assumptions C24_any_arithmetic.
Theorem C24_not_square : forall (O : Ops) (m : @RealMatrix O) r c A thr, library m -> MatIs m r c A -> r <> c ->
  NewLUDecompositionWithThreshold m thr = Err ENonSquare.
Proof. exact (@lu_new_bad). Qed.
Print Assumptions C24_not_square.
(** "Singular" is reported only when some vector with an entry 1 is mapped to
    one with all entries below the threshold; a matrix with a left inverse
    whose absolute row sums are at most 1/thr is accepted. *)
Theorem C24_singular_means : forall (m : @RealMatrix ROps) n A thr d, library m -> MatIs m n n A -> 1 <= n -> lu_of m thr d -> lus_IsNonSingular d = false ->
  exists x k, 0 <= k < n /\ x k = 1%R /\ forall i, 0 <= i < n -> (Rabs (mvec n A x i) < thr)%R.
Proof. exact lu_singular_near. Qed.
Print Assumptions C24_singular_means.
Theorem C24_accepts : forall (m : @RealMatrix ROps) n A thr B, library m -> MatIs m n n A -> 1 <= n -> (0 < thr)%R -> meq n n (mmul n B A) idm ->
  (forall i, 0 <= i < n -> (Rs 0 n (fun j => Rabs (B i j)) * thr <= 1)%R) ->
  exists d, @NewLUDecompositionWithThreshold ROps m thr = Ok d /\ lus_IsNonSingular d = true.
Proof. exact lu_accepts. Qed.
Print Assumptions C24_accepts.

(** A matrix that needs a row exchange: [[0,2],[3,4]]. *)
Example C24_ex : exists d, lu_of (rmat [[0; 2]; [3; 4]]%R) (1/1000) d /\ lus_IsNonSingular d = true.
Proof.
  destruct (C24_accepts (rmat [[0; 2]; [3; 4]]%R) 2 _ (1/1000)%R (rent [[-2/3; 1/3]; [1/2; 0]]%R) (rmat_lib _) (rmat2_is 0 2 3 4)) as (d & E & Hn); try lia; try lra.
  - intros i j Hi Hj. unfold mmul. rewrite Rs_2. assert (i = 0 \/ i = 1) as [-> | ->] by lia; assert (j = 0 \/ j = 1) as [-> | ->] by lia; rents; unfold idm; cbn [Z.eqb Pos.eqb]; lra.
  - intros i Hi. rewrite Rs_2. assert (i = 0 \/ i = 1) as [-> | ->] by lia; rents; repeat (unfold Rabs; destruct Rcase_abs); lra.
  - exists d. split; auto. split; [lra|]. exists d. split; [left; exact E|constructor].
Qed.
(** The same on float64: pivots [1,0], entries of the factors. *)
Example C24_float_ex : lu_obs [[0; 2; 1]; [3; 4; 5]; [6; 8; 1]] = Some ([2; 0; 1], true) /\ lu_obs [[1; 2]; [2; 4]] = Some ([1; 0], false).
Proof. vm_compute. split; reflexivity. Qed.

(** C25 *)
Theorem C25_determinant : forall (m : @RealMatrix ROps) n A thr d, library m -> MatIs m n n A -> 1 <= n -> lu_of m thr d -> lus_IsNonSingular d = true ->
  lu_Determinant d = Ok (det n A) /\ det n A <> 0%R.
Proof. exact lu_determinant. Qed.
Print Assumptions C25_determinant.
Theorem C25_zero : forall (m : @RealMatrix ROps) n A thr d, library m -> MatIs m n n A -> 1 <= n -> lu_of m thr d -> det n A = 0%R ->
  lus_IsNonSingular d = false /\ lu_Determinant d = Ok 0%R.
Proof. exact lu_determinant_singular. Qed.
Print Assumptions C25_zero.
(** The determinant of the specification is the usual one: 2 by 2 and 3 by 3
    written out; alternating and multilinear in general (Det.v). *)
Example C25_ex : (forall A, det 2 A = A 0%Z 0%Z * A 1%Z 1%Z - A 1%Z 0%Z * A 0%Z 1%Z)%R /\
  (forall A, det 3 A = A 0%Z 0%Z * (A 1%Z 1%Z * A 2%Z 2%Z - A 2%Z 1%Z * A 1%Z 2%Z) - A 1%Z 0%Z * (A 0%Z 1%Z * A 2%Z 2%Z - A 2%Z 1%Z * A 0%Z 2%Z)
     + A 2%Z 0%Z * (A 0%Z 1%Z * A 1%Z 2%Z - A 1%Z 1%Z * A 0%Z 2%Z))%R /\
  exists d, lu_of (rmat [[0; 2]; [3; 4]]%R) (1/1000) d /\ lu_Determinant d = Ok (-6)%R.
Proof.
  assert (D2 : forall A, det 2 A = (A 0%Z 0%Z * A 1%Z 1%Z - A 1%Z 0%Z * A 0%Z 1%Z)%R).
  { intros A. unfold det. change (Z.to_nat 2) with 2%nat. cbn [detn]. change (Z.of_nat 2) with (2). change (Z.of_nat 1) with (0 + 1).
    rewrite Rs_2, !Rs_last, !Rs_nil by lia. unfold minor, altsign. cbn. lra. }
  split; [exact D2|]. split.
  - intros A. unfold det. change (Z.to_nat 3) with 3%nat. cbn [detn]. change (Z.of_nat 3) with (3). change (Z.of_nat 2) with (2). change (Z.of_nat 1) with (0 + 1).
    rewrite Rs_3, !Rs_2, !Rs_last, !Rs_nil by lia. unfold minor, altsign. cbn. lra.
  - destruct C24_ex as (d & Hd & Hn). exists d. split; auto.
    destruct (C25_determinant _ 2 _ _ d (rmat_lib _) (rmat2_is 0 2 3 4) ltac:(lia) Hd Hn) as [E _]. rewrite E. f_equal. rewrite D2. rents. lra.
Qed.

(** C26 *)
Theorem C26_solve_vector : forall (m : @RealMatrix ROps) n A thr d v b, library m -> MatIs m n n A -> 1 <= n -> lu_of m thr d -> lus_IsNonSingular d = true -> VecIs v n b ->
  exists r x, lus_SolveVector d v = Ok r /\ VecIs r n x /\ (forall i, 0 <= i < n -> mvec n A x i = b i) /\
    forall x', (forall i, 0 <= i < n -> mvec n A x' i = b i) -> forall i, 0 <= i < n -> x' i = x i.
Proof. exact lu_solve_vector. Qed.
Print Assumptions C26_solve_vector.
Theorem C26_solve_matrix : forall (m : @RealMatrix ROps) n A thr d b k B, library m -> MatIs m n n A -> 1 <= n -> 1 <= k -> lu_of m thr d -> lus_IsNonSingular d = true -> MatIs b n k B ->
  exists r X, lus_SolveMatrix d b = Ok r /\ MatIs r n k X /\ meq n k (mmul n A X) B.
Proof. exact lu_solve_matrix. Qed.
Print Assumptions C26_solve_matrix.
Theorem C26_inverse : forall (m : @RealMatrix ROps) n A thr d, library m -> MatIs m n n A -> 1 <= n -> lu_of m thr d -> lus_IsNonSingular d = true ->
  exists r X, lus_Inverse d = Ok r /\ MatIs r n n X /\ meq n n (mmul n A X) idm /\ meq n n (mmul n X A) idm.
Proof. exact lu_inverse. Qed.
Print Assumptions C26_inverse.
Theorem C26_panics : forall (O : Ops) (m : @RealMatrix O) n A thr d d', library m -> MatIs m n n A -> 1 <= n -> NewLUDecompositionWithThreshold m thr = Ok d -> lu_calls d d' ->
  (forall v k b, VecIs v k b -> k <> n -> panics (lus_SolveVector d' v)) /\
  (forall b r c B, MatIs b r c B -> r <> n -> panics (lus_SolveMatrix d' b)) /\
  (lus_IsNonSingular d' = false -> (forall v, panics (lus_SolveVector d' v)) /\ (forall b, panics (lus_SolveMatrix d' b)) /\ panics (lus_Inverse d')).
Proof. exact (@lu_solver_panics). Qed.
Print Assumptions C26_panics.
Theorem C26_no_panic : forall (O : Ops) (m : @RealMatrix O) n A thr d v b, library m -> MatIs m n n A -> 1 <= n -> NewLUDecompositionWithThreshold m thr = Ok d -> forall d', lu_calls d d' ->
  VecIs v n b -> lus_IsNonSingular d' = true -> exists r x, lus_SolveVector d' v = Ok r /\ VecIs r n x.
Proof. exact (@lu_any_solve). Qed.
Print Assumptions C26_no_panic.
Example C26_ex : exists d r, lu_of (rmat [[0; 2]; [3; 4]]%R) (1/1000) d /\ lus_SolveVector d (rvec [2; 7]%R) = Ok r /\ v_At r 0 = Ok 1%R /\ v_At r 1 = Ok 1%R.
Proof.
  destruct C24_ex as (d & Hd & Hn).
  destruct (C26_solve_vector _ 2 _ _ d _ _ (rmat_lib _) (rmat2_is 0 2 3 4) ltac:(lia) Hd Hn (rvec_is [2; 7]%R 2 eq_refl)) as (r & x & E & Hx & _ & Hu).
  exists d, r. split; [exact Hd|]. split; [exact E|]. destruct Hx as (_ & Hx & _). rewrite !Hx by lia.
  assert (K : forall i, 0 <= i < 2 -> 1%R = x i).
  { apply (Hu (fun _ => 1%R)). intros i Hi. unfold mvec. rewrite Rs_2. assert (i = 0 \/ i = 1) as [-> | ->] by lia; rents; lra. }
  rewrite <- !K by lia. auto.
Qed.

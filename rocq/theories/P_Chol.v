(** The Cholesky decomposition: C27, C28.
    [ch_of m rel pos d]: [d] is what NewCholeskyDecomposition(m, rel, pos) with
    pos >= 0 (or NewDefaultCholeskyDecomposition(m), rel = 1e-15, pos = 1e-10)
    returned, after any sequence of calls to L and LT.  [quad n A x] is x^T A x;
    [asym rel A i j]: |a_ij - a_ji| > rel * max(|a_ij|, |a_ji|). *)
From Coq Require Import ZArith List Lia Bool Reals Lra.
From Verif Require Import Base BaseLemmas Scalar Vector VecSpec VectorFacts Matrix Array2D BlockM Diagonal RealMatrixM MatSpec TabTac Cholesky CholSpec RealOps RSum Det CholFacts CholProps Float64 ExampleOps ExampleReal ExampleDec.
Import ListNotations.
Open Scope Z_scope.
#[local] Existing Instance ROps.

(** C27 *)
Theorem C27_factorisation : forall (m : @RealMatrix ROps) n A rel pos d, library m -> MatIs m n n A -> 1 <= n -> symmetric n A -> ch_of m rel pos d ->
  exists Lm Tm L T d1 d2, ch_L d = Ok (Lm, d1) /\ ch_LT d = Ok (Tm, d2) /\ MatIs Lm n n L /\ MatIs Tm n n T /\
    meq n n (mmul n L T) A /\ meq n n T (trm L) /\
    (forall i j, 0 <= i < j -> j < n -> L i j = 0%R) /\ (forall i, 0 <= i < n -> (0 < L i i)%R) /\
    ch_Determinant d = Ok (det n A).
Proof. exact ch_factorisation. Qed.
Print Assumptions C27_factorisation.
(** Without exact symmetry (the test allows a relative difference) the product
    is the upper triangle and its mirror image. *)
Theorem C27_upper_triangle : forall (m : @RealMatrix ROps) n A rel pos d, library m -> MatIs m n n A -> 1 <= n -> ch_of m rel pos d ->
  exists Lm Tm L T d1 d2, ch_L d = Ok (Lm, d1) /\ ch_LT d = Ok (Tm, d2) /\ MatIs Lm n n L /\ MatIs Tm n n T /\
    meq n n (mmul n L T) (mirror A) /\ meq n n T (trm L) /\
    (forall i j, 0 <= i < j -> j < n -> L i j = 0%R) /\ (forall i, 0 <= i < n -> (0 < L i i)%R) /\
    ch_Determinant d = Ok (det n (mirror A)).
Proof. exact ch_factor_mirror. Qed.
Print Assumptions C27_upper_triangle.
(** Success exactly when x^T A x > pos for every x whose last non-zero entry
    is 1; otherwise the error. *)
Theorem C27_accepts : forall (m : @RealMatrix ROps) n A rel pos, library m -> MatIs m n n A -> 1 <= n -> symmetric n A -> (0 <= rel)%R -> (0 <= pos)%R ->
  ((forall k x, 0 <= k < n -> x k = 1%R -> (forall j, k < j < n -> x j = 0%R) -> (pos < quad n A x)%R) ->
     exists d, @NewCholeskyDecomposition ROps m rel pos = Ok d) /\
  ((exists k x, 0 <= k < n /\ x k = 1%R /\ (forall j, k < j < n -> x j = 0%R) /\ (quad n A x <= pos)%R) ->
     @NewCholeskyDecomposition ROps m rel pos = Err ENonPosDef).
Proof. exact ch_accepts. Qed.
Print Assumptions C27_accepts.
Theorem C27_accepts_definite : forall (m : @RealMatrix ROps) n A rel pos c, library m -> MatIs m n n A -> 1 <= n -> symmetric n A -> (0 <= rel)%R -> (0 <= pos < c)%R ->
  (forall x, (c * dot n x x <= quad n A x)%R) -> exists d, @NewCholeskyDecomposition ROps m rel pos = Ok d.
Proof. exact ch_accepts_definite. Qed.
Print Assumptions C27_accepts_definite.
Theorem C27_definite : forall (m : @RealMatrix ROps) n A rel pos d, library m -> MatIs m n n A -> 1 <= n -> symmetric n A -> ch_of m rel pos d ->
  forall x, (exists i, 0 <= i < n /\ x i <> 0%R) -> (0 < quad n A x)%R.
Proof. exact ch_definite. Qed.
Print Assumptions C27_definite.
(** In any arithmetic: the errors, and the entries of L as the recurrences
    evaluated in that order, whatever accessor calls came before. *)
Theorem C27_not_square : forall (O : Ops) (m : @RealMatrix O) r c A rel pos, MatIs m r c A -> r <> c ->
  NewCholeskyDecomposition m rel pos = Err ENonSquare.
Proof. exact (@ch_new_bad). Qed.
Print Assumptions C27_not_square.
Theorem C27_outcome : forall (O : Ops) (m : @RealMatrix O) n A rel pos, library m -> MatIs m n n A -> 1 <= n ->
  (forall i j, 0 <= i < j -> j < n -> asym rel A i j = true ->
     (forall a b, 0 <= a < b -> b < n -> a < i \/ (a = i /\ b < j) -> asym rel A a b = false) ->
     NewCholeskyDecomposition m rel pos = Err (ENonSymmetric i j)) /\
  ((forall i j, 0 <= i < j -> j < n -> asym rel A i j = false) ->
     NewCholeskyDecomposition m rel pos = Err ENonPosDef \/ exists d, NewCholeskyDecomposition m rel pos = Ok d).
Proof. exact (@ch_outcome). Qed.
Print Assumptions C27_outcome.
Theorem C27_any_arithmetic : forall (O : Ops) (m : @RealMatrix O) n A rel pos d d', library m -> MatIs m n n A -> 1 <= n ->
  NewCholeskyDecomposition m rel pos = Ok d -> ch_calls d d' ->
  exists Lm Tm L T d1 d2,
    ch_L d' = Ok (Lm, d1) /\ ch_LT d' = Ok (Tm, d2) /\ MatIs Lm n n L /\ MatIs Tm n n T /\
    (forall i j, 0 <= i < n -> 0 <= j < n -> L i j = T j i) /\
    (forall i j, 0 <= i < n -> 0 <= j < n -> i < j -> L i j = fzero) /\
    (forall i, 0 <= i < n -> let x := fsubs (A i i) i (fun t => L i t * L i t)%f in fle x pos = false /\ L i i = fsqrt x) /\
    (forall i j, 0 <= j < i -> i < n -> L i j = (fsubs (A j i) j (fun t => L j t * L i t) * (fone / L j j))%f) /\
    ch_Determinant d' = Ok (accum (fun i x => x * (L i i * L i i))%f (Z.to_nat n) fone).
Proof. exact (@ch_any). Qed.
Print Assumptions C27_any_arithmetic.

Example C27_ex : symmetric 2 (rent [[4; 2]; [2; 3]]%R) /\ exists d, ch_of (rmat [[4; 2]; [2; 3]]%R) 0 (1/10) d /\ ch_Determinant d = Ok 8%R.
Proof.
  assert (S : symmetric 2 (rent [[4; 2]; [2; 3]]%R)).
  { intros i j Hi Hj. assert (i = 0 \/ i = 1) as [-> | ->] by lia; assert (j = 0 \/ j = 1) as [-> | ->] by lia; rents; auto. }
  split; [exact S|].
  destruct (C27_accepts_definite (rmat [[4; 2]; [2; 3]]%R) 2 _ 0%R (1/10)%R 1%R (rmat_lib _) (rmat2_is 4 2 2 3) ltac:(lia) S ltac:(lra) ltac:(lra)) as (d & E).
  - intros x. unfold quad, dot, mvec. rewrite !Rs_2. rents. pose proof (Rle_0_sqr (3 * x 0%Z + 2 * x 1%Z)) as K1. pose proof (Rle_0_sqr (x 1%Z)) as K2. unfold Rsqr in *. nra.
  - assert (Hd : ch_of (rmat [[4; 2]; [2; 3]]%R) 0 (1/10) d) by (split; [lra|]; exists d; split; [left; exact E|constructor]).
    exists d. split; [exact Hd|].
    destruct (C27_factorisation _ 2 _ _ _ d (rmat_lib _) (rmat2_is 4 2 2 3) ltac:(lia) S Hd) as (_ & _ & _ & _ & _ & _ & _ & _ & _ & _ & _ & _ & _ & _ & Hdet).
    rewrite Hdet. f_equal. unfold det. change (Z.to_nat 2) with 2%nat. cbn [detn]. change (Z.of_nat 2) with (2). change (Z.of_nat 1) with (0 + 1).
    rewrite Rs_2, !Rs_last, !Rs_nil by lia. unfold minor, altsign. cbn [Z.even Z.ltb Z.compare Z.add Pos.compare Pos.compare_cont]. rents. lra.
Qed.
(** The same on float64: the factor, both errors, and NaN, which passes both
    tests. *)
Example C27_float_ex :
  chol_obs [[4; 2]; [2; 5]] [6; 7] = Ok (flss [[2; 0]; [1; 2]], flss [[2; 1]; [0; 2]], fls [1; 1]) /\
  chol_obs [[1; 2]; [2; 1]] [1; 1] = Err ENonPosDef /\ chol_obs [[1; 2]; [3; 9]] [1; 1] = Err (ENonSymmetric 0 1) /\ chol_nan = Ok [[NaN64]].
Proof. vm_compute. repeat split; reflexivity. Qed.

(** C28 *)
Theorem C28_solve_vector : forall (m : @RealMatrix ROps) n A rel pos d v b, library m -> MatIs m n n A -> 1 <= n -> symmetric n A -> ch_of m rel pos d -> VecIs v n b ->
  exists r x, chs_SolveVector d v = Ok r /\ VecIs r n x /\ (forall i, 0 <= i < n -> mvec n A x i = b i) /\
    forall x', (forall i, 0 <= i < n -> mvec n A x' i = b i) -> forall i, 0 <= i < n -> x' i = x i.
Proof. exact ch_solve_vector. Qed.
Print Assumptions C28_solve_vector.
Theorem C28_solve_matrix : forall (m : @RealMatrix ROps) n A rel pos d b k B, library m -> MatIs m n n A -> 1 <= n -> 1 <= k -> symmetric n A -> ch_of m rel pos d -> library b -> MatIs b n k B ->
  exists r X, chs_SolveMatrix d b = Ok r /\ MatIs r n k X /\ meq n k (mmul n A X) B.
Proof. exact ch_solve_matrix. Qed.
Print Assumptions C28_solve_matrix.
Theorem C28_inverse : forall (m : @RealMatrix ROps) n A rel pos d, library m -> MatIs m n n A -> 1 <= n -> symmetric n A -> ch_of m rel pos d ->
  exists r X, chs_Inverse d = Ok r /\ MatIs r n n X /\ meq n n (mmul n A X) idm /\ meq n n (mmul n X A) idm.
Proof. exact ch_inverse. Qed.
Print Assumptions C28_inverse.
(** In any arithmetic: no panic for matching dimensions, the columns of
    SolveMatrix are bit for bit the answers of SolveVector, a panic otherwise. *)
Theorem C28_any_arithmetic : forall (O : Ops) (m : @RealMatrix O) n A rel pos d d', library m -> MatIs m n n A -> 1 <= n ->
  NewCholeskyDecomposition m rel pos = Ok d -> ch_calls d d' ->
  (forall v b, VecIs v n b -> exists r x, chs_SolveVector d' v = Ok r /\ VecIs r n x) /\
  (forall B k b, library b -> MatIs b n k B -> 1 <= k -> exists r X, chs_SolveMatrix d' b = Ok r /\ MatIs r n k X /\
     forall c v, 0 <= c < k -> VecIs v n (fun i => B i c) -> exists r' x', chs_SolveVector d' v = Ok r' /\ VecIs r' n x' /\ forall i, 0 <= i < n -> x' i = X i c) /\
  (exists r X, chs_Inverse d' = Ok r /\ MatIs r n n X) /\
  (forall v k b, VecIs v k b -> k <> n -> panics (chs_SolveVector d' v)) /\
  (forall b r c B, MatIs b r c B -> r <> n -> panics (chs_SolveMatrix d' b)).
Proof. exact (@ch_any_solve). Qed.
Print Assumptions C28_any_arithmetic.
Example C28_ex : exists d r, ch_of (rmat [[4; 2]; [2; 3]]%R) 0 (1/10) d /\ chs_SolveVector d (rvec [6; 5]%R) = Ok r /\ v_At r 0 = Ok 1%R /\ v_At r 1 = Ok 1%R.
Proof.
  destruct C27_ex as (S & d & Hd & _).
  destruct (C28_solve_vector _ 2 _ _ _ d _ _ (rmat_lib _) (rmat2_is 4 2 2 3) ltac:(lia) S Hd (rvec_is [6; 5]%R 2 eq_refl)) as (r & x & E & Hx & _ & Hu).
  exists d, r. split; [exact Hd|]. split; [exact E|]. destruct Hx as (_ & Hx & _). rewrite !Hx by lia.
  assert (K : forall i, 0 <= i < 2 -> 1%R = x i).
  { apply (Hu (fun _ => 1%R)). intros i Hi. unfold mvec. rewrite Rs_2. assert (i = 0 \/ i = 1) as [-> | ->] by lia; rents; lra. }
  rewrite <- !K by lia. auto.
Qed.

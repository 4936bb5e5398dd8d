(** The rectangular Cholesky decomposition: C32.  [psd n A]: A is symmetric and
    x^T A x >= 0 for every x.  [rc_of x small d]: [d] is what the constructor
    with threshold [small] (or the one without, small = 0) returned for [x]. *)
From Coq Require Import ZArith List Lia Bool Reals Lra.
From Verif Require Import Base BaseLemmas Scalar Vector VecSpec VectorFacts Matrix Array2D BlockM Diagonal RealMatrixM MatSpec TabTac CholSpec QRSpec QRReal3 RectChol RectSpec RectProps RealOps RSum Float64 ExampleOps ExampleReal ExampleDec.
Import ListNotations.
Open Scope Z_scope.
#[local] Existing Instance ROps.

(** The root reproduces A up to the threshold; with threshold 0 exactly, and
    Rank is the rank of A.  Its columns are independent. *)
Theorem C32_factorisation : forall (x : @RealMatrix ROps) n A small d, library x -> MatIs x n n A -> 1 <= n -> psd n A -> (0 <= small)%R -> rc_of x small d ->
  exists r W, rc_Rank d = r /\ 1 <= r <= n /\ MatIs (rc_RootMatrix d) n r W /\ independent n r W /\
    (forall a b, 0 <= a < n -> 0 <= b < n -> (Rabs (A a b - mmul r W (trm W) a b) <= small)%R) /\
    (small = 0%R -> meq n n (mmul r W (trm W)) A /\ has_rank n n A r).
Proof. exact rc_factor. Qed.
Print Assumptions C32_factorisation.
(** A semidefinite matrix is accepted iff some diagonal element is above the
    threshold; in particular the zero matrix is rejected. *)
Theorem C32_defined : forall (x : @RealMatrix ROps) n A small, library x -> MatIs x n n A -> 1 <= n -> psd n A -> (0 <= small)%R ->
  ((exists a, 0 <= a < n /\ (small < A a a)%R) -> exists d, NewRectangularCholeskyDecompositionWithThreshold x small = Ok d) /\
  ((forall a, 0 <= a < n -> (A a a <= small)%R) -> NewRectangularCholeskyDecompositionWithThreshold x small = Err ENonPosDef).
Proof. exact rc_defined. Qed.
Print Assumptions C32_defined.
(** On any symmetric matrix: the diagonal is reproduced; with threshold 0 a
    returned root is a root iff the matrix is semidefinite (a matrix that is not
    may be accepted without an error). *)
Theorem C32_symmetric : forall (x : @RealMatrix ROps) n A small d, library x -> MatIs x n n A -> 1 <= n -> symmetric n A -> (0 <= small)%R -> rc_of x small d ->
  exists r W, rc_Rank d = r /\ 1 <= r <= n /\ MatIs (rc_RootMatrix d) n r W /\
    (forall a, 0 <= a < n -> (Rabs (A a a - mmul r W (trm W) a a) <= small)%R) /\
    (small = 0%R -> (meq n n (mmul r W (trm W)) A <-> psd n A)).
Proof. exact rc_symmetric. Qed.
Print Assumptions C32_symmetric.
Theorem C32_error : forall (x : @RealMatrix ROps) n A small e, library x -> MatIs x n n A -> 1 <= n -> symmetric n A -> (0 <= small)%R ->
  NewRectangularCholeskyDecompositionWithThreshold x small = Err e -> (forall a, 0 <= a < n -> (A a a <= small)%R) \/ ~ psd n A.
Proof. exact rc_error. Qed.
Print Assumptions C32_error.
(** In any arithmetic, on any square matrix: an error or a root with Rank
    columns; no panic. *)
Theorem C32_any_arithmetic : forall (O : Ops) (x : @RealMatrix O) n A small, library x -> MatIs x n n A -> 1 <= n ->
  NewRectangularCholeskyDecompositionWithThreshold x small = Err ENonPosDef \/
  exists d W, NewRectangularCholeskyDecompositionWithThreshold x small = Ok d /\ 1 <= rc_Rank d <= n /\ MatIs (rc_RootMatrix d) n (rc_Rank d) W.
Proof. exact (@rc_any). Qed.
Print Assumptions C32_any_arithmetic.

Lemma ex_psd : psd 2 (rent [[4; 2]; [2; 1]]%R).
Proof.
  split.
  - intros i j Hi Hj. assert (i = 0 \/ i = 1) as [-> | ->] by lia; assert (j = 0 \/ j = 1) as [-> | ->] by lia; rents; auto.
  - intros y. unfold quad, dot, mvec. rewrite !Rs_2. rents. pose proof (Rle_0_sqr (2 * y 0%Z + y 1%Z)%R) as H. unfold Rsqr in H. lra.
Qed.
Example C32_ex : exists d W, rc_of (rmat [[4; 2]; [2; 1]]%R) 0%R d /\ rc_Rank d = 1 /\ MatIs (rc_RootMatrix d) 2 1 W /\ meq 2 2 (mmul 1 W (trm W)) (rent [[4; 2]; [2; 1]]%R).
Proof.
  destruct (C32_defined _ 2 _ 0%R (rmat_lib _) (rmat2_is 4 2 2 1) ltac:(lia) ex_psd ltac:(lra)) as [H _].
  destruct H as (d & E); [exists 0; split; [lia|rents; lra]|].
  destruct (C32_factorisation _ 2 _ 0%R d (rmat_lib _) (rmat2_is 4 2 2 1) ltac:(lia) ex_psd ltac:(lra) (or_introl E)) as (r & W & Er & Hr & HW & _ & _ & K).
  destruct (K eq_refl) as [EA HR].
  assert (r = 1) as ->.
  { apply (rank_unique 2 2 _ _ _ HR). split; [lia|]. exists (fun _ => 1). split; [intros; lia|]. split.
    - intros w Hw j Hj. replace j with 0 by lia. specialize (Hw 1 ltac:(lia)). unfold mvec in Hw. rewrite (Rs_last 0 0), Rs_nil in Hw by lia. revert Hw. rents. intros. lra.
    - intros j Hj. exists (fun _ => if j =? 0 then 2%R else 1%R). intros i Hi. unfold mvec. rewrite (Rs_last 0 0), Rs_nil by lia.
      assert (i = 0 \/ i = 1) as [-> | ->] by lia; assert (j = 0 \/ j = 1) as [-> | ->] by lia; cbn [Z.eqb]; rents; lra. }
  exists d, W. split; [left; exact E|]. split; [auto|]. split; [exact HW|exact EA].
Qed.
(** float64: pivoting puts the larger diagonal element first; the zero matrix
    is rejected; an indefinite matrix is accepted and not reproduced. *)
Example C32_float_ex : rc_obs [[4; 2]; [2; 1]] = Ok (flss [[2]; [1]], 1) /\ rc_obs [[1; 2]; [2; 4]] = Ok (flss [[1]; [2]], 1) /\
  rc_obs [[1; 2]; [2; 8]] <> rc_obs [[1; 2]; [2; 4]] /\ rc_obs [[0; 0]; [0; 0]] = Err ENonPosDef /\
  rc_obs [[1; 0; 0]; [0; 0; 1]; [0; 1; 0]] = Ok (flss [[1]; [0]; [0]], 1).
Proof. vm_compute. repeat split; try reflexivity. discriminate. Qed.

(** Property C60: the float64 Cholesky decomposition and its solver against
    exact arithmetic.  [fR], [num], [gam], [grow], [tiny] as in C57-C59
    (RndSpec.v); [up A] is the symmetric matrix with the upper triangle of [A]
    (the part the code reads).  [ch_calls d0 d]: [d] is [d0] after any accessor calls. *)
From Coq Require Import ZArith List Lia Bool Reals Lra Floats.SpecFloat.
From Verif Require Import Base BaseLemmas Scalar Vector VecSpec Matrix Array2D BlockM Diagonal RealMatrixM MatSpec Float64 ExampleOps RSum RndSpec RndLUEx Cholesky CholSpec RndChol RndCholEx.
Import ListNotations.
Open Scope Z_scope.

(** If the factor is finite: |L L^T - A| <= gam (n+1) |L| |L^T| and underflow; the
    residual of a finite solution is at most gam (n+1) (3 + gam (n+1)) |L| |L^T| |x|
    and underflow. *)
Theorem C60_cholesky : forall c (m : @RealMatrix (SFOps c)) n (A : Z -> Z -> sf) (rel pos : sf) (d0 d : @ChD (SFOps c)), library m -> MatIs m n n A -> 1 <= n -> nums2 n n A ->
  NewCholeskyDecomposition m rel pos = Ok d0 -> ch_calls d0 d ->
  exists Lm (L : Z -> Z -> sf) d1, ch_L d = Ok (Lm, d1) /\ MatIs Lm n n L /\
    (nums2 n n L -> chol_close n A L /\
      (forall (v : @RealVector (SFOps c)) (b : Z -> sf), VecIs v n b -> nums n b ->
         exists (r : @RealVector (SFOps c)) (x : Z -> sf), chs_SolveVector d v = Ok r /\ VecIs r n x /\ (nums n x -> chol_solves n A L x b)) /\
      (forall (bm : @RealMatrix (SFOps c)) k (B : Z -> Z -> sf), 1 <= k -> library bm -> MatIs bm n k B -> nums2 n k B ->
         exists (r : @RealMatrix (SFOps c)) (X : Z -> Z -> sf), chs_SolveMatrix d bm = Ok r /\ MatIs r n k X /\
         (nums2 n k X -> forall q, 0 <= q < k -> chol_solves n A L (fun i => X i q) (fun i => B i q))) /\
      (exists (r : @RealMatrix (SFOps c)) (X : Z -> Z -> sf), chs_Inverse d = Ok r /\ MatIs r n n X /\
         (nums2 n n X -> forall q, 0 <= q < n -> chol_solves n A L (fun i => X i q) (fun i => if i =? q then sf_of_Z 1 else sf_zero)))).
Proof. exact ch_sf_back. Qed.
Print Assumptions C60_cholesky.
(** [[4 2] [2 3]]: L has the rounded square root of 2; the solution for (1, 1) is
    (1/8, 1/4 - 2^-55) where the exact one is (1/8, 1/4). *)
Example C60_ex : exists d Lm (L : Z -> Z -> sf) d1, @NewCholeskyDecomposition E64 (fmat exC) sf_zero sf_zero = Ok d /\ ch_L d = Ok (Lm, d1) /\ MatIs Lm 2 2 L /\ nums2 2 2 L /\
  chol_close 2 (fent exC) L /\ (fR (L 1%Z 1%Z) * fR (L 1%Z 1%Z) <> 2)%R /\
  exists r (x : Z -> sf), chs_SolveVector d (VArr (fls [1; 1])) = Ok r /\ VecIs r 2 x /\ nums 2 x /\ chol_solves 2 (fent exC) L x (nthZ (fls [1; 1])) /\ fR (x 1) <> (1 / 4)%R.
Proof. exact chol_ex. Qed.

(** C61, full statement: a finite symmetric matrix that the constructor accepts is
    positive definite up to rounding.  Missing here: the hypothesis that the factor
    is finite; without it the statement is false (below). *)
Theorem C61_definite_partial : forall c (m : @RealMatrix (SFOps c)) n (A : Z -> Z -> sf) (rel pos : sf) (d0 d : @ChD (SFOps c)), library m -> MatIs m n n A -> 1 <= n -> nums2 n n A ->
  NewCholeskyDecomposition m rel pos = Ok d0 -> ch_calls d0 d ->
  exists Lm (L : Z -> Z -> sf) d1, ch_L d = Ok (Lm, d1) /\ MatIs Lm n n L /\ (nums2 n n L -> forall x : Z -> R,
    (- Rs 0 n (fun i => Rs 0 n (fun j => Rabs (x i) * chol_err n L i j * Rabs (x j))) <= quad n (fun i j => fR (up A i j)) x)%R).
Proof. exact ch_sf_definite. Qed.
Print Assumptions C61_definite_partial.

(** [[2^-33 0 2^1023] [0 1 0] [2^1023 0 1]] is finite and symmetric, x^T A x is below
    -2^1023 at (1, 0, -1), and it is accepted with the default thresholds: the third
    pivot overflowed to NaN and the test [x <= threshold] does not reject NaN. *)
Theorem C61_refuted : exists d Lm d1 (L : Z -> Z -> sf) (x : Z -> R), library exBm /\ MatIs exBm 3 3 exBe /\ nums2 3 3 exBe /\ (forall i j, 0 <= i < 3 -> 0 <= j < 3 -> exBe i j = exBe j i) /\
  @NewDefaultCholeskyDecomposition E64 exBm = Ok d /\ ch_L d = Ok (Lm, d1) /\ MatIs Lm 3 3 L /\ sf_isnan (L 2 2) = true /\ (quad 3 (fun i j => fR (exBe i j)) x <= - powerRZ 2 1023)%R.
Proof. exact chol_refuted. Qed.
Print Assumptions C61_refuted.
(** The matrix of C60_ex meets the hypotheses of the partial theorem. *)
Example C61_ex : exists d0 Lm (L : Z -> Z -> sf) d1, @NewCholeskyDecomposition E64 (fmat exC) sf_zero sf_zero = Ok d0 /\ ch_calls d0 d0 /\ ch_L d0 = Ok (Lm, d1) /\ MatIs Lm 2 2 L /\ nums2 2 2 L /\ nums2 2 2 (fent exC).
Proof. destruct chol_ex as (d & Lm & L & d1 & E & EL & HL & NL & _). exists d, Lm, L, d1. split; [exact E|]. split; [apply cc_none|]. split; [exact EL|]. split; [exact HL|]. split; [exact NL|apply exC_num]. Qed.

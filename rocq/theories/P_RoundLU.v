(** Properties C58 and C59: the float64 LU decomposition and its solver
    against exact arithmetic.  [fR x] is the real number the float64 [x] stands
    for, [num x]: [x] is a finite 64-bit number, [gam n] = (1 + 2^-53)^n - 1,
    [grow n] = (1 + 2^-53)^n, [tiny] = 2^-1075 (RndSpec.v).  [PA] is the input with
    its rows in the order of Pivot().  [lu_calls d0 d]: [d] is [d0] after any
    accessor calls. *)
From Coq Require Import ZArith List Lia Bool Reals Lra Floats.SpecFloat.
From Verif Require Import Base BaseLemmas Scalar Vector VecSpec Matrix Array2D BlockM Diagonal RealMatrixM MatSpec Float64 ExampleOps RSum RndSpec LU LUSpec RndLU RndLUEx.
Import ListNotations.
Open Scope Z_scope.

(** L U is PA up to |L U - PA| <= gam n |L| |U| and underflow, and no multiplier
    exceeds one, if the factors are finite. *)
Theorem C58_factors : forall c (m : @RealMatrix (SFOps c)) n (A : Z -> Z -> sf) (thr : sf) (d0 d : @LUD (SFOps c)), library m -> MatIs m n n A -> 1 <= n -> nums2 n n A ->
  NewLUDecompositionWithThreshold m thr = Ok d0 -> lu_calls d0 d -> lus_IsNonSingular d = true ->
  exists Lm Um (L U : Z -> Z -> sf) d1 d2, lu_L d = Ok (Some Lm, d1) /\ lu_U d = Ok (Some Um, d2) /\ MatIs Lm n n L /\ MatIs Um n n U /\ permutes n (nthZ (lu_Pivot d)) /\
    (nums2 n n L -> nums2 n n U -> factors_close n (fun i j => A (nthZ (lu_Pivot d) i) j) L U /\
       forall i j, 0 <= i < n -> 0 <= j < n -> (Rabs (fR (L i j)) <= 1)%R).
Proof. exact lu_sf_factors. Qed.
Print Assumptions C58_factors.
(** The factors are finite if the threshold is positive and the entries leave
    room for n - 1 doublings. *)
Theorem C58_no_overflow : forall c (m : @RealMatrix (SFOps c)) n (A : Z -> Z -> sf) (thr : sf) (d0 d : @LUD (SFOps c)), library m -> MatIs m n n A -> 1 <= n -> nums2 n n A ->
  NewLUDecompositionWithThreshold m thr = Ok d0 -> lu_calls d0 d -> lus_IsNonSingular d = true -> num thr -> (0 < fR thr)%R -> lu_room n A ->
  exists Lm Um (L U : Z -> Z -> sf) d1 d2, lu_L d = Ok (Some Lm, d1) /\ lu_U d = Ok (Some Um, d2) /\ MatIs Lm n n L /\ MatIs Um n n U /\ nums2 n n L /\ nums2 n n U.
Proof. exact lu_sf_finite. Qed.
Print Assumptions C58_no_overflow.
(** The solution of a linear system: the residual is at most
    gam n (3 + gam n) |L| |U| |x| and underflow, if it is finite. *)
Theorem C59_solve : forall c (m : @RealMatrix (SFOps c)) n (A : Z -> Z -> sf) (thr : sf) (d0 d : @LUD (SFOps c)), library m -> MatIs m n n A -> 1 <= n -> nums2 n n A ->
  NewLUDecompositionWithThreshold m thr = Ok d0 -> lu_calls d0 d -> lus_IsNonSingular d = true ->
  exists Lm Um (L U : Z -> Z -> sf) d1 d2, lu_L d = Ok (Some Lm, d1) /\ lu_U d = Ok (Some Um, d2) /\ MatIs Lm n n L /\ MatIs Um n n U /\
    (nums2 n n L -> nums2 n n U -> let p := nthZ (lu_Pivot d) in let PA i j := A (p i) j in
      (forall (v : @RealVector (SFOps c)) (b : Z -> sf), VecIs v n b -> nums n b ->
         exists (r : @RealVector (SFOps c)) (x : Z -> sf), lus_SolveVector d v = Ok r /\ VecIs r n x /\
         (nums n x -> solves_close n PA L U x (fun i => b (p i)))) /\
      (forall (bm : @RealMatrix (SFOps c)) k (B : Z -> Z -> sf), 1 <= k -> MatIs bm n k B -> nums2 n k B ->
         exists (r : @RealMatrix (SFOps c)) (X : Z -> Z -> sf), lus_SolveMatrix d bm = Ok r /\ MatIs r n k X /\
         (nums2 n k X -> forall q, 0 <= q < k -> solves_close n PA L U (fun i => X i q) (fun i => B (p i) q))) /\
      (exists (r : @RealMatrix (SFOps c)) (X : Z -> Z -> sf), lus_Inverse d = Ok r /\ MatIs r n n X /\
         (nums2 n n X -> forall q, 0 <= q < n -> solves_close n PA L U (fun i => X i q) (fun i => if p i =? q then sf_of_Z 1 else sf_zero)))).
Proof. exact lu_sf_solve. Qed.
Print Assumptions C59_solve.
(** [[3 1] [7 1]]: the multiplier is 3/7 rounded; x solves it with (1, 1). *)
Example C58_ex : exists d Lm Um (L U : Z -> Z -> sf) d1 d2, @NewLUDecompositionWithThreshold E64 (fmat exA) ex_thr = Ok d /\ lus_IsNonSingular d = true /\
  lu_L d = Ok (Some Lm, d1) /\ lu_U d = Ok (Some Um, d2) /\ MatIs Lm 2 2 L /\ MatIs Um 2 2 U /\ nums2 2 2 L /\ nums2 2 2 U /\
  lu_Pivot d = [1; 0] /\ factors_close 2 (fun i j => fent exA (nthZ [1; 0] i) j) L U /\ fR (L 1 0) <> (3 / 7)%R /\
  exists r (x : Z -> sf), lus_SolveVector d (VArr (fls [1; 1])) = Ok r /\ VecIs r 2 x /\ nums 2 x /\
    solves_close 2 (fun i j => fent exA (nthZ [1; 0] i) j) L U x (fun i => nthZ (fls [1; 1]) (nthZ [1; 0] i)).
Proof. exact lu_ex. Qed.

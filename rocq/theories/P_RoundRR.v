(** Properties C67 and C68: the rank-revealing QR decomposition is the QR
    decomposition of the rearranged matrix, in every arithmetic; its float64
    factors and solver against exact arithmetic.  [rr_of x thr d]: [d] is the
    rank-revealing decomposition of [x], after any accessor calls; [qr_of] the
    same for the plain one.  [fR], [qr_size], [diag_range], [qr_backward] and the
    other bounds are those of C65 and C66 (RndSpec.v, RndQRSpec.v); [permutes n p]: [p] is a
    permutation of 0 .. n-1. *)
From Coq Require Import ZArith List Lia Bool Reals Floats.SpecFloat.
From Verif Require Import Base BaseLemmas Scalar Vector VecSpec Matrix Array2D BlockM Diagonal RealMatrixM MatSpec Float64 ExampleOps LUSpec RndSpec QR QRSpec RRPerm RndLUEx RndQRSpec RndQREx RndRR2 RndRREx.
Import ListNotations.
Open Scope Z_scope.

(** P is the matrix of a permutation p of the columns, and Q, R, H and the answer of
    IsNonSingular are, bit for bit, those of the plain QR decomposition of the
    matrix whose column j is column p(j) of A, whatever type holds it. *)
Theorem C67_permuted : forall (O : Ops) (x : @RealMatrix O) m n A thr d, transposable x -> MatIs x m n A -> 1 <= m -> 1 <= n -> rr_of x thr d ->
  exists p Pm d4, rr_P d = Ok (Pm, d4) /\ MatIs Pm n n (fun i j => if i =? p j then fone else fzero) /\ permutes n p /\
  forall y d', transposable y -> MatIs y m n (fun i j => A i (p j)) -> qr_of y thr d' ->
    exists Q R H Qm Rm Hm Qm' Rm' Hm' d1 d2 d3 d1' d2' d3',
      rr_lift qr_Q d = Ok (Qm, d1) /\ rr_lift qr_R d = Ok (Rm, d2) /\ rr_lift qr_H d = Ok (Hm, d3) /\
      qr_Q d' = Ok (Qm', d1') /\ qr_R d' = Ok (Rm', d2') /\ qr_H d' = Ok (Hm', d3') /\
      MatIs Qm m m Q /\ MatIs Qm' m m Q /\ MatIs Rm m n R /\ MatIs Rm' m n R /\ MatIs Hm m n H /\ MatIs Hm' m n H /\
      rrs_IsNonSingular d = qrs_IsNonSingular d'.
Proof. exact @rr_is_qr. Qed.
Print Assumptions C67_permuted.
(** On float64: if R is finite and its diagonal in range, some orthogonal matrix
    times R is A P up to rounding, and the computed Q is close to it. *)
Theorem C67_backward : forall c (x : @RealMatrix (SFOps c)) m n (A : Z -> Z -> sf) (thr : sf) d, transposable x -> MatIs x m n A -> 1 <= m -> 1 <= n -> qr_size m -> nums2 m n A ->
  rr_of x thr d ->
  exists p Pm Rm Qm (T Qf : Z -> Z -> sf) d1 d2 d3, rr_P d = Ok (Pm, d1) /\ rr_lift qr_R d = Ok (Rm, d2) /\ rr_lift qr_Q d = Ok (Qm, d3) /\
    MatIs Pm n n (fun i j => if i =? p j then sf_of_Z 1 else sf_zero) /\ permutes n p /\ MatIs Rm m n T /\ MatIs Qm m m Qf /\
    (nums2 m n T -> diag_range (Z.min m n) T -> exists Q, qr_backward m n (fun i j => A i (p j)) T Q /\
       (nums2 m m Qf -> q_close m (Z.min m n) Qf Q /\ q_orthonormal m (Z.min m n) Qf /\ qr_product m n (fun i j => A i (p j)) Qf T)).
Proof. exact rr_sf_backward. Qed.
Print Assumptions C67_backward.
(** The solver returns the exact least-squares solution of a system close to
    the one asked for, in the order of the columns of A: undoing the
    rearrangement costs no rounding. *)
Theorem C68_solve : forall c (x : @RealMatrix (SFOps c)) m n (A : Z -> Z -> sf) (thr : sf) d, transposable x -> MatIs x m n A -> 1 <= m -> 1 <= n -> qr_size m -> nums2 m n A ->
  rr_of x thr d -> rrs_IsNonSingular d = Ok true ->
  exists Rm (T : Z -> Z -> sf) d1, rr_lift qr_R d = Ok (Rm, d1) /\ MatIs Rm m n T /\
    (nums2 m n T -> diag_range (Z.min m n) T ->
      (forall (v : @RealVector (SFOps c)) (b : Z -> sf), VecIs v m b -> nums m b ->
         exists (r : @RealVector (SFOps c)) (y : Z -> sf) d', rrs_SolveVector d v = Ok (r, d') /\ VecIs r n y /\ (nums n y -> ls_backward m n A b y)) /\
      (forall (bm : @RealMatrix (SFOps c)) k (B : Z -> Z -> sf), 1 <= k -> MatIs bm m k B -> nums2 m k B ->
         exists (r : @RealMatrix (SFOps c)) (X : Z -> Z -> sf) d', rrs_SolveMatrix d bm = Ok (r, d') /\ MatIs r n k X /\
         forall q, 0 <= q < k -> nums n (fun i => X i q) -> ls_backward m n A (fun i => B i q) (fun i => X i q)) /\
      (m = n -> exists (r : @RealMatrix (SFOps c)) (X : Z -> Z -> sf) d', rrs_Inverse d = Ok (r, d') /\ MatIs r n n X /\
         forall q, 0 <= q < n -> nums n (fun i => X i q) -> ls_backward n n A (fun i => if i =? q then sf_of_Z 1 else sf_zero) (fun i => X i q))).
Proof. exact rr_sf_solve. Qed.
Print Assumptions C68_solve.

(** [[1 1] [1 2] [1 4]]: the two columns are exchanged and all hypotheses hold. *)
Example C67_ex : exists d p Pm Rm Qm (T Qf : Z -> Z -> sf) d1 d2 d3 Q, @NewRRQRDecomposition E64 (fmat exQ) = Ok d /\ rr_P d = Ok (Pm, d1) /\ rr_lift qr_R d = Ok (Rm, d2) /\ rr_lift qr_Q d = Ok (Qm, d3) /\
  MatIs Pm 2 2 (fun i j => if i =? p j then sf_of_Z 1 else sf_zero) /\ p 0 = 1 /\ p 1 = 0 /\ MatIs Rm 3 2 T /\ MatIs Qm 3 3 Qf /\ nums2 3 2 T /\ nums2 3 3 Qf /\ diag_range 2 T /\
  qr_backward 3 2 (fun i j => fent exQ i (p j)) T Q /\ q_close 3 2 Qf Q /\ q_orthonormal 3 2 Qf /\ qr_product 3 2 (fun i j => fent exQ i (p j)) Qf T /\
  rrs_IsNonSingular d = Ok true /\
  exists r (y : Z -> sf) d4, rrs_SolveVector d (VArr (fls [1; 2; 2])) = Ok (r, d4) /\ VecIs r 2 y /\ nums 2 y /\ ls_backward 3 2 (fent exQ) (nthZ (fls [1; 2; 2])) y.
Proof. exact rr_ex. Qed.

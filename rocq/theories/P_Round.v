(** Property C57: the float64 results of the sums, products and norms against
    the exact values.  [fR x] is the real number the float64 [x] stands for;
    [num x]: [x] is a finite 64-bit number; [gam n] = (1 + 2^-53)^n - 1;
    [tiny] = 2^-1075; [huge] the largest finite number.
    [dot_result n a b y]: if [y] is finite then
      |y - sum a_k b_k| <= gam n * sum |a_k| |b_k| + n (1 + 2^-53)^n tiny,
    and [y] is finite if (1 + 2^-53)^n (sum |a_k| |b_k| + n tiny) <= huge.
    [c] is the platform constant of C18; it plays no part. *)
From Coq Require Import ZArith List Lia Bool Reals Lra Floats.SpecFloat.
From Verif Require Import Base BaseLemmas Scalar Vector VecSpec Matrix Array2D BlockM Diagonal RealMatrixM MatSpec Float64 ExampleOps RSum RndSpec FloatR RndSum RndMat RndEx.
Import ListNotations.
Open Scope Z_scope.

(** Each operation gives a float64 nearest to the exact result, unless it
    overflows. *)
Theorem C57_operations : forall x y, sf_valid x = true -> sf_valid y = true ->
  (isfin (sf_add x y) = true -> nearest (fR x + fR y) (sf_add x y)) /\
  (isfin (sf_sub x y) = true -> nearest (fR x - fR y) (sf_sub x y)) /\
  (isfin (sf_mul x y) = true -> nearest (fR x * fR y) (sf_mul x y)) /\
  (fR y <> 0%R -> isfin (sf_div x y) = true -> nearest (fR x / fR y) (sf_div x y)) /\
  (isfin (sf_sqrt x) = true -> nearest (sqrt (fR x)) (sf_sqrt x)).
Proof. exact (fun x y Hx Hy => conj (add_nearest x y Hx Hy) (conj (sub_nearest x y Hx Hy) (conj (mul_nearest x y Hx Hy) (conj (div_nearest x y Hx Hy) (sqrt_nearest x Hx))))). Qed.
Print Assumptions C57_operations.
(** The matrix product, for every pair of representations. *)
Theorem C57_product : forall c (m n : @RealMatrix (SFOps c)) r k q (f g : Z -> Z -> sf), library m -> MatIs m r k f -> MatIs n k q g -> 1 <= r -> 1 <= q ->
  nums2 r k f -> nums2 k q g ->
  exists p h, m_Multiply m n = Ok p /\ MatIs p r q h /\ forall i j, 0 <= i < r -> 0 <= j < q -> dot_result k (f i) (fun t => g t j) (h i j).
Proof. exact fl_product. Qed.
Print Assumptions C57_product.
(** Matrix times vector and vector times matrix. *)
Theorem C57_operate : forall c (m : @RealMatrix (SFOps c)) r k (f : Z -> Z -> sf) (v : list (@F (SFOps c))) (g : Z -> sf), library m -> MatIs m r k f -> 1 <= k -> VecIs (VArr v) k g ->
  nums2 r k f -> nums k g ->
  exists w h, m_Operate m v = Ok w /\ VecIs (VArr w) r h /\ forall i, 0 <= i < r -> dot_result k (f i) g (h i).
Proof. exact fl_operate. Qed.
Print Assumptions C57_operate.
Theorem C57_premultiply : forall c (m : @RealMatrix (SFOps c)) r k (f : Z -> Z -> sf) (v : list (@F (SFOps c))) (g : Z -> sf), library m -> MatIs m r k f -> 1 <= r -> VecIs (VArr v) r g ->
  nums2 r k f -> nums r g ->
  exists w h, m_PreMultiply m v = Ok w /\ VecIs (VArr w) k h /\ forall j, 0 <= j < k -> dot_result r (fun i => f i j) g (h j).
Proof. exact fl_premultiply. Qed.
Print Assumptions C57_premultiply.
(** The dot product of two vectors. *)
Theorem C57_dot : forall c (v w : @RealVector (SFOps c)) n (f g : Z -> sf), VecIs v n f -> VecIs w n g -> nums n f -> nums n g ->
  exists y, VecDotProduct v w = Ok y /\ dot_result n f g y.
Proof. exact fl_dot. Qed.
Print Assumptions C57_dot.
(** The trace: a relative bound, no underflow term. *)
Theorem C57_trace : forall c (m : @RealMatrix (SFOps c)) n (f : Z -> Z -> sf), library m -> MatIs m n n f -> nums2 n n f ->
  exists y, m_Trace m = Ok y /\ sum_result n (fun i => f i i) y.
Proof. exact fl_trace. Qed.
Print Assumptions C57_trace.
(** Norms of vectors: sum of absolute values, largest (exact), Euclidean (by its
    square). *)
Theorem C57_norms : forall c (v : @RealVector (SFOps c)) n (f : Z -> sf), VecIs v n f -> nums n f ->
  (exists y, VecL1Norm v = Ok y /\ sf_valid y = true /\
    (isfin y = true -> (Rabs (fR y - Rs 0 n (fun k => Rabs (fR (f k)))) <= gam n * Rs 0 n (fun k => Rabs (fR (f k))))%R) /\
    ((grow n * Rs 0 n (fun k => Rabs (fR (f k))) <= huge)%R -> isfin y = true)) /\
  (exists y, VecLInfNorm v = Ok y /\ num y /\ (forall k, 0 <= k < n -> (Rabs (fR (f k)) <= fR y)%R) /\
    (fR y = 0%R \/ exists k, 0 <= k < n /\ fR y = Rabs (fR (f k)))) /\
  (exists y, VecNorm v = Ok y /\ sf_valid y = true /\ (isfin y = true -> (0 <= fR y /\
    Rabs (fR y * fR y - Rs 0 n (fun k => fR (f k) * fR (f k))) <= gam (n + 2) * Rs 0 n (fun k => fR (f k) * fR (f k)) + IZR n * grow (n + 2) * tiny)%R)).
Proof. exact (fun c v n f Hv Nf => conj (fl_l1 c v n f Hv Nf) (conj (fl_linf c v n f Hv Nf) (fl_norm c v n f Hv Nf))). Qed.
Print Assumptions C57_norms.
(** (2^53, 1) . (1, 1): the float64 result is 2^53, the exact value 2^53 + 1. *)
Example C57_ex : exists y, VecDotProduct (VArr (fls [2 ^ 53; 1])) (VArr (fls [1; 1])) = Ok y /\ fR y = 9007199254740992%R /\
  dot_result 2 (nthZ (fls [2 ^ 53; 1])) (nthZ (fls [1; 1])) y /\ dot_exact 2 (nthZ (fls [2 ^ 53; 1])) (nthZ (fls [1; 1])) = 9007199254740993%R.
Proof. exact dot_ex. Qed.

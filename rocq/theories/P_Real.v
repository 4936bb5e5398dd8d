(** Properties stated in exact arithmetic (the real numbers), for matrices and
    vectors: C06, C07, C14, C17, C21, C39, C40, C41.
    [mmul k f g i j] is the sum over t < k of f i t * g t j; [mvec k f g i] the
    sum over t of f i t * g t; [mpow] repeated multiplication; [idm] the
    identity; [meq r c] equality on the r by c range; [Rs lo hi g] the sum of
    g lo .. g (hi-1). *)
From Coq Require Import ZArith List Lia Bool Reals Lra.
From Verif Require Import Base BaseLemmas Scalar Vector VecSpec VectorFacts Matrix Array2D BlockM Diagonal RealMatrixM MatSpec HistSpec DiagSpec MatrixOps RealOps RSum RealMat RealMat2 RealVec RealMat3 Float64 ExampleOps ExampleReal.
Import ListNotations.
Open Scope Z_scope.
#[local] Existing Instance ROps.

(** C06 *)
Theorem C06_product : forall (m n : @RealMatrix ROps) r k c f g, library m -> MatIs m r k f -> MatIs n k c g -> 1 <= r -> 1 <= c ->
  exists p, m_Multiply m n = Ok p /\ library p /\ MatIs p r c (mmul k f g).
Proof. exact real_product. Qed.
Print Assumptions C06_product.
(** The dense product is the left-to-right sum in any arithmetic; [fsum n g]
    is ((0 + g 0) + g 1) + ... *)
Theorem C06_dense_order : forall (O : Ops) a (n : @RealMatrix O) r k c f g, MatIs (MArr a) r k f -> MatIs n k c g -> 1 <= c ->
  gives (m_Multiply (MArr a) n) r c (fun i j => fsum k (fun t => (f i t * g t j)%f)).
Proof. exact (fun O a n r k c f g => m_Multiply_ok (MArr a) n r k c f g I). Qed.
Print Assumptions C06_dense_order.
Theorem C06_mismatch : forall (O : Ops) (m n : @RealMatrix O) r k k' c f g, library m -> MatIs m r k f -> MatIs n k' c g -> k <> k' ->
  panics (m_Multiply m n).
Proof. exact (@m_Multiply_bad). Qed.
Print Assumptions C06_mismatch.
Example C06_ex : exists p, m_Multiply (rmat [[1; 2]; [3; 4]]%R) (rmat [[5; 6]; [7; 8]]%R) = Ok p /\ m_At p 0 1 = Ok 22%R /\ m_At p 1 0 = Ok 43%R.
Proof.
  destruct (C06_product _ _ _ _ _ _ _ (rmat_lib _) (rmat2_is 1 2 3 4) (rmat2_is 5 6 7 8)) as (p & E & _ & _ & _ & _ & H & _); try lia.
  exists p. split; [exact E|]. rewrite !H by lia. unfold mmul. rewrite !Rs_2. rents. split; f_equal; lra.
Qed.

(** C07 *)
Theorem C07_operate : forall (m : @RealMatrix ROps) r c f v g, library m -> MatIs m r c f -> 1 <= c -> VecIs (VArr v) c g ->
  wp (m_Operate m v) (fun w => VecIs (VArr w) r (mvec c f g)).
Proof. exact real_operate. Qed.
Print Assumptions C07_operate.
Theorem C07_premultiply : forall (m : @RealMatrix ROps) r c f v g, library m -> MatIs m r c f -> 1 <= r -> VecIs (VArr v) r g ->
  wp (m_PreMultiply m v) (fun w => VecIs (VArr w) c (mvec r (trm f) g)).
Proof. exact real_premultiply. Qed.
Print Assumptions C07_premultiply.
Theorem C07_mismatch : forall (O : Ops) (m : @RealMatrix O) r c f v, library m -> MatIs m r c f ->
  (len v <> c -> panics (m_Operate m v)) /\ (len v <> r -> panics (m_PreMultiply m v)).
Proof. exact (fun O m r c f v Hl H => conj (m_Operate_bad m r c f v Hl H) (m_PreMultiply_bad m r c f v Hl H)). Qed.
Print Assumptions C07_mismatch.
Example C07_ex : exists w, m_Operate (rmat [[1; 2]; [3; 4]]%R) [5; 6]%R = Ok w /\ v_At (VArr w) 1 = Ok 39%R.
Proof.
  destruct (C07_operate _ _ _ _ _ _ (rmat_lib _) (rmat2_is 1 2 3 4) ltac:(lia) (rvec_is [5; 6]%R 2 eq_refl)) as (w & E & _ & H & _).
  exists w. split; [exact E|]. rewrite H by lia. unfold mvec. rewrite Rs_2. rents. f_equal; lra.
Qed.

(** C14 *)
Theorem C14_power : forall (m : @RealMatrix ROps) n f p, library m -> MatIs m n n f -> 1 <= n -> 0 <= p ->
  exists q, Power m p = Ok q /\ library q /\ MatIs q n n (mpow n f (Z.to_nat p)).
Proof. exact power_ok. Qed.
Print Assumptions C14_power.
Theorem C14_refused : forall (O : Ops) (m : @RealMatrix O) r c f p, library m -> MatIs m r c f -> (p < 0 \/ r <> c) -> panics (Power m p).
Proof. exact (@power_bad). Qed.
Print Assumptions C14_refused.
Example C14_ex : exists q, Power (rmat [[1; 1]; [1; 0]]%R) 6 = Ok q /\ m_At q 0 0 = Ok 13%R /\ m_At q 0 1 = Ok 8%R.
Proof.
  destruct (C14_power _ _ _ 6 (rmat_lib _) (rmat2_is 1 1 1 0)) as (q & E & _ & _ & _ & _ & H & _); try lia.
  exists q. split; [exact E|]. rewrite !H by lia. change (Z.to_nat 6) with 6%nat. cbn [mpow]. unfold mmul. repeat (rewrite !Rs_2; cbn beta). unfold idm. cbn [Z.eqb Pos.eqb]. rents. split; f_equal; lra.
Qed.

(** C17: the inverse of a diagonal matrix. *)
Theorem C17_inverse_identity : forall d n (g : Z -> R) (t : R), @DiagIs ROps (MDiag d) n g -> (0 <= t)%R ->
  (forall i, 0 <= i < n -> (t < Rabs (g i))%R) ->
  exists p, @d_InverseWithThreshold ROps d t = Ok p /\ exists h, @DiagIs ROps (MDiag p) n h /\
    meq n n (mmul n (@diagonal ROps g) (@diagonal ROps h)) idm /\ meq n n (mmul n (@diagonal ROps h) (@diagonal ROps g)) idm.
Proof. exact diag_inv_real. Qed.
Print Assumptions C17_inverse_identity.
Example C17_inverse_ex : (0 <= 1/10)%R /\ forall i, 0 <= i < 2 -> (1/10 < Rabs (@nthZ (@F ROps) _ [2; -4]%R i))%R.
Proof.
  split; [lra|]. intros i Hi. assert (i = 0 \/ i = 1) as [-> | ->] by lia; rents; [rewrite Rabs_right|rewrite Rabs_left]; lra.
Qed.

(** C21: [is_norm N]: non-negative, zero exactly on the zero vector,
    absolutely homogeneous, triangle inequality. *)
Theorem C21_norms : is_norm (@VecNorm ROps) /\ is_norm (@VecL1Norm ROps) /\ is_norm (@VecLInfNorm ROps).
Proof. exact (conj is_norm_2 (conj is_norm_1 is_norm_inf)). Qed.
Print Assumptions C21_norms.
Theorem C21_values : forall (v : @RealVector ROps) n f, VecIs v n f ->
  (exists x, VecNorm v = Ok x /\ (0 <= x)%R /\ (x * x)%R = Rs 0 n (fun k => f k * f k)%R) /\
  VecL1Norm v = Ok (Rs 0 n (fun k => Rabs (f k))) /\
  (exists x, VecLInfNorm v = Ok x /\ (forall k, 0 <= k < n -> (Rabs (f k) <= x)%R) /\
     (n = 0 /\ x = 0%R \/ exists k, 0 <= k < n /\ x = Rabs (f k))).
Proof. exact norm_values. Qed.
Print Assumptions C21_values.
Theorem C21_distances : forall (u v w : @RealVector ROps) n (f g : Z -> R), VecIs u n f -> VecIs v n g -> VecIs w n (fun i => f i - g i)%R ->
  VecDistance u v = VecNorm w /\ VecL1Distance u v = VecL1Norm w /\ VecLInfDistance u v = VecLInfNorm w.
Proof. exact distances. Qed.
Print Assumptions C21_distances.
Theorem C21_cosine : forall (u v : @RealVector ROps) n (f g : Z -> R), VecIs u n f -> VecIs v n g ->
  ((forall i, 0 <= i < n -> f i = 0%R) \/ (forall i, 0 <= i < n -> g i = 0%R) -> panics (VecCosine u v)) /\
  ((exists i, 0 <= i < n /\ f i <> 0%R) -> (exists i, 0 <= i < n /\ g i <> 0%R) ->
   exists x a b, VecCosine u v = Ok x /\ VecNorm u = Ok a /\ VecNorm v = Ok b /\ (-1 <= x <= 1)%R /\ (x * (a * b))%R = dot n f g).
Proof. exact cosine. Qed.
Print Assumptions C21_cosine.
Theorem C21_unitize : forall (a : list R) n (f : Z -> R), @VecIs ROps (VArr a) n f ->
  ((forall i, 0 <= i < n -> f i = 0%R) -> panics (@arv_Unitize ROps a)) /\
  ((exists i, 0 <= i < n /\ f i <> 0%R) -> exists s w, (0 < s)%R /\ @arv_Unitize ROps a = Ok w /\
     @VecIs ROps (VArr w) n (fun i => f i / s)%R /\ @VecNorm ROps (VArr a) = Ok s /\ @VecNorm ROps (VArr w) = Ok 1%R).
Proof. exact unitize. Qed.
Print Assumptions C21_unitize.
Theorem C21_unit_vector : forall (v : @RealVector ROps) n (f : Z -> R), VecIs v n f ->
  ((forall i, 0 <= i < n -> f i = 0%R) -> panics (UnitVector (Some v))) /\
  ((exists i, 0 <= i < n /\ f i <> 0%R) -> exists s w, (0 < s)%R /\ UnitVector (Some v) = Ok w /\
     @VecIs ROps (VArr w) n (fun i => f i / s)%R /\ VecNorm v = Ok s /\ @VecNorm ROps (VArr w) = Ok 1%R).
Proof. exact unit_vector. Qed.
Print Assumptions C21_unit_vector.
Example C21_ex : exists w, @arv_Unitize ROps [3; -4]%R = Ok w /\ @VecNorm ROps (VArr w) = Ok 1%R.
Proof.
  destruct (proj2 (C21_unitize [3; -4]%R 2 _ (rvec_is [3; -4]%R 2 eq_refl))) as (s & w & _ & E & _ & _ & H); [|eauto].
  exists 1. split; [lia|]. rents. lra.
Qed.

(** C39 *)
Theorem C39_trace : forall (m : @RealMatrix ROps) n f, library m -> MatIs m n n f -> m_Trace m = Ok (Rs 0 n (fun i => f i i)).
Proof. exact trace. Qed.
Print Assumptions C39_trace.
Theorem C39_trace_refused : forall (O : Ops) (m : @RealMatrix O) r c f, library m -> MatIs m r c f -> r <> c -> panics (m_Trace m).
Proof. exact (@m_Trace_bad). Qed.
Print Assumptions C39_trace_refused.
Theorem C39_frobenius : forall (m : @RealMatrix ROps) r c f, library m -> MatIs m r c f -> 1 <= r -> 1 <= c ->
  MatFrobeniusNorm m = Ok (sqrt (Rs 0 r (fun i => Rs 0 c (fun j => f i j * f i j))))%R.
Proof. exact frobenius. Qed.
Print Assumptions C39_frobenius.
(** MatLInfNorm is the largest absolute column sum (the operator norm for the
    1-norm) ... *)
Theorem C39_linf_columns : forall (m : @RealMatrix ROps) r c f, library m -> MatIs m r c f -> 1 <= r -> 1 <= c ->
  exists x, MatLInfNorm m = Ok x /\ (forall j, 0 <= j < c -> (column_sum f r j <= x)%R) /\ exists j, 0 <= j < c /\ x = column_sum f r j.
Proof. exact linf. Qed.
Print Assumptions C39_linf_columns.
(** ... and not, as its name says, the largest absolute row sum. *)
Theorem C39_linf_refuted : exists (m : @RealMatrix ROps) r c f, library m /\ MatIs m r c f /\ 1 <= r /\ 1 <= c /\
  ~ exists x, MatLInfNorm m = Ok x /\ (forall i, 0 <= i < r -> (Rs 0 c (fun j => Rabs (f i j)) <= x)%R).
Proof. exact linf_rows_refuted. Qed.
Print Assumptions C39_linf_refuted.
Example C39_ex : exists x, m_Trace (rmat [[1; 2]; [3; 4]]%R) = Ok x /\ x = 5%R.
Proof. eexists. split; [exact (C39_trace _ _ _ (rmat_lib _) (rmat2_is 1 2 3 4))|]. rewrite Rs_2. rents. lra. Qed.

(** C40: [within l n]: every index of the list is in 0..n-1. *)
Theorem C40_submatrix : forall (O : Ops) (m : @RealMatrix O) r c f rs cs, MatIs m r c f ->
  (rs <> [] -> cs <> [] -> within rs r -> within cs c ->
     gives (SubMatrix m rs cs) (len rs) (len cs) (fun i j => f (nth (Z.to_nat i) rs 0) (nth (Z.to_nat j) cs 0))) /\
  (~ (rs <> [] /\ cs <> [] /\ within rs r /\ within cs c) -> panics (SubMatrix m rs cs)).
Proof. exact (fun O m r c f rs cs H => conj (sub_indices_ok m r c f rs cs H) (sub_indices_bad m r c f rs cs H)). Qed.
Print Assumptions C40_submatrix.
(** [roomy d h w]: d has h rows of length at least w; [pasted d d' h w g]: d' is
    d with exactly its top left h by w window replaced by g. *)
Theorem C40_copy : forall (O : Ops) (m : @RealMatrix O) r c f r0 r1 c0 c1 d, MatIs m r c f ->
  (0 <= r0 <= r1 -> r1 < r -> 0 <= c0 <= c1 -> c1 < c -> roomy d (r1 + 1 - r0) (c1 + 1 - c0) ->
   wp (CopySubMatrix m r0 r1 c0 c1 d) (fun d' => pasted d d' (r1 + 1 - r0) (c1 + 1 - c0) (fun i j => f (r0 + i) (c0 + j)))) /\
  (~ (0 <= r0 <= r1 /\ r1 < r /\ 0 <= c0 <= c1 /\ c1 < c /\ roomy d (r1 + 1 - r0) (c1 + 1 - c0)) -> panics (CopySubMatrix m r0 r1 c0 c1 d)).
Proof. exact (fun O m r c f r0 r1 c0 c1 d H => conj (copysub_ok m r c f r0 r1 c0 c1 d H) (copysub_bad m r c f r0 r1 c0 c1 d H)). Qed.
Print Assumptions C40_copy.
Theorem C40_copy_indices : forall (O : Ops) (m : @RealMatrix O) r c f rs cs d, MatIs m r c f ->
  (rs <> [] -> cs <> [] -> within rs r -> within cs c -> roomy d (len rs) (len cs) ->
   wp (CopySubMatrixFromIndices m (Some rs) (Some cs) d)
      (fun d' => pasted d d' (len rs) (len cs) (fun i j => f (nth (Z.to_nat i) rs 0) (nth (Z.to_nat j) cs 0)))) /\
  (~ (rs <> [] /\ cs <> [] /\ within rs r /\ within cs c /\ roomy d (len rs) (len cs)) -> panics (CopySubMatrixFromIndices m (Some rs) (Some cs) d)).
Proof. exact (fun O m r c f rs cs d H => conj (copyidx_ok m r c f rs cs d H) (copyidx_bad m r c f rs cs d H)). Qed.
Print Assumptions C40_copy_indices.
Definition ex40 : @RealMatrix E64 := MArr (mkA2D (Some (flss [[1; 2; 3]; [4; 5; 6]]))).
Example C40_ex : (let* s := SubMatrix ex40 [1; 0; 1] [2; 2] in m_Data s) = Ok (flss [[6; 6]; [3; 3]; [6; 6]]) /\
  CopySubMatrix ex40 0 1 1 2 (flss [[0; 0; 9]; [0; 0]; [7]]) = Ok (flss [[2; 3; 9]; [5; 6]; [7]]).
Proof. split; vm_compute; reflexivity. Qed.

(** C41 *)
Theorem C41_outer : forall (O : Ops) (u v : @RealVector O) m n f g, VecIs u m f -> VecIs v n g ->
  (1 <= m -> 1 <= n -> gives (OuterProduct u v) m n (fun i j => (f i * g j)%f)) /\ (m = 0 \/ n = 0 -> panics (OuterProduct u v)).
Proof. exact (fun O u v m n f g Hu Hv => conj (outer_ok u v m n f g Hu Hv) (outer_bad u v m n f g Hu Hv)). Qed.
Print Assumptions C41_outer.
(** The projection is the right vector, but it is also the new content of the
    second argument. *)
Theorem C41_projection_partial : forall (u : @RealVector ROps) b n (f g : Z -> R), VecIs u n f -> @VecIs ROps (VArr b) n g ->
  ((forall i, 0 <= i < n -> g i = 0%R) -> panics (Projection u (VArr b))) /\
  ((exists i, 0 <= i < n /\ g i <> 0%R) -> exists w dest (t : R), Projection u (VArr b) = Ok (w, dest) /\
     VecIs w n (fun i => g i * t)%R /\ dot n (fun i => f i - g i * t)%R g = 0%R /\ dest = w).
Proof. exact projection. Qed.
Print Assumptions C41_projection_partial.
Theorem C41_projection_refuted : exists (O : Ops) (u v w dest : @RealVector O),
  Projection u v = Ok (w, dest) /\ dest <> v.
Proof. exact projection_mutates. Qed.
Print Assumptions C41_projection_refuted.
Example C41_ex : (let* m := OuterProduct (O := E64) (VArr (fls [1; 2])) (VArr (fls [3; 4; 5])) in m_Data m) = Ok (flss [[3; 4; 5]; [6; 8; 10]]).
Proof. vm_compute. reflexivity. Qed.

(** The singular value decomposition: C45, C49, C50, C51, C52, C53.
    [svd_of x d]: [d] is what NewSingularValueDecomposition(x) returned, after
    any sequence of method calls.  [svd_tables r c d U S V]: what the accessors
    return.  Matrices are r x c and p = min(r, c). *)
From Coq Require Import ZArith List Lia Bool Reals Lra Floats.SpecFloat.
From Verif Require Import Base BaseLemmas Scalar Vector VecSpec VectorFacts Matrix Array2D BlockM Diagonal RealMatrixM MatSpec FSum RealOps RSum SVD SVDSpec SVDSpecR SVDTerm SVDProps SVDPropsR SVDEx SVDConv3 SVDDrop Float64 ExampleOps ExampleReal ExampleDec.
Import ListNotations.
Open Scope Z_scope.
#[local] Existing Instance ROps.

(** C45, exact arithmetic: the columns of U and of V are orthonormal, the square
    one of the two is orthogonal, and the singular values are non-negative and
    sorted. *)
Theorem C45_exact : forall (x : @RealMatrix ROps) r c A d, library x -> MatIs x r c A -> 1 <= r -> 1 <= c -> svd_of x d ->
  exists U S V, svd_tables r c d U S V /\ orthonormal_columns r (Z.min r c) U /\ orthonormal_columns c (Z.min r c) V /\
    (r <= c -> orthogonal r U) /\ (c <= r -> orthogonal c V) /\
    (forall i, 0 <= i < Z.min r c -> (0 <= S i)%R) /\ (forall i j, 0 <= i <= j -> j < Z.min r c -> (S j <= S i)%R).
Proof. exact sv_C45. Qed.
Print Assumptions C45_exact.
(** C45, float64: the values are non-negative and sorted unless one is NaN. *)
Theorem C45_float : forall cf (x : @RealMatrix (SFOps cf)) r c A d, library x -> MatIs x r c A -> 1 <= r -> 1 <= c -> svd_of x d ->
  (forall s, In s (sv_SingularValues d) -> sf_isnan s = false) ->
  exists S, VecIs (VArr (sv_SingularValues d)) (Z.min r c) S /\ (forall i, 0 <= i < Z.min r c -> SFleb (S754_zero false) (S i) = true) /\
    (forall i j, 0 <= i <= j -> j < Z.min r c -> SFleb (S j) (S i) = true).
Proof. exact sv_float_order. Qed.
Print Assumptions C45_float.
(** NaN does reach the values. *)
Example C45_nan : sv_obs [[NaN64]] = Ok ([[fl 1]], [NaN64], [[fl 1]]).
Proof. vm_compute. reflexivity. Qed.
(** The documentation of U() says that its transpose is its inverse.  For a
    matrix with more rows than columns it is not: U UT is not the identity for
    the column (3, 4): its first entry is below 1/2. *)
Theorem C45_doc_refuted : (let* p := sv_UUT (flss [[3]; [4]]) in Ok (SFltb (nth 0 (nth 0 p []) (fl 1)) (S754_finite false 4503599627370496 (-53)))) = Ok true.
Proof. vm_compute. reflexivity. Qed.
Print Assumptions C45_doc_refuted.
Example C45_ex : sv_obs (flss [[3; 0]; [0; 4]]) = Ok ([[fl 0; fl (-1)]; [fl 1; nzero64]], [fl 4; fl 3], [[fl 0; fl (-1)]; [fl 1; nzero64]]) /\
  sv_obs (flss [[0; 2]; [0; 0]; [3; 0]]) = Ok ([[fl 0; fl (-1)]; [nzero64; fl 0]; [fl (-1); fl 0]], [fl 3; fl 2], [[fl (-1); nzero64]; [nzero64; fl (-1)]]).
Proof. vm_compute. auto. Qed.
Example C45_real_ex : library sv_x /\ MatIs sv_x 2 2 sv_A /\ exists d, svd_of sv_x d.
Proof. split; [apply rmat_lib|]. split; [apply sv_x_is|apply sv_x_ex]. Qed.

(** C49, exact arithmetic: A = U S VT up to [svd_bound p a] = (p - 1) (2^-966 +
    2^-51 a) in the Frobenius norm, a the norm of A.
    Missing: the statement asks for A = U S VT, which is false: see
    C49_exact_refuted. *)
Theorem C49_factorisation_partial : forall (x : @RealMatrix ROps) r c A d, library x -> MatIs x r c A -> 1 <= r -> 1 <= c -> svd_of x d ->
  exists U S V, svd_tables r c d U S V /\ orthonormal_columns r (Z.min r c) U /\ orthonormal_columns c (Z.min r c) V /\
    (frob r c (fun i j => A i j - recompose (Z.min r c) U S V i j) <= svd_bound (Z.min r c) (frob r c A))%R.
Proof. exact sv_factor. Qed.
Print Assumptions C49_factorisation_partial.
(** In any arithmetic, NaN included, with [fuel] turns of the main loop: a result,
    the same with more turns, or the turns run out; never another panic. *)
Theorem C49_total : forall (O : Ops) (x : @RealMatrix O) r c A fuel, library x -> MatIs x r c A -> 1 <= r -> 1 <= c ->
  (exists d, NewSingularValueDecomposition fuel x = Ok d /\ forall more, (fuel <= more)%nat -> NewSingularValueDecomposition more x = Ok d) \/
  NewSingularValueDecomposition fuel x = Panic EFuel.
Proof. exact (@sv_total). Qed.
Print Assumptions C49_total.
(** Exact arithmetic: every call returns, and the number of turns of the main
    loop is bounded: 2 p (24 (966 + a) + 1) when 2^a is no less than the norm of
    the matrix, four when p is at most two. *)
Theorem C49_returns : forall (x : @RealMatrix ROps) r c A, library x -> MatIs x r c A -> 1 <= r -> 1 <= c ->
  exists turns d, forall fuel, (turns <= fuel)%nat -> NewSingularValueDecomposition fuel x = Ok d.
Proof. exact sv_returns. Qed.
Print Assumptions C49_returns.
Theorem C49_turns : forall fuel (x : @RealMatrix ROps) r c A a, library x -> MatIs x r c A -> 1 <= r -> 1 <= c -> (frob r c A <= 2 ^ a)%R ->
  2 * Z.min r c * (24 * (966 + Z.of_nat a) + 1) <= Z.of_nat fuel -> exists d, NewSingularValueDecomposition fuel x = Ok d.
Proof. exact sv_term_bound. Qed.
Print Assumptions C49_turns.
Theorem C49_four_turns : forall fuel (x : @RealMatrix ROps) r c A, library x -> MatIs x r c A -> 1 <= r -> 1 <= c -> Z.min r c <= 2 -> (4 <= fuel)%nat ->
  exists d, NewSingularValueDecomposition fuel x = Ok d.
Proof. exact sv_term2. Qed.
Print Assumptions C49_four_turns.
(** U S VT = A is false even in exact arithmetic: of the matrix (1, 2^-52; 0, 1)
    the iteration drops the entry 2^-52. *)
Theorem C49_exact_refuted : ~ (forall (x : @RealMatrix ROps) r c A d U S V, library x -> MatIs x r c A -> 1 <= r -> 1 <= c -> svd_of x d -> svd_tables r c d U S V ->
  forall i j, 0 <= i < r -> 0 <= j < c -> A i j = recompose (Z.min r c) U S V i j).
Proof. exact sv_inexact. Qed.
Print Assumptions C49_exact_refuted.
(** In any arithmetic the accessors succeed and give the same entries in
    whatever order they are called: UT and VT are exactly the transposes and S
    exactly the diagonal matrix of the singular values. *)
Theorem C49_accessors : forall (O : Ops) (x : @RealMatrix O) r c A d d', library x -> MatIs x r c A -> 1 <= r -> 1 <= c -> svd_of x d -> svd_of x d' ->
  exists U S V, svd_tables r c d U S V /\ svd_tables r c d' U S V.
Proof. exact (@sv_stable). Qed.
Print Assumptions C49_accessors.
Example C49_ex : Z.min 2 3 <= 2 /\ sv_prod (flss [[3; 0]; [0; 4]]) = Ok (flss [[3; 0]; [0; 4]]) /\
  (exists d, svd_of sv_x d) /\ (svd_bound 2 (frob 2 2 sv_A) <= / 2)%R.
Proof. split; [lia|]. split; [vm_compute; reflexivity|]. split; [apply sv_x_ex|apply sv_x_bound]. Qed.
(** The matrix (1, 2, 0; 0, 1, 2; 2, 0, 1). *)
Example C49_turns_ex : library sv_y /\ MatIs sv_y 3 3 sv_B /\ (frob 3 3 sv_B <= 2 ^ 2)%R /\ 2 * Z.min 3 3 * (24 * (966 + Z.of_nat 2) + 1) = 139398 /\ exists d, svd_of sv_y d.
Proof. split; [apply rmat_lib|]. split; [apply sv_y_is|]. split; [apply sv_y_frob|]. split; [reflexivity|]. apply (sv_makes sv_y 3 3 sv_B); [apply rmat_lib|apply sv_y_is|lia|lia]. Qed.
(** The matrix of C49_exact_refuted. *)
Example C49_exact_ex : MatIs nd_x 2 2 nA /\ (exists d, svd_of nd_x d) /\ nd = (/ 2 ^ 52)%R.
Proof. split; [apply nd_x_is|]. split; [apply (sv_makes nd_x 2 2 nA); [apply rmat_lib|apply nd_x_is|lia|lia]|reflexivity]. Qed.

(** C50, exact arithmetic: Norm() is the largest |A v| over unit vectors v, up to
    the bound of C49. *)
Theorem C50_norm : forall (x : @RealMatrix ROps) r c A d, library x -> MatIs x r c A -> 1 <= r -> 1 <= c -> svd_of x d ->
  exists s1, sv_Norm d = Ok s1 /\ (forall v, (enorm r (mvec c A v) <= (s1 + svd_bound (Z.min r c) (frob r c A)) * enorm c v)%R) /\
    (exists v, enorm c v = 1%R /\ (s1 - svd_bound (Z.min r c) (frob r c A) <= enorm r (mvec c A v))%R).
Proof. exact sv_norm. Qed.
Print Assumptions C50_norm.
(** With no more columns than rows, the condition number is the quotient of Norm()
    and the smallest |A v|, to the same bound, and InverseConditionNumber() its
    inverse. *)
Theorem C50_condition : forall (x : @RealMatrix ROps) r c A d, library x -> MatIs x r c A -> 1 <= c -> c <= r -> svd_of x d ->
  exists s1 sn, sv_Norm d = Ok s1 /\ sv_ConditionNumber d = Ok (s1 / sn)%R /\ sv_InverseConditionNumber d = Ok (sn / s1)%R /\
    (forall v, ((sn - svd_bound c (frob r c A)) * enorm c v <= enorm r (mvec c A v))%R) /\
    (exists v, enorm c v = 1%R /\ (enorm r (mvec c A v) <= sn + svd_bound c (frob r c A))%R).
Proof. exact sv_low. Qed.
Print Assumptions C50_condition.
(** Each singular value is the stretch |A v| of a unit vector, to the same bound. *)
Theorem C50_each : forall (x : @RealMatrix ROps) r c A d, library x -> MatIs x r c A -> 1 <= r -> 1 <= c -> svd_of x d ->
  forall s, In s (sv_SingularValues d) -> exists v, enorm c v = 1%R /\ (Rabs (enorm r (mvec c A v) - s) <= svd_bound (Z.min r c) (frob r c A))%R.
Proof. exact sv_each. Qed.
Print Assumptions C50_each.
Example C50_ex : sv_nums (flss [[2; 0]; [0; 4]]) = Ok (fl 4, fl 2, S754_finite false 4503599627370496 (-53)) /\
  forall d, svd_of sv_x d -> forall s, In s (sv_SingularValues d) -> (3 / 2 <= s <= 5 / 2)%R.
Proof. split; [vm_compute; reflexivity|exact sv_x_values]. Qed.

(** C51, exact arithmetic: the solver is built; Inverse() is the Moore-Penrose
    inverse X of a matrix B near A, and SolveVector and SolveMatrix multiply by X.
    So X b has the least |B w - b|, and the least norm among such w.  B is A to
    the bound of C49 when the rank is full, otherwise singular values up to the
    threshold of C52 are dropped. *)
Theorem C51_solver : forall (x : @RealMatrix ROps) r c A d pm d', library x -> MatIs x r c A -> 1 <= r -> 1 <= c -> svd_of x d -> sv_Solver d = Ok (pm, d') ->
  exists X B s1, MatIs (svs_Inverse pm) c r X /\ pseudo_inverse r c B X /\ sv_Norm d = Ok s1 /\
    (forall b g, VecIs (VArr b) r g -> exists w, svs_SolveVector pm (VArr b) = Ok (VArr w) /\ VecIs (VArr w) c (mvec r X g)) /\
    (forall m k g, MatIs m r k g -> 1 <= k -> exists y, svs_SolveMatrix pm m = Ok y /\ MatIs y c k (mmul r X g)) /\
    (forall g y, let w := mvec r X g in
      (enorm r (fun i => mvec c B w i - g i) <= enorm r (fun i => mvec c B y i - g i))%R /\
      (enorm r (fun i => mvec c B w i - g i) = enorm r (fun i => mvec c B y i - g i) -> enorm c w <= enorm c y)%R) /\
    (frob r c (fun i j => A i j - B i j) <= svd_bound (Z.min r c) (frob r c A) + IZR (Z.min r c) * svd_threshold (Z.max r c) s1)%R /\
    (sv_Rank d = Ok (Z.min r c) -> (frob r c (fun i j => A i j - B i j) <= svd_bound (Z.min r c) (frob r c A))%R).
Proof. exact sv_solve. Qed.
Print Assumptions C51_solver.
(** Solver() always succeeds, and the residual |A w - b| of the solution w exceeds
    that of any y by no more than the distance from A to B times |w| + |y|. *)
Theorem C51_least_squares : forall (x : @RealMatrix ROps) r c A d, library x -> MatIs x r c A -> 1 <= r -> 1 <= c -> svd_of x d ->
  exists pm d' s1, sv_Solver d = Ok (pm, d') /\ sv_Norm d = Ok s1 /\ forall b g, VecIs (VArr b) r g -> exists l w, svs_SolveVector pm (VArr b) = Ok (VArr l) /\ VecIs (VArr l) c w /\
    forall e, (e = svd_bound (Z.min r c) (frob r c A) + IZR (Z.min r c) * svd_threshold (Z.max r c) s1 \/ (sv_Rank d = Ok (Z.min r c) /\ e = svd_bound (Z.min r c) (frob r c A)))%R ->
    forall y, (enorm r (fun i => mvec c A w i - g i) <= enorm r (fun i => mvec c A y i - g i) + e * (enorm c w + enorm c y))%R.
Proof. exact sv_lsq_api. Qed.
Print Assumptions C51_least_squares.
Example C51_ex : sv_rank (flss [[2; 0]; [0; 4]; [0; 0]]) = Ok (2, false, [[S754_finite false 4503599627370496 (-53); fl 0; fl 0]; [fl 0; S754_finite false 4503599627370496 (-54); fl 0]]) /\
  (forall d, svd_of sv_x d -> sv_Rank d = Ok (Z.min 2 2)) /\ exists d pm d', svd_of sv_x d /\ sv_Solver d = Ok (pm, d').
Proof.
  split; [vm_compute; reflexivity|]. split; [intros d H; apply (sv_x_rank d H)|]. destruct sv_x_ex as [d H].
  destruct (sv_lsq_api sv_x 2 2 sv_A d (rmat_lib _) sv_x_is ltac:(lia) ltac:(lia) H) as (pm & d' & _ & E & _). eauto.
Qed.

(** C52, any arithmetic: Rank() is the number of singular values above
    [svd_threshold m s1] = max(m s1 2^-52, sqrt(2^-53)), m = max(r, c) and s1 =
    Norm(); IsNonSingular() holds exactly for a square matrix whose singular
    values all are. *)
Theorem C52_rank : forall (O : Ops) (x : @RealMatrix O) r c A d, library x -> MatIs x r c A -> 1 <= r -> 1 <= c -> svd_of x d ->
  exists s1, sv_Norm d = Ok s1 /\ sv_Rank d = Ok (Z.of_nat (length (filter (fun s => fgt s (svd_threshold (Z.max r c) s1)) (sv_SingularValues d)))).
Proof. exact (@SVDProps.sv_rank). Qed.
Print Assumptions C52_rank.
Theorem C52_nonsingular : forall (O : Ops) (x : @RealMatrix O) r c A d, library x -> MatIs x r c A -> 1 <= r -> 1 <= c -> svd_of x d ->
  exists s1 b, sv_Norm d = Ok s1 /\ svs_IsNonSingular d = Ok b /\
    (b = true <-> r = c /\ forall s, In s (sv_SingularValues d) -> fgt s (svd_threshold (Z.max r c) s1) = true).
Proof. exact (@sv_nonsing). Qed.
Print Assumptions C52_nonsingular.
(** The documentation gives the threshold as max(r, c) ulp(s1), so that the rank
    does not depend on the scale.  It does: that of the identity is 2, that of
    2^-30 times it is 0, and its pseudo-inverse is zero. *)
Theorem C52_scale_refuted : ~ (forall rows k r b p, sv_rank rows = Ok (r, b, p) -> exists b' p', sv_rank (over2 k rows) = Ok (r, b', p')).
Proof.
  intros H. assert (E : sv_rank (flss [[1; 0]; [0; 1]]) = Ok (2, true, flss [[1; 0]; [0; 1]])) by (vm_compute; reflexivity).
  destruct (H _ 30 _ _ _ E) as (b & p & E2). revert E2. vm_compute. discriminate.
Qed.
Print Assumptions C52_scale_refuted.
Example C52_ex : sv_rank (flss [[1; 0]; [0; 1]]) = Ok (2, true, flss [[1; 0]; [0; 1]]) /\
  sv_rank (over2 30 (flss [[1; 0]; [0; 1]])) = Ok (0, false, flss [[0; 0]; [0; 0]]) /\
  sv_rank (flss [[4; 0]; [0; 0]]) = Ok (1, false, [[S754_finite false 4503599627370496 (-54); fl 0]; [fl 0; fl 0]]) /\
  forall d, svd_of sv_x d -> sv_Rank d = Ok 2 /\ svs_IsNonSingular d = Ok true.
Proof. split; [vm_compute; reflexivity|]. split; [vm_compute; reflexivity|]. split; [vm_compute; reflexivity|exact sv_x_rank]. Qed.

(** C53, any arithmetic: with k the number of leading singular values that reach
    the bound given, Covariance panics if k = 0, otherwise it is the p x p
    matrix of the sums of V(i,t)/S(t) V(j,t)/S(t) over t < k.
    Missing: the statement asks for the c x c matrix V J VT.  With fewer rows
    than columns the result is r x r: see C53_wide_refuted. *)
Theorem C53_covariance_partial : forall (O : Ops) (x : @RealMatrix O) r c A d min, library x -> MatIs x r c A -> 1 <= r -> 1 <= c -> svd_of x d ->
  exists U S V k, svd_tables r c d U S V /\ 0 <= k <= Z.min r c /\ (forall i, 0 <= i < k -> fge (S i) min = true) /\ (k < Z.min r c -> fge (S k) min = false) /\
    (k = 0 -> sv_Covariance d min = Panic ETooLarge) /\
    (1 <= k -> exists m d', sv_Covariance d min = Ok (m, d') /\ MatIs m (Z.min r c) (Z.min r c) (fun i j => fsum k (fun t => fmul (fdiv (V i t) (S t)) (fdiv (V j t) (S t))))).
Proof. exact (@sv_cov_total). Qed.
Print Assumptions C53_covariance_partial.
(** Exact arithmetic, no more columns than rows and all singular values reaching
    the bound: the covariance matrix is the inverse of BT B for a B that is A to
    the bound of C49. *)
Theorem C53_inverse : forall (x : @RealMatrix ROps) r c A d min, library x -> MatIs x r c A -> 1 <= c -> c <= r -> svd_of x d -> (0 < min)%R ->
  (forall s, In s (sv_SingularValues d) -> (min <= s)%R) ->
  exists m d' C B, sv_Covariance d min = Ok (m, d') /\ MatIs m c c C /\ meq c c (mmul c C (mmul r (trm B) B)) idm /\ meq c c (mmul c (mmul r (trm B) B) C) idm /\
    (frob r c (fun i j => A i j - B i j) <= svd_bound c (frob r c A))%R.
Proof. exact sv_cov_inv. Qed.
Print Assumptions C53_inverse.
(** The documentation promises an n x n matrix for n columns; [[3, 4]] has two
    columns and gives a 1 x 1 matrix. *)
Theorem C53_wide_refuted : ~ (forall rows n min p, sv_cov rows min = Ok p -> (forall row, In row rows -> length row = n) -> length p = n).
Proof.
  intros H. assert (E : sv_cov (flss [[3; 4]]) (fl 1) = Ok [[S754_finite false 8301034833169301 (-59)]]) by (vm_compute; reflexivity).
  specialize (H _ 2%nat _ _ E). discriminate H. intros row [<-|[]]. reflexivity.
Qed.
Print Assumptions C53_wide_refuted.
Example C53_ex : sv_cov (flss [[2; 0]; [0; 4]]) (fl 1) = Ok [[S754_finite false 4503599627370496 (-54); fl 0]; [fl 0; S754_finite false 4503599627370496 (-56)]] /\
  sv_cov (flss [[2; 0]; [0; 4]]) (fl 3) = Ok [[fl 0; fl 0]; [fl 0; S754_finite false 4503599627370496 (-56)]] /\
  sv_cov (flss [[2; 0]; [0; 4]]) (fl 5) = Panic ETooLarge /\
  forall d, svd_of sv_x d -> forall s, In s (sv_SingularValues d) -> (1 <= s)%R.
Proof. split; [vm_compute; reflexivity|]. split; [vm_compute; reflexivity|]. split; [vm_compute; reflexivity|]. intros d H s Hs. destruct (sv_x_values d H s Hs). lra. Qed.

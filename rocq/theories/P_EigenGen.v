(** The eigen decomposition of matrices that are not symmetric: C55 (and C48).
    [ed_of x d]: [d] is what NewEigenDecomposition(x) returned, after any
    sequence of calls to V, D, VT and SquareRoot; [sc_of x sc] the same for
    NewSchurTransformer and P, PT, T.  [passes_symmetry n A] is the test by which
    the constructor chooses the branch for symmetric matrices; over the reals
    [nearly_symmetric] is weaker. *)
From Coq Require Import ZArith QArith List Lia Bool Reals Lra Floats.SpecFloat.
From Verif Require Import Base BaseLemmas Scalar Vector VecSpec VectorFacts Matrix Array2D BlockM Diagonal RealMatrixM MatSpec MatFacts TabTac Schur SchurSpec SchurSpecR Eigen EigenSpec EigenGenSpec RealOps RSum Frob House EigenProps EigenProps2 SchurProps EigenGenP EigenGenRP EigenGenEx EigenCplx Float64 ExampleOps ExampleDec ExampleReal.
Import ListNotations.
Open Scope Z_scope.

(** C55: the constructor ends; it gives a decomposition, an arithmetic error, or,
    from 3 x 3 on, the panic of the Schur transform.  Square roots of float64 are
    not negative: [C55_float_ex]. *)
Theorem C55_terminates : forall (O : Ops), (forall x : F, flt (fsqrt x) fzero = false) -> flt fzero fzero = false -> forall x n A,
  library x -> MatIs x n n A -> 1 <= n -> ~ passes_symmetry n A ->
  (exists d, NewEigenDecomposition x = Ok d) \/ NewEigenDecomposition x = Err EArithmetic \/ (3 <= n /\ NewEigenDecomposition x = Panic EMaxIter).
Proof. intros O H1 H2 x n A. exact (gen_new x n A H1 H2). Qed.
Print Assumptions C55_terminates.
(** Over the reals the error is returned exactly when the sum of the entries of
    |T| on and above the subdiagonal is at most 1e-12. *)
Theorem C55_error : forall (x : @RealMatrix ROps) n A sc Tm T sc1, library x -> MatIs x n n A -> 1 <= n -> ~ nearly_symmetric n A ->
  sc_of x sc -> sc_getT sc = Ok (Tm, sc1) -> MatIs Tm n n T ->
  if Rleb (Rs 0 n (fun i => Rs (Z.max (i - 1) 0) n (fun j => Rabs (T i j)))) (/ 1000000000000) then NewEigenDecomposition x = Err EArithmetic
  else exists d, NewEigenDecomposition x = Ok d.
Proof. exact gen_exists. Qed.
Print Assumptions C55_error.
(** The accessors: the eigenvalues are read off the blocks of the T of the Schur
    transform of the same matrix, and all the accessors agree on one V. *)
Theorem C55_accessors : forall (O : Ops), (forall x : F, flt (fsqrt x) fzero = false) -> flt fzero fzero = false -> forall x n A d sc,
  library x -> MatIs x n n A -> 1 <= n -> ~ passes_symmetry n A -> ed_of x d -> sc_of x sc ->
  exists Tm T sc1 pr Re Im Vm Wm V d1 d2, sc_getT sc = Ok (Tm, sc1) /\ MatIs Tm n n T /\ split_of n T pr Re Im /\
    VecIs (VArr (ed_RealEigenvalues d)) n Re /\ VecIs (VArr (ed_ImagEigenvalues d)) n Im /\
    ed_V d = Ok (Vm, d1) /\ ed_VT d = Ok (Wm, d2) /\ MatIs Vm n n V /\ MatIs Wm n n (fun i j => V j i) /\
    (forall k, 0 <= k < n -> ed_RealEigenvalueAt d k = Ok (Re k) /\ ed_ImagEigenvalue d k = Ok (Im k) /\ exists v, ed_EigenvectorAt d k = Ok v /\ VecIs v n (fun i => V i k)).
Proof. intros O H1 H2 x n A d sc. exact (gen_access x n A d sc H1 H2). Qed.
Print Assumptions C55_accessors.
(** HasComplexEigenvalues looks for an imaginary part that is not zero up to 1e-12
    (or neighbouring floats); Solver refuses exactly then.  Any decomposition. *)
Theorem C55_complex : forall (O : Ops) (d : EdD), exists b, ed_HasComplexEigenvalues d = Ok b /\
  (b = true <-> exists x, In x (ed_ImagEigenvalues d) /\ equalsWithError x fzero eps_ed = false) /\
  ed_Solver d = if b then Panic EUnsupported else Ok d.
Proof. exact @has_complex. Qed.
Print Assumptions C55_complex.
Theorem C55_complex_real : forall (d : @EdD ROps), exists b, ed_HasComplexEigenvalues d = Ok b /\
  (b = true <-> exists x, In x (ed_ImagEigenvalues d) /\ (/ 1000000000000 < Rabs x)%R) /\ ed_Solver d = if b then Panic EUnsupported else Ok d.
Proof. exact has_complex_R. Qed.
Print Assumptions C55_complex_real.
Definition cplx_of (rows : list (list Z)) : option bool := match @NewEigenDecomposition E64 (MArr (mkA2D (Some (flss rows)))) with Ok d => match ed_HasComplexEigenvalues d with Ok b => Some b | _ => None end | _ => None end.
Example C55_complex_ex : cplx_of [[1; -2]; [1; 3]] = Some true /\ cplx_of [[1; 2]; [0; 3]] = Some false.
Proof. split; vm_compute; reflexivity. Qed.
(** Over the reals: T has 1 x 1 blocks, each its own eigenvalue, and 2 x 2 blocks,
    whose two eigenvalues are conjugate roots of lambda^2 - trace lambda + det. *)
Theorem C55_roots : forall (x : @RealMatrix ROps) n A d sc, library x -> MatIs x n n A -> 1 <= n -> ~ nearly_symmetric n A -> ed_of x d -> sc_of x sc ->
  exists Tm T sc1 pr Re Im, sc_getT sc = Ok (Tm, sc1) /\ MatIs Tm n n T /\ VecIs (VArr (ed_RealEigenvalues d)) n Re /\ VecIs (VArr (ed_ImagEigenvalues d)) n Im /\
    (forall i, pr i = true -> 0 <= i /\ i + 1 < n /\ pr (i + 1) = false) /\
    (forall i, 0 <= i < n -> pr i = false -> pr (i - 1) = false -> Re i = T i i /\ Im i = 0%R /\ (i + 1 < n -> (Rabs (T (i + 1)%Z i) <= / 1000000000000)%R)) /\
    (schur_form n (/ 1000000000000) T -> forall i, pr i = true -> Re (i + 1) = Re i /\ Im (i + 1) = (- Im i)%R /\ (0 < Im i)%R /\
       (Re i * Re i - Im i * Im i - (T i i + T (i + 1)%Z (i + 1)%Z) * Re i + (T i i * T (i + 1)%Z (i + 1)%Z - T i (i + 1)%Z * T (i + 1)%Z i) = 0 /\
        2 * Re i * Im i = (T i i + T (i + 1)%Z (i + 1)%Z) * Im i)%R).
Proof. exact gen_roots. Qed.
Print Assumptions C55_roots.
(** A V = V D column by column up to a relative error, with V invertible.  Real
    eigenvalues may be repeated: the code then divides by 2^-53 times the sum of
    the entries of |T| instead of zero, and the error grows by that much.
    Missing: equal conjugate pairs; imaginary parts other than zero up to 1e-12,
    which [C55_small_imaginary_refuted] shows to matter; a T whose subdiagonal has
    entries above 1e-12 outside the 2 x 2 blocks, which [C55_scale_refuted] shows
    to matter. *)
Theorem C55_vectors_partial : forall (x : @RealMatrix ROps) n A d sc Tm T sc1 Re Im,
  library x -> MatIs x n n A -> 1 <= n -> 1010 * (n * (n + 8)) <= 9007199254740992 ->
  ~ nearly_symmetric n A -> ed_of x d -> sc_of x sc -> sc_getT sc = Ok (Tm, sc1) -> MatIs Tm n n T -> schur_form n (/ 1000000000000) T ->
  VecIs (VArr (ed_RealEigenvalues d)) n Re -> VecIs (VArr (ed_ImagEigenvalues d)) n Im ->
  (forall i j, 0 <= i < n -> 0 <= j < n -> i <> j -> (0 < Im i)%R -> Re i <> Re j \/ Im i <> Im j) ->
  (forall i, 0 <= i < n -> Im i = 0%R \/ (/ 1000000000000 < Rabs (Im i))%R) ->
  exists Vm Dm Wm V D d1 d2 d3, ed_V d = Ok (Vm, d1) /\ ed_D d = Ok (Dm, d2) /\ ed_VT d = Ok (Wm, d3) /\
    MatIs Vm n n V /\ MatIs Dm n n D /\ MatIs Wm n n (trm V) /\
    (forall i j, 0 <= i < n -> 0 <= j < n -> D i j = (if i =? j then Re i else if j =? i + 1 then Rmax 0 (Im i) else if j =? i - 1 then Rmin 0 (Im i) else 0)%R) /\
    (forall i, 0 <= i < n -> (0 < Im i)%R -> i + 1 < n /\ Re (i + 1) = Re i /\ Im (i + 1) = (- Im i)%R) /\
    (forall w, (forall i, 0 <= i < n -> mvec n V w i = 0%R) -> forall i, 0 <= i < n -> w i = 0%R) /\
    (forall k, 0 <= k < n -> (sqrt (Rs 0 n (fun i => (mmul n A V i k - mmul n V D i k) * (mmul n A V i k - mmul n V D i k))) <=
       (sc_tol n (nF n A) + / 1000000000000 + / 9007199254740992 * Rs 0 n (fun i => Rs (Z.max (i - 1) 0) n (fun j => Rabs (T i j)))) * sqrt (Rs 0 n (fun i => V i k * V i k)))%R).
Proof. exact gen_vectors. Qed.
Print Assumptions C55_vectors_partial.
(** A 2 x 2 matrix with two different real eigenvalues may be given complex ones:
    the test that finds the blocks is absolute.  [[1e17,2],[1,2e17]] gets
    1.5e17 + 5e16 i and its conjugate. *)
Theorem C55_scale_refuted : ~ (forall a b c d v re im, 0 < (a - d) * (a - d) + 4 * (b * c) -> ed_obs [[a; b]; [c; d]] = Ok (v, re, im) -> forallb is_zero64 im = true).
Proof.
  intros H. specialize (H 100000000000000000 2 1 200000000000000000 _ _ _ eq_refl ltac:(vm_compute; reflexivity)). vm_compute in H. discriminate.
Qed.
Print Assumptions C55_scale_refuted.
(** A V = V D is not approximate for some matrices with imaginary parts up to
    1e-12, which the back substitution takes for zero in one place and not in
    another.  The eigenvalue 1 of [[0,e,1],[-10^6 e,0,1],[0,0,1]], e = 2^-50, has
    the eigenvector (1,1,1) nearly; the column given for it is (0,2^50,-1). *)
Theorem C55_small_imaginary_refuted : ~ (forall rows k r v, SFleb (largest (over2 k (flss rows))) (fl 1) = true -> ed_res (over2 k (flss rows)) = Ok (r, v) ->
  SFleb (@fmul E64 (fl 2) (largest r)) (largest v) = true).
Proof.
  intros H. specialize (H [[0; 1; 1125899906842624]; [-1000000; 0; 1125899906842624]; [0; 0; 1125899906842624]] 50 _ _ ltac:(vm_compute; reflexivity) ltac:(vm_compute; reflexivity)). vm_compute in H. discriminate.
Qed.
Print Assumptions C55_small_imaginary_refuted.
(** [[1,-2],[1,3]], with eigenvalues 2+i and 2-i, meets the hypotheses. *)
Example C55_ex : exists d Re Im, ed_of (rmat [[1; -2]; [1; 3]]%R) d /\ VecIs (VArr (ed_RealEigenvalues d)) 2 Re /\ VecIs (VArr (ed_ImagEigenvalues d)) 2 Im /\
  Re 0%Z = 2%R /\ Re 1%Z = 2%R /\ Im 0%Z = 1%R /\ Im 1%Z = (-1)%R /\
  exists Vm Dm V D d1 d2, ed_V d = Ok (Vm, d1) /\ ed_D d = Ok (Dm, d2) /\ MatIs Vm 2 2 V /\ MatIs Dm 2 2 D /\ D 0%Z 1%Z = 1%R /\ D 1%Z 0%Z = (-1)%R.
Proof.
  destruct c22_new as (d & Hd). destruct (c22_roots d Hd) as (Re & Im & HR & HI & R0 & R1 & I0 & I1). exists d, Re, Im. do 7 (split; [auto|]).
  destruct c22_schur as (sc & Hs). destruct (C55_roots _ 2 _ d sc (rmat_lib _) (rmat2_is _ _ _ _) ltac:(lia) c22_sym Hd Hs) as (Tm & T & sc1 & _ & _ & _ & E1 & H1 & _).
  destruct (C55_vectors_partial _ 2 _ d sc Tm T sc1 Re Im (rmat_lib _) (rmat2_is _ _ _ _) ltac:(lia) ltac:(lia) c22_sym Hd Hs E1 H1) as (Vm & Dm & Wm & V & D & d1 & d2 & d3 & EV & ED & _ & HV & HD & _ & Q & _); auto.
  - apply c22_form. exact (c22_T sc Tm T sc1 Hs E1 H1).
  - intros i j Hi Hj Hij _. right. assert (K : i = 0 /\ j = 1 \/ i = 1 /\ j = 0) by lia. destruct K as [[-> ->]|[-> ->]]; rewrite I0, I1; lra.
  - intros i Hi. right. assert (K : i = 0 \/ i = 1) by lia. destruct K as [->| ->]; [rewrite I0, Rabs_right by lra|rewrite I1, Rabs_left by lra]; lra.
  - exists Vm, Dm, V, D, d1, d2. do 4 (split; [auto|]). rewrite !Q by lia. cbn [Z.eqb Z.add Z.sub Z.opp Pos.eqb Pos.add Z.pos_sub]. rewrite I0, I1. split; [apply Rmax_right; lra|apply Rmin_right; lra].
Qed.
(** The repeated eigenvalue of [[1,1],[0,1]]: the columns are (1,0) and
    (-1, 1.5 * 2^-52), and the residual is 1.5 * 2^-52. *)
Example C55_repeated_ex : ed_obs [[1; 1]; [0; 1]] = Ok ([[fl 1; fl (-1)]; [fl 0; S754_finite false 6755399441055744 (-104)]], fls [1; 1], fls [0; 0]) /\
  ed_res (flss [[1; 1]; [0; 1]]) = Ok ([[fl 0; S754_finite false 6755399441055744 (-104)]; [fl 0; fl 0]], [[fl 1; fl (-1)]; [fl 0; S754_finite false 6755399441055744 (-104)]]).
Proof. vm_compute. auto. Qed.
(** On float64, which meets the hypotheses of the first theorems. *)
Example C55_float_ex : (forall c (x : @F (SFOps c)), flt (fsqrt x) fzero = false) /\ (forall c, @flt (SFOps c) fzero fzero = false) /\
  ed_obs [[1; -2]; [1; 3]] = Ok (flss [[-1; -1]; [0; 1]], fls [2; 2], fls [1; -1]) /\ ed_obs [[0; 1]; [0; 0]] <> Err EArithmetic.
Proof. split; [exact sqrt_not_neg|]. split; [exact zero_not_lt|]. split; [vm_compute; reflexivity|vm_compute; discriminate]. Qed.

(** C48: for a matrix that is not symmetric the solver treats V as orthogonal,
    and its solution of [[2,1],[0,4]] x = (4,4) has 1.5 as last component. *)
Theorem C48_nonsymmetric_refuted : ~ (forall a b d u v x y, 0 < d -> 0 < v -> ed_solve [[a; b]; [0; d]] [u; v] = Ok [x; y] ->
  SFltb (@fmul E64 (fl d) y) (@fadd E64 (fl v) (fl 1)) = true).
Proof.
  intros H. specialize (H 2 1 4 4 4 _ _ eq_refl eq_refl ltac:(vm_compute; reflexivity)). vm_compute in H. discriminate.
Qed.
Print Assumptions C48_nonsymmetric_refuted.

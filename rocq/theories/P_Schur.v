(** The Schur transform: C43.
    [sc_of x d]: [d] is what NewSchurTransformer(x) returned, after any
    sequence of calls to P, PT and T. *)
From Coq Require Import ZArith List Lia Bool Reals Lra Floats.SpecFloat.
From Verif Require Import Base BaseLemmas Scalar Vector VecSpec VectorFacts Matrix Array2D BlockM Diagonal RealMatrixM MatSpec Schur SchurSpec SchurSpecR SchurFacts2 RealOps RSum Frob SchurProps Float64 ExampleOps ExampleReal ExampleDec.
Import ListNotations.
Open Scope Z_scope.
#[local] Existing Instance ROps.

(** C43, exact arithmetic: P orthogonal, PT its transpose, T quasi-triangular
    and P T PT equal to A, the last two up to [sc_tol n a] = 2020 n (n+8) 2^-53
    (a + 1) with a the Frobenius norm of A.
    Missing: the statement asks for A = P T PT.  The code drops entries, some
    below a relative bound and some below the absolute bound 2^-53, so the
    equality holds up to a tolerance only, relative to a + 1 and not to a: see
    C43_scale_refuted.  It fails for A = 0: see C43_zero_refuted. *)
Theorem C43_factorisation_partial : forall (x : @RealMatrix ROps) n A d, library x -> MatIs x n n A -> 1 <= n -> 1010 * (n * (n + 8)) <= 9007199254740992 ->
  (exists i j, 0 <= i < n /\ 0 <= j < n /\ A i j <> 0%R) -> sc_of x d ->
  exists Pm Qm Tm P Q T d1 d2 d3, sc_getP d = Ok (Pm, d1) /\ sc_getPT d = Ok (Qm, d2) /\ sc_getT d = Ok (Tm, d3) /\
    MatIs Pm n n P /\ MatIs Qm n n Q /\ MatIs Tm n n T /\ orthogonal n P /\ meq n n Q (trm P) /\
    (nF n (msub A (mmul n (mmul n P T) (trm P))) <= sc_tol n (nF n A))%R /\ schur_form n (sc_tol n (nF n A)) T.
Proof. exact sc_factor. Qed.
Print Assumptions C43_factorisation_partial.
(** In any arithmetic, NaN included: a result or the panic for too many
    iterations, the latter never with fewer than three rows. *)
Theorem C43_terminates : forall (O : Ops) (x : @RealMatrix O) n A, library x -> MatIs x n n A -> 1 <= n ->
  (exists d, NewSchurTransformer x = Ok d) \/ (3 <= n /\ NewSchurTransformer x = Panic EMaxIter).
Proof. exact (@sc_total). Qed.
Print Assumptions C43_terminates.
(** NewSchurTransformer allows 101 n + 1 turns of the outer loop, 100 for each
    eigenvalue and one more that stores it or panics: allowing more, as the
    unbounded loop of the code does, changes nothing. *)
Theorem C43_bounded : forall (O : Ops) (x : @RealMatrix O) n A, library x -> MatIs x n n A -> 1 <= n ->
  forall fuel, (Z.to_nat (101 * n + 1) <= fuel)%nat -> NewSchurTransformerFuel fuel x = NewSchurTransformer x.
Proof. exact (@sc_new_fuel). Qed.
Print Assumptions C43_bounded.
Theorem C43_error : forall (O : Ops) (x : @RealMatrix O) r c A, MatIs x r c A -> r <> c -> NewSchurTransformer x = Err ENonSquare.
Proof. exact (@sc_nonsquare). Qed.
Print Assumptions C43_error.
(** In any arithmetic the accessors succeed and give the same entries in
    whatever order they are called; PT is exactly the transpose of P and T is
    exactly zero below its sub-diagonal. *)
Theorem C43_accessors : forall (O : Ops) (x : @RealMatrix O) n A d d', library x -> MatIs x n n A -> 1 <= n -> sc_of x d -> sc_of x d' ->
  exists P T Pm Qm Tm d1 d2 d3, sc_getP d = Ok (Pm, d1) /\ sc_getPT d = Ok (Qm, d2) /\ sc_getT d = Ok (Tm, d3) /\
    MatIs Pm n n P /\ MatIs Qm n n (fun i j => P j i) /\ MatIs Tm n n T /\ (forall i j, 0 <= j -> j + 1 < i < n -> T i j = fzero) /\
    exists Pm' Qm' Tm' e1 e2 e3, sc_getP d' = Ok (Pm', e1) /\ sc_getPT d' = Ok (Qm', e2) /\ sc_getT d' = Ok (Tm', e3) /\
      MatIs Pm' n n P /\ MatIs Qm' n n (fun i j => P j i) /\ MatIs Tm' n n T.
Proof. exact (@sc_access2). Qed.
Print Assumptions C43_accessors.
(** On float64 the zero matrix of order two gives NaN everywhere, the one of
    order three panics. *)
Theorem C43_zero_refuted : sc_obs (flss [[0; 0]; [0; 0]]) = Ok ([[NaN64; NaN64]; [NaN64; NaN64]], [[NaN64; NaN64]; [NaN64; NaN64]]) /\
  sc_obs (flss [[0; 0; 0]; [0; 0; 0]; [0; 0; 0]]) = Panic EMaxIter.
Proof. vm_compute. auto. Qed.
Print Assumptions C43_zero_refuted.
(** On float64, with a = [[1,2,3],[4,5,6],[7,8,10]]: the product P T PT for
    a / 2^60 has 0.92... / 2^60 in place of its first entry 1 / 2^60 (the
    literal is between 0.92 and 0.93), where that for a has 1 up to 2^-48. *)
Theorem C43_scale_refuted :
  (let* p := sc_prod (over2 60 (flss [[1; 2; 3]; [4; 5; 6]; [7; 8; 10]])) in Ok (map (firstn 1) (firstn 1 p))) = Ok [[S754_finite false 8310816604167283 (-113)]] /\
  over2 60 (flss [[1]]) = [[S754_finite false 4503599627370496 (-112)]] /\
  (let* p := sc_prod (flss [[1; 2; 3]; [4; 5; 6]; [7; 8; 10]]) in Ok (map (firstn 1) (firstn 1 p))) = Ok [[S754_finite false 9007199254740966 (-53)]].
Proof. vm_compute. auto. Qed.
Print Assumptions C43_scale_refuted.
(** [[4,1],[2,3]] meets the hypotheses. *)
Example C43_ex : exists d, sc_of (rmat [[4; 1]; [2; 3]]%R) d /\ exists Pm P d1, sc_getP d = Ok (Pm, d1) /\ MatIs Pm 2 2 P /\ orthogonal 2 P.
Proof.
  destruct (C43_terminates ROps (rmat [[4; 1]; [2; 3]]%R) 2 _ (rmat_lib _) (rmat2_is _ _ _ _) ltac:(lia)) as [(d & E)|[H _]]; [|lia].
  assert (Hd : sc_of (rmat [[4; 1]; [2; 3]]%R) d) by (exists d; split; [exact E|constructor]). exists d. split; auto.
  destruct (C43_factorisation_partial (rmat [[4; 1]; [2; 3]]%R) 2 _ d (rmat_lib _) (rmat2_is _ _ _ _) ltac:(lia) ltac:(lia)) as (Pm & Qm & Tm & P & Q & T & d1 & d2 & d3 & E1 & _ & _ & H1 & _ & _ & HO & _); auto.
  - exists 0, 0. rents. split; [lia|]. split; [lia|]. lra.
  - exists Pm, P, d1. auto.
Qed.
(** On float64: T of [[4,1],[2,3]] is triangular with eigenvalues nearly 5 and
    2; a rotation of three axes keeps a 2x2 block. *)
Example C43_float_ex : (let* (p, t) := sc_obs (flss [[4; 1]; [2; 3]]) in Ok t) =
    Ok [[S754_finite false 5629499534213119 (-50); S754_finite true 4503599627370496 (-52)]; [S754_zero false; S754_finite false 9007199254740990 (-52)]] /\
  (let* (p, t) := sc_obs (flss [[0; 1; 0]; [0; 0; 1]; [1; 0; 0]]) in Ok (map (map is_zero64) t)) = Ok [[false; false; false]; [false; false; false]; [true; false; false]] /\
  sc_obs (flss [[1; 2]]) = Err ENonSquare.
Proof. vm_compute. auto. Qed.

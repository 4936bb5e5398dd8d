(** C75: solving with an LU, Cholesky or QR decomposition held in memory.  The
    solvers compute on their own arrays what the list models of them compute
    on values; they leave the decomposition, the right-hand side and everything
    else as it was; and what they return depends only on the entries of the
    matrix and of the right-hand sides.  [MIn h x m]: the matrix [x] in memory
    [h] has the dimensions and entries of [m]; [VIn] likewise for vectors;
    [MOut] for results; [mall f l] calls [f] on the members of [l] in turn. *)
From Coq Require Import ZArith List Lia Bool.
From Verif Require Import Base BaseLemmas Scalar Vector Matrix VecSpec MatSpec DiagSpec RealMatrixM
  LU Cholesky QR Heap HeapSpec HeapDec HeapDecFacts HeapRefSpec HeapSolve HeapSolveFacts HeapSolveSpec HeapRef10 Float64 ExampleOps P_HeapRef.
Import ListNotations.
Open Scope Z_scope.

(** Build the decomposition, then solve for any number of right-hand sides one
    after the other: at the end every solution is there, with the entries the
    model computes, or the first error or panic of the model has come out. *)
Theorem C75_lu : forall (O : Ops) h x m thr bs ws xs ms, MIn h x m -> Forall2 (VIn h) bs ws -> Forall2 (MIn h) xs ms ->
  sim (let! d := h_NewLU x thr in mall (hlus_SolveVector d) bs) (let* d := NewLUDecompositionWithThreshold m thr in rall (lus_SolveVector d) ws) h
    (fun h' => Forall2 (fun s v => VRep h' s (v_data v))) /\
  sim (let! d := h_NewLU x thr in mall (hlus_SolveMatrix d) xs) (let* d := NewLUDecompositionWithThreshold m thr in rall (lus_SolveMatrix d) ms) h
    (fun h' => Forall2 (MOut h')) /\
  sim (let! d := h_NewLU x thr in hlus_Inverse d) (let* d := NewLUDecompositionWithThreshold m thr in lus_Inverse d) h MOut.
Proof. exact (@all_lu). Qed.
Print Assumptions C75_lu.
Theorem C75_cholesky : forall (O : Ops) h x m rel pos bs ws xs ms, MIn h x m -> Forall2 (VIn h) bs ws -> Forall2 (MIn h) xs ms ->
  sim (let! d := h_NewCholesky x rel pos in mall (hchs_SolveVector d) bs) (let* d := NewCholeskyDecomposition m rel pos in rall (chs_SolveVector d) ws) h
    (fun h' => Forall2 (fun s v => VRep h' s (v_data v))) /\
  sim (let! d := h_NewCholesky x rel pos in mall (hchs_SolveMatrix d) xs) (let* d := NewCholeskyDecomposition m rel pos in rall (chs_SolveMatrix d) ms) h
    (fun h' => Forall2 (MOut h')) /\
  sim (let! d := h_NewCholesky x rel pos in hchs_Inverse d) (let* d := NewCholeskyDecomposition m rel pos in chs_Inverse d) h MOut.
Proof. exact (@all_cholesky). Qed.
Print Assumptions C75_cholesky.
Theorem C75_qr : forall (O : Ops) h x m thr bs ws xs ms, zero_like fzero -> MIn h x m -> Forall2 (VIn h) bs ws -> Forall2 (MIn h) xs ms ->
  sim (let! d := h_NewQR x in mall (hqrs_SolveVector d thr) bs) (let* d := NewQRDecompositionWithThreshold m thr in rall (qrs_SolveVector d) ws) h
    (fun h' => Forall2 (fun s v => VRep h' s (v_data v))) /\
  sim (let! d := h_NewQR x in mall (hqrs_SolveMatrix d thr) xs) (let* d := NewQRDecompositionWithThreshold m thr in rall (qrs_SolveMatrix d) ms) h
    (fun h' => Forall2 (MOut h')) /\
  sim (let! d := h_NewQR x in hqrs_Inverse d thr) (let* d := NewQRDecompositionWithThreshold m thr in qrs_Inverse d) h MOut.
Proof. exact (@all_qr). Qed.
Print Assumptions C75_qr.

(** Whatever the decomposition in memory looks like, a solver changes nothing
    that was there and returns something independent of it, also when it
    fails. *)
Theorem C75_solutions_separate : forall (O : Ops) (s : HLU) (t : slice) (q : HQR) (thr : F) (b : HVec) (x : HMat),
  (separate (hlus_SolveVector s b) OF /\ separate (hchs_SolveVector t b) OF /\ separate (hqrs_SolveVector q thr b) OF) /\
  (separate (hlus_SolveMatrix s x) hm_obj /\ separate (hchs_SolveMatrix t x) hm_obj /\ separate (hqrs_SolveMatrix q thr x) hm_obj) /\
  (separate (hlus_Inverse s) hm_obj /\ separate (hchs_Inverse t) hm_obj /\ separate (hqrs_Inverse q thr) hm_obj).
Proof. intros. split; [apply solve_vector_separate|split; [apply solve_matrix_separate|apply inverse_separate]]. Qed.
Print Assumptions C75_solutions_separate.

(** The same systems in two memories, with matrices and vectors of any kind and
    any storage: the same solutions, errors and panics. *)
Theorem C75_entries_only : forall (O : Ops) h h' x x' bs bs' xs xs', MBoth h h' x x' -> Forall2 (VBoth h h') bs bs' -> Forall2 (MBoth h h') xs xs' ->
  let V k ss k' ss' := Forall2 (fun s s' => view k (OF s) = view k' (OF s')) ss ss' in
  let Ms k ys k' ys' := Forall2 (MBoth k k') ys ys' in
  let Mo k y k' y' := MBoth k k' y y' in
  (forall thr,
    alike (let! d := h_NewLU x thr in mall (hlus_SolveVector d) bs) h (let! d := h_NewLU x' thr in mall (hlus_SolveVector d) bs') h' V /\
    alike (let! d := h_NewLU x thr in mall (hlus_SolveMatrix d) xs) h (let! d := h_NewLU x' thr in mall (hlus_SolveMatrix d) xs') h' Ms /\
    alike (let! d := h_NewLU x thr in hlus_Inverse d) h (let! d := h_NewLU x' thr in hlus_Inverse d) h' Mo) /\
  (forall rel pos,
    alike (let! d := h_NewCholesky x rel pos in mall (hchs_SolveVector d) bs) h (let! d := h_NewCholesky x' rel pos in mall (hchs_SolveVector d) bs') h' V /\
    alike (let! d := h_NewCholesky x rel pos in mall (hchs_SolveMatrix d) xs) h (let! d := h_NewCholesky x' rel pos in mall (hchs_SolveMatrix d) xs') h' Ms /\
    alike (let! d := h_NewCholesky x rel pos in hchs_Inverse d) h (let! d := h_NewCholesky x' rel pos in hchs_Inverse d) h' Mo) /\
  (zero_like fzero -> forall thr,
    alike (let! d := h_NewQR x in mall (hqrs_SolveVector d thr) bs) h (let! d := h_NewQR x' in mall (hqrs_SolveVector d thr) bs') h' V /\
    alike (let! d := h_NewQR x in mall (hqrs_SolveMatrix d thr) xs) h (let! d := h_NewQR x' in mall (hqrs_SolveMatrix d thr) xs') h' Ms /\
    alike (let! d := h_NewQR x in hqrs_Inverse d thr) h (let! d := h_NewQR x' in hqrs_Inverse d thr) h' Mo).
Proof. exact (@same_solutions). Qed.
Print Assumptions C75_entries_only.

(** The two memories of P_HeapRef.v: the matrix with rows [4,2],[2,5], in [lap]
    with overlapping rows of the array [4,2,5].  As right-hand side, twice, the
    first two places of that same array: the vector (4,2). *)
Definition rhs : HVec := HArr (O := E64) (mkSl 0 0 2 2).
Definition g42 (i : Z) : @F E64 := nthZ (fls [4; 2]) i.
Lemma rhs_in (h : heap) : window (hf h) (mkSl 0 0 2 2) = fls [4; 2] -> HVIs (O := E64) h rhs 2 g42.
Proof.
  intros H. cbn. exists (fls [4; 2]). split; [|split; [reflexivity|]].
  - repeat split; try (cbn; lia). exact H.
  - intros j Hj. destruct (two_cases j Hj) as [-> | ->]; reflexivity.
Qed.
Example C75_hyps : MBoth (O := E64) sep lap (HA (mkSl 0 0 2 2)) (HA (mkSl 0 0 2 2)) /\
  Forall2 (VBoth (O := E64) sep lap) [rhs; rhs] [rhs; rhs] /\
  Forall2 (MBoth (O := E64) sep lap) [HA (mkSl 0 0 2 2)] [HA (mkSl 0 0 2 2)].
Proof.
  assert (A : MBoth (O := E64) sep lap (HA (mkSl 0 0 2 2)) (HA (mkSl 0 0 2 2))) by (exists 2, 2, ents; split; [apply C74_sep|apply C74_lap]).
  split; [exact A|]. split; [|constructor; [exact A|constructor]].
  assert (B : VBoth (O := E64) sep lap rhs rhs) by (exists 2, g42; split; apply rhs_in; reflexivity). constructor; [exact B|constructor; [exact B|constructor]].
Qed.
(** The solutions are (1,0), (1,0) -- and the matrix is still there. *)
Example C75_run : match (let! d := h_NewLU (HA (mkSl 0 0 2 2)) (@fzero E64) in mall (hlus_SolveVector d) [rhs; rhs]) lap with
  (Ok [s; t], h) => Some (view h (OF s), view h (OF t), view h (OM (mkSl 0 0 2 2))) | _ => None end =
  Some (flss [[1; 0]], flss [[1; 0]], flss [[4; 2]; [2; 5]]).
Proof. vm_compute. reflexivity. Qed.
(** Dividing the matrix by itself gives the identity. *)
Example C75_run_matrix : match (let! d := h_NewCholesky (HA (mkSl 0 0 2 2)) (@fzero E64) (@fzero E64) in hchs_SolveMatrix d (HA (mkSl 0 0 2 2))) lap with
  (Ok (HA y), h) => Some (view h (OM y)) | _ => None end = Some (flss [[1; 0]; [0; 1]]).
Proof. vm_compute. reflexivity. Qed.
Example C75_run_singular : fst (A := res (list slice)) ((let! d := h_NewLU (HD (mkSl 0 0 2 2)) (@fone E64) in mall (hlus_SolveVector d) [rhs])
  (mkHeap [fls [4; 0]] [])) = Panic ESingular.
Proof. vm_compute. reflexivity. Qed.
(** And by QR, through a block matrix: the diagonal matrix with 2, 5 into the
    matrix with rows [4,2],[2,5]. *)
Example C75_run_qr : match (let! d := h_NewQR (HD (mkSl 1 0 2 2)) in hqrs_SolveMatrix d (@fzero E64) (HA (mkSl 0 0 2 2))) sep with
  (Ok (HB y), h) => Some (view h (OM (hb_blocks y))) | _ => None end = Some [[fl 2; fl 1; @fdiv E64 (fl 2) (fl 5); fl 1]].
Proof. vm_compute. reflexivity. Qed.

(** C38: decompositions leave their matrix alone, and their accessors return the
    same at every call.  [*_calls d0 d]: [d] is [d0] after any sequence of
    accessor calls; [result] is what the caller gets.  In any arithmetic. *)
From Coq Require Import ZArith List Lia Bool.
From Verif Require Import Base BaseLemmas Scalar Vector Matrix Array2D BlockM Diagonal RealMatrixM MatSpec
  LU LUSpec Cholesky CholSpec QR QRSpec Hess HessSpec Tridiag Bidiag Schur SchurSpec Eigen EigenSpec SVD SVDSpec
  AccSpec AccFacts Heap HeapDec HeapSpec HeapDecFacts Float64 ExampleOps.
Import ListNotations.
Open Scope Z_scope.

Theorem C38_lu : forall (O : Ops) x thr d0 d, NewLUDecompositionWithThreshold x thr = Ok d0 -> lu_calls d0 d ->
  result (lu_L d) = result (lu_L d0) /\ result (lu_U d) = result (lu_U d0) /\ result (lu_P d) = result (lu_P d0) /\
  lu_Pivot d = lu_Pivot d0 /\ lu_Determinant d = lu_Determinant d0 /\ lus_IsNonSingular d = lus_IsNonSingular d0 /\
  (forall b, lus_SolveVector d b = lus_SolveVector d0 b) /\ (forall b, lus_SolveMatrix d b = lus_SolveMatrix d0 b) /\
  lus_Inverse d = lus_Inverse d0.
Proof. exact (@lu_repeat). Qed.
Print Assumptions C38_lu.
Theorem C38_cholesky : forall (O : Ops) x rel pos d0 d, NewCholeskyDecomposition x rel pos = Ok d0 -> ch_calls d0 d ->
  result (ch_L d) = result (ch_L d0) /\ result (ch_LT d) = result (ch_LT d0) /\ ch_Determinant d = ch_Determinant d0 /\
  (forall b, chs_SolveVector d b = chs_SolveVector d0 b) /\ (forall b, chs_SolveMatrix d b = chs_SolveMatrix d0 b) /\
  chs_Inverse d = chs_Inverse d0.
Proof. exact (@ch_repeat). Qed.
Print Assumptions C38_cholesky.
Theorem C38_qr : forall (O : Ops) x thr d0 d, NewQRDecompositionWithThreshold x thr = Ok d0 -> qr_calls d0 d ->
  result (qr_Q d) = result (qr_Q d0) /\ result (qr_QT d) = result (qr_QT d0) /\ result (qr_R d) = result (qr_R d0) /\
  result (qr_H d) = result (qr_H d0) /\ qrs_IsNonSingular d = qrs_IsNonSingular d0 /\
  (forall b, qrs_SolveVector d b = qrs_SolveVector d0 b) /\ (forall b, qrs_SolveMatrix d b = qrs_SolveMatrix d0 b) /\
  qrs_Inverse d = qrs_Inverse d0.
Proof. exact (@qr_repeat). Qed.
Print Assumptions C38_qr.
Theorem C38_rrqr : forall (O : Ops) x thr d0 d, NewRRQRDecompositionWithThreshold x thr = Ok d0 -> rr_calls d0 d ->
  result (rr_lift qr_Q d) = result (rr_lift qr_Q d0) /\ result (rr_lift qr_QT d) = result (rr_lift qr_QT d0) /\
  result (rr_lift qr_R d) = result (rr_lift qr_R d0) /\ result (rr_lift qr_H d) = result (rr_lift qr_H d0) /\
  result (rr_P d) = result (rr_P d0) /\ (forall drop, result (rr_Rank d drop) = result (rr_Rank d0 drop)) /\
  rrs_IsNonSingular d = rrs_IsNonSingular d0 /\ (forall b, result (rrs_SolveVector d b) = result (rrs_SolveVector d0 b)) /\
  (forall b, result (rrs_SolveMatrix d b) = result (rrs_SolveMatrix d0 b)) /\ result (rrs_Inverse d) = result (rrs_Inverse d0).
Proof. exact (@rr_repeat). Qed.
Print Assumptions C38_rrqr.
Theorem C38_hessenberg : forall (O : Ops) x d0 d, NewHessenbergTransformer x = Ok d0 -> hs_calls d0 d ->
  result (hs_P d) = result (hs_P d0) /\ result (hs_PT d) = result (hs_PT d0) /\ result (hs_H d) = result (hs_H d0).
Proof. exact (@hs_repeat). Qed.
Print Assumptions C38_hessenberg.
Theorem C38_tridiagonal : forall (O : Ops) x d0 d, NewTriDiagonalTransformer x = Ok d0 -> td_calls d0 d ->
  result (td_Q d) = result (td_Q d0) /\ result (td_QT d) = result (td_QT d0) /\ result (td_T d) = result (td_T d0) /\
  td_HouseholderVectorsRef d = td_HouseholderVectorsRef d0 /\ td_MainDiagonalRef d = td_MainDiagonalRef d0 /\
  td_SecondaryDiagonalRef d = td_SecondaryDiagonalRef d0.
Proof. exact (@td_repeat). Qed.
Print Assumptions C38_tridiagonal.
Theorem C38_bidiagonal : forall (O : Ops) x d0 d, NewBiDiagonalTransformer x = Ok d0 -> bd_calls d0 d ->
  result (bd_U d) = result (bd_U d0) /\ result (bd_B d) = result (bd_B d0) /\ result (bd_V d) = result (bd_V d0).
Proof. exact (@bd_repeat). Qed.
Print Assumptions C38_bidiagonal.
Theorem C38_schur : forall (O : Ops) x d0 d, NewSchurTransformer x = Ok d0 -> sc_calls d0 d ->
  result (sc_getP d) = result (sc_getP d0) /\ result (sc_getPT d) = result (sc_getPT d0) /\ result (sc_getT d) = result (sc_getT d0).
Proof. exact (@sc_repeat). Qed.
Print Assumptions C38_schur.
Theorem C38_eigen : forall (O : Ops) d0 d, ((exists x, NewEigenDecomposition x = Ok d0) \/ (exists mn sec, NewEigenDecompositionFromTridiagonal mn sec = Ok d0)) ->
  ed_calls d0 d ->
  result (ed_V d) = result (ed_V d0) /\ result (ed_D d) = result (ed_D d0) /\ result (ed_VT d) = result (ed_VT d0) /\
  result (ed_SquareRoot d) = result (ed_SquareRoot d0) /\ ed_HasComplexEigenvalues d = ed_HasComplexEigenvalues d0 /\
  ed_RealEigenvalues d = ed_RealEigenvalues d0 /\ ed_ImagEigenvalues d = ed_ImagEigenvalues d0 /\
  (forall i, ed_RealEigenvalueAt d i = ed_RealEigenvalueAt d0 i /\ ed_ImagEigenvalue d i = ed_ImagEigenvalue d0 i /\
     ed_EigenvectorAt d i = ed_EigenvectorAt d0 i) /\
  ed_Determinant d = ed_Determinant d0 /\ eds_IsNonSingular d = eds_IsNonSingular d0 /\
  (forall b, eds_SolveVector d b = eds_SolveVector d0 b) /\ (forall b, eds_SolveMatrix d b = eds_SolveMatrix d0 b) /\
  eds_Inverse d = eds_Inverse d0.
Proof. exact (@ed_repeat). Qed.
Print Assumptions C38_eigen.
Theorem C38_svd : forall (O : Ops) fuel x d0 d, NewSingularValueDecomposition fuel x = Ok d0 -> sv_calls d0 d ->
  sv_U d = sv_U d0 /\ sv_V d = sv_V d0 /\ sv_SingularValues d = sv_SingularValues d0 /\
  result (sv_UT d) = result (sv_UT d0) /\ result (sv_VT d) = result (sv_VT d0) /\ result (sv_S d) = result (sv_S d0) /\
  (forall mn, result (sv_Covariance d mn) = result (sv_Covariance d0 mn)) /\ result (sv_Solver d) = result (sv_Solver d0) /\
  sv_Norm d = sv_Norm d0 /\ sv_ConditionNumber d = sv_ConditionNumber d0 /\ sv_InverseConditionNumber d = sv_InverseConditionNumber d0 /\
  sv_Rank d = sv_Rank d0 /\ svs_IsNonSingular d = svs_IsNonSingular d0.
Proof. exact (@sv_repeat). Qed.
Print Assumptions C38_svd.

(** Decompositions of the float64 matrix [4,2],[2,5] whose caches have been
    filled by two accessor calls. *)
Definition cx : @RealMatrix E64 := @MArr E64 (mkA2D (Some (flss [[4; 2]; [2; 5]]))).
Example C38_lu_ex : exists d0 d1 d m1 m2, @NewLUDecompositionWithThreshold E64 cx (@fzero E64) = Ok d0 /\ lu_L d0 = Ok (m1, d1) /\ lu_U d1 = Ok (m2, d) /\ lu_calls d0 d.
Proof.
  destruct (two_calls (@NewLUDecompositionWithThreshold E64 cx (@fzero E64)) lu_L lu_U) as (d0 & d1 & d & m1 & m2 & E0 & E1 & E2); [vm_compute; reflexivity|].
  exists d0, d1, d, m1, m2. repeat split; auto. eapply lc_L; [exact E1|]. eapply lc_U; [exact E2|]. constructor.
Qed.
Example C38_cholesky_ex : exists d0 d1 d m1 m2, @NewCholeskyDecomposition E64 cx (@fzero E64) (@fzero E64) = Ok d0 /\ ch_L d0 = Ok (m1, d1) /\ ch_LT d1 = Ok (m2, d) /\ ch_calls d0 d.
Proof.
  destruct (two_calls (@NewCholeskyDecomposition E64 cx (@fzero E64) (@fzero E64)) ch_L ch_LT) as (d0 & d1 & d & m1 & m2 & E0 & E1 & E2); [vm_compute; reflexivity|].
  exists d0, d1, d, m1, m2. repeat split; auto. eapply cc_L; [exact E1|]. eapply cc_LT; [exact E2|]. constructor.
Qed.
Example C38_qr_ex : exists d0 d1 d m1 m2, @NewQRDecompositionWithThreshold E64 cx (@fzero E64) = Ok d0 /\ qr_Q d0 = Ok (m1, d1) /\ qr_R d1 = Ok (m2, d) /\ qr_calls d0 d.
Proof.
  destruct (two_calls (@NewQRDecompositionWithThreshold E64 cx (@fzero E64)) qr_Q qr_R) as (d0 & d1 & d & m1 & m2 & E0 & E1 & E2); [vm_compute; reflexivity|].
  exists d0, d1, d, m1, m2. repeat split; auto. eapply qc_Q; [exact E1|]. eapply qc_R; [exact E2|]. constructor.
Qed.
Example C38_rrqr_ex : exists d0 d1 d m1 m2, @NewRRQRDecompositionWithThreshold E64 cx (@fzero E64) = Ok d0 /\ rr_P d0 = Ok (m1, d1) /\ (rr_lift qr_QT) d1 = Ok (m2, d) /\ rr_calls d0 d.
Proof.
  destruct (two_calls (@NewRRQRDecompositionWithThreshold E64 cx (@fzero E64)) rr_P (rr_lift qr_QT)) as (d0 & d1 & d & m1 & m2 & E0 & E1 & E2); [vm_compute; reflexivity|].
  exists d0, d1, d, m1, m2. repeat split; auto. eapply rc_P; [exact E1|]. eapply rc_QT; [exact E2|]. constructor.
Qed.
Example C38_hessenberg_ex : exists d0 d1 d m1 m2, @NewHessenbergTransformer E64 cx = Ok d0 /\ hs_PT d0 = Ok (m1, d1) /\ hs_H d1 = Ok (m2, d) /\ hs_calls d0 d.
Proof.
  destruct (two_calls (@NewHessenbergTransformer E64 cx) hs_PT hs_H) as (d0 & d1 & d & m1 & m2 & E0 & E1 & E2); [vm_compute; reflexivity|].
  exists d0, d1, d, m1, m2. repeat split; auto. eapply hsc_PT; [exact E1|]. eapply hsc_H; [exact E2|]. constructor.
Qed.
Example C38_tridiagonal_ex : exists d0 d1 d m1 m2, @NewTriDiagonalTransformer E64 cx = Ok d0 /\ td_Q d0 = Ok (m1, d1) /\ td_T d1 = Ok (m2, d) /\ td_calls d0 d.
Proof.
  destruct (two_calls (@NewTriDiagonalTransformer E64 cx) td_Q td_T) as (d0 & d1 & d & m1 & m2 & E0 & E1 & E2); [vm_compute; reflexivity|].
  exists d0, d1, d, m1, m2. repeat split; auto. eapply tdc_Q; [exact E1|]. eapply tdc_T; [exact E2|]. constructor.
Qed.
Example C38_bidiagonal_ex : exists d0 d1 d m1 m2, @NewBiDiagonalTransformer E64 cx = Ok d0 /\ bd_V d0 = Ok (m1, d1) /\ bd_U d1 = Ok (m2, d) /\ bd_calls d0 d.
Proof.
  destruct (two_calls (@NewBiDiagonalTransformer E64 cx) bd_V bd_U) as (d0 & d1 & d & m1 & m2 & E0 & E1 & E2); [vm_compute; reflexivity|].
  exists d0, d1, d, m1, m2. repeat split; auto. eapply bdc_V; [exact E1|]. eapply bdc_U; [exact E2|]. constructor.
Qed.
Example C38_schur_ex : exists d0 d1 d m1 m2, @NewSchurTransformer E64 cx = Ok d0 /\ sc_getPT d0 = Ok (m1, d1) /\ sc_getT d1 = Ok (m2, d) /\ sc_calls d0 d.
Proof.
  destruct (two_calls (@NewSchurTransformer E64 cx) sc_getPT sc_getT) as (d0 & d1 & d & m1 & m2 & E0 & E1 & E2); [vm_compute; reflexivity|].
  exists d0, d1, d, m1, m2. repeat split; auto. eapply scc_PT; [exact E1|]. eapply scc_T; [exact E2|]. constructor.
Qed.
Example C38_eigen_ex : exists d0 d1 d m1 m2, @NewEigenDecomposition E64 cx = Ok d0 /\ ed_V d0 = Ok (m1, d1) /\ ed_SquareRoot d1 = Ok (m2, d) /\ ed_calls d0 d.
Proof.
  destruct (two_calls (@NewEigenDecomposition E64 cx) ed_V ed_SquareRoot) as (d0 & d1 & d & m1 & m2 & E0 & E1 & E2); [vm_compute; reflexivity|].
  exists d0, d1, d, m1, m2. repeat split; auto. eapply edc_V; [exact E1|]. eapply edc_SquareRoot; [exact E2|]. constructor.
Qed.
Example C38_svd_ex : exists d0 d1 d m1 m2, @NewSingularValueDecomposition E64 100 cx = Ok d0 /\ sv_S d0 = Ok (m1, d1) /\ sv_UT d1 = Ok (m2, d) /\ sv_calls d0 d.
Proof.
  destruct (two_calls (@NewSingularValueDecomposition E64 100 cx) sv_S sv_UT) as (d0 & d1 & d & m1 & m2 & E0 & E1 & E2); [vm_compute; reflexivity|].
  exists d0, d1, d, m1, m2. repeat split; auto. eapply svc_S; [exact E1|]. eapply svc_UT; [exact E2|]. constructor.
Qed.

(** Whatever the matrix, of any of the three kinds, and whatever the outcome, an
    error or a panic included: a constructor changes nothing that existed, and
    what it stores is independent of everything that existed, so that nothing
    done to the matrix later is seen in the decomposition, nor the other way
    round.  The constructors of SchurTransformer, EigenDecomposition and
    SingularValueDecomposition are not in the heap model; they read the matrix
    through Data() and the transformers. *)
Theorem C38_input : forall (O : Ops) (x : HMat),
  (forall thr, separate (h_NewLU x thr) (fun d => OM (hlu_lu d))) /\
  (forall rel pos, separate (h_NewCholesky x rel pos) OM) /\
  (separate (h_NewQR x) (fun d => OM (hqr_qrt d)) /\ separate (h_NewQR x) (fun d => OF (hqr_rDiag d))) /\
  (separate (h_NewRRQR x) (fun d => OM (hrr_qrt d)) /\ separate (h_NewRRQR x) (fun d => OF (hrr_rDiag d))) /\
  (separate (h_NewHessenberg x) (fun d => OM (hhs_hv d)) /\ separate (h_NewHessenberg x) (fun d => OF (hhs_ort d))) /\
  (separate (h_NewTriDiagonal x) (fun d => OM (htd_hv d)) /\ separate (h_NewTriDiagonal x) (fun d => OF (htd_main d)) /\
   separate (h_NewTriDiagonal x) (fun d => OF (htd_sec d))) /\
  (separate (h_NewBiDiagonal x) (fun d => OM (htd_hv d)) /\ separate (h_NewBiDiagonal x) (fun d => OF (htd_main d)) /\
   separate (h_NewBiDiagonal x) (fun d => OF (htd_sec d))) /\
  (forall small, separate (h_NewRectChol x small) hm_obj).
Proof.
  exact (fun O x => conj (NewLU_separate x) (conj (NewCholesky_separate x) (conj (NewQR_separate x) (conj (NewRRQR_separate x)
    (conj (NewHessenberg_separate x) (conj (NewTri_separate x) (conj (NewBi_separate x) (NewRectChol_separate x)))))))).
Qed.
Print Assumptions C38_input.
(** On the heap of this 2x2 matrix the constructors do something: the LU rows
    are [4,2],[0.5,4], and the matrix is as before. *)
Definition hx2 : @heap E64 := mkHeap [fls [4; 2]; fls [2; 5]] [[mkSl 0 0 2 2; mkSl 1 0 2 2]].
Definition mx2 : HMat := HA (mkSl 0 0 2 2).
Definition after {A B} (m : @M E64 A) (h : @heap E64) (f : @heap E64 -> A -> B) : option B :=
  match m h with (Ok a, h') => Some (f h' a) | _ => None end.
Example C38_input_ex : after (h_NewLU mx2 (@fzero E64)) hx2 (fun h d => (view h (OM (hlu_lu d)), view h (hm_obj mx2))) =
  Some ([fls [4; 2]; [@fdiv E64 (fl 1) (fl 2); fl 4]], flss [[4; 2]; [2; 5]]).
Proof. vm_compute. reflexivity. Qed.
Example C38_input_kinds :
  after (h_NewCholesky mx2 (@fzero E64) (@fzero E64)) hx2 (fun h d => (view h (OM d), view h (hm_obj mx2))) =
    Some ([fls [2; 1]; fls [0; 2]], flss [[4; 2]; [2; 5]]) /\
  after (h_NewQR mx2) hx2 (fun h d => (len (view h (OM (hqr_qrt d))), view h (hm_obj mx2))) = Some (2, flss [[4; 2]; [2; 5]]) /\
  after (h_NewTriDiagonal mx2) hx2 (fun h d => (view h (OF (htd_main d)), view h (OF (htd_sec d)), view h (hm_obj mx2))) =
    Some (flss [[4; 5]], flss [[-2]], flss [[4; 2]; [2; 5]]) /\
  after (h_NewRectChol mx2 (@fzero E64)) hx2 (fun h d => (len (view h (hm_obj d)), view h (hm_obj mx2))) = Some (2, flss [[4; 2]; [2; 5]]).
Proof. vm_compute. repeat split; reflexivity. Qed.

(** What an accessor returns is the cached matrix itself, not a copy: the next
    call returns the same object whatever happened to it in between ... *)
Theorem C38_shared : forall (O : Ops) d h m d' h1, h_LT d h = (Ok (m, d'), h1) -> forall h2, h_LT d' h2 = (Ok (m, d'), h2).
Proof. exact (@LT_again). Qed.
Print Assumptions C38_shared.
(** ... but the numbers the solver and L() work with are not reached through it. *)
Theorem C38_shared_solver : forall (O : Ops) t, separate (h_LT (mkHCh t None)) (fun r => hm_obj (fst r)).
Proof. exact (@LT_separate). Qed.
Print Assumptions C38_shared_solver.
(** LT().SetEntry(0, 0, 9), then LT() again: it has 9 there; lTData does not. *)
Example C38_shared_ex : after (let! t := h_NewCholesky mx2 (@fzero E64) (@fzero E64) in
    let! (m, d) := h_LT (mkHCh t None) in
    let! _ := hm_SetEntry m 0 0 (fl 9) in h_LT d) hx2 (fun h r => (view h (hm_obj (fst r)), view h (OM (hch_lT (snd r))))) =
  Some (flss [[9; 1]; [0; 2]], flss [[2; 1]; [0; 2]]).
Proof. vm_compute. reflexivity. Qed.

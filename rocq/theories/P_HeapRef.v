(** C74: a decomposition depends only on the dimensions and entries the matrix
    has when it is built -- not on the kind of matrix nor on how its rows are
    stored, shared or overlapping -- and computes on its own tables in memory
    what the list model of it computes.  [HMatIs h x r c f]: in memory [h], the
    matrix [x] has these dimensions and entries.  In any arithmetic; QR and
    RRQR transpose, and a diagonal matrix transposes if zero counts as zero
    off the diagonal ([zero_like fzero]), as it does for float64. *)
From Coq Require Import ZArith List Lia Bool.
From Verif Require Import Base BaseLemmas Scalar Vector Matrix MatSpec DiagSpec RealMatrixM
  LU Cholesky QR Hess Tridiag Bidiag RectChol Heap HeapSpec HeapDec HeapRefSpec HeapRef2 HeapRef3 HeapRef4 HeapRef5 HeapRef6 Float64 ExampleOps.
Import ListNotations.
Open Scope Z_scope.

Theorem C74_lu : forall (O : Ops) h x r c f m thr, HMatIs h x r c f -> library m -> MatIs m r c f ->
  sim (h_NewLU x thr) (NewLUDecompositionWithThreshold m thr) h (fun h' a b =>
    MRep h' (hlu_lu a) (lu_lu b) /\ hlu_pivot a = lu_pivot b /\ hlu_even a = lu_even b /\ hlu_singular a = lu_singular b).
Proof. exact (@ref_LU). Qed.
Print Assumptions C74_lu.
Theorem C74_cholesky : forall (O : Ops) h x r c f m rel pos, HMatIs h x r c f -> library m -> MatIs m r c f ->
  sim (h_NewCholesky x rel pos) (NewCholeskyDecomposition m rel pos) h (fun h' a b => MRep h' a (ch_lT b)).
Proof. exact (@ref_Cholesky). Qed.
Print Assumptions C74_cholesky.
Theorem C74_qr : forall (O : Ops) h x r c f m thr, zero_like fzero -> HMatIs h x r c f -> library m -> MatIs m r c f ->
  sim (h_NewQR x) (NewQRDecompositionWithThreshold m thr) h (fun h' a b =>
    MRep h' (hqr_qrt a) (qr_qrt b) /\ VRep h' (hqr_rDiag a) (qr_rDiag b)).
Proof. exact (@ref_QR). Qed.
Print Assumptions C74_qr.
Theorem C74_rrqr : forall (O : Ops) h x r c f m thr, zero_like fzero -> HMatIs h x r c f -> library m -> MatIs m r c f ->
  sim (h_NewRRQR x) (NewRRQRDecompositionWithThreshold m thr) h (fun h' a b =>
    MRep h' (hrr_qrt a) (qr_qrt (rr_qr b)) /\ VRep h' (hrr_rDiag a) (qr_rDiag (rr_qr b)) /\ hrr_p a = rr_p b).
Proof. exact (@ref_RRQR). Qed.
Print Assumptions C74_rrqr.
Theorem C74_hessenberg : forall (O : Ops) h x r c f m, HMatIs h x r c f -> library m -> MatIs m r c f ->
  sim (h_NewHessenberg x) (NewHessenbergTransformer m) h (fun h' a b =>
    MRep h' (hhs_hv a) (hs_hv b) /\ VRep h' (hhs_ort a) (hs_ort b)).
Proof. exact (@ref_Hessenberg). Qed.
Print Assumptions C74_hessenberg.
Theorem C74_tridiagonal : forall (O : Ops) h x r c f m, HMatIs h x r c f -> library m -> MatIs m r c f ->
  sim (h_NewTriDiagonal x) (NewTriDiagonalTransformer m) h (fun h' a b =>
    MRep h' (htd_hv a) (td_hv b) /\ VRep h' (htd_main a) (td_main b) /\ VRep h' (htd_sec a) (td_sec b)).
Proof. exact (@ref_TriDiagonal). Qed.
Print Assumptions C74_tridiagonal.
Theorem C74_bidiagonal : forall (O : Ops) h x r c f m, HMatIs h x r c f -> library m -> MatIs m r c f ->
  sim (h_NewBiDiagonal x) (NewBiDiagonalTransformer m) h (fun h' a b =>
    MRep h' (htd_hv a) (bd_hv b) /\ VRep h' (htd_main a) (bd_main b) /\ VRep h' (htd_sec a) (bd_sec b)).
Proof. exact (@ref_BiDiagonal). Qed.
Print Assumptions C74_bidiagonal.
Theorem C74_rectangular : forall (O : Ops) h x r c f m small, HMatIs h x r c f -> library m -> MatIs m r c f ->
  sim (h_NewRectChol x small) (NewRectangularCholeskyDecompositionWithThreshold m small) h (fun h' a b =>
    exists g, HMatIs h' a r (rc_rank b) g /\ MatIs (rc_root b) r (rc_rank b) g).
Proof. exact (@ref_RectChol). Qed.
Print Assumptions C74_rectangular.

(** Two matrices with the same entries, each in its own memory and of its own
    kind: the eight constructors end alike on them, errors and panics
    included, and build tables with the same contents. *)
Theorem C74_entries_only : forall (O : Ops) h x h' x' r c f, HMatIs h x r c f -> HMatIs h' x' r c f ->
  (forall thr, alike (h_NewLU x thr) h (h_NewLU x' thr) h' (fun k a k' b =>
    view k (OM (hlu_lu a)) = view k' (OM (hlu_lu b)) /\ hlu_pivot a = hlu_pivot b /\ hlu_even a = hlu_even b /\ hlu_singular a = hlu_singular b)) /\
  (forall rel pos, alike (h_NewCholesky x rel pos) h (h_NewCholesky x' rel pos) h' (fun k a k' b => view k (OM a) = view k' (OM b))) /\
  alike (h_NewHessenberg x) h (h_NewHessenberg x') h' (fun k a k' b =>
    view k (OM (hhs_hv a)) = view k' (OM (hhs_hv b)) /\ view k (OF (hhs_ort a)) = view k' (OF (hhs_ort b))) /\
  alike (h_NewTriDiagonal x) h (h_NewTriDiagonal x') h' (fun k a k' b =>
    view k (OM (htd_hv a)) = view k' (OM (htd_hv b)) /\ view k (OF (htd_main a)) = view k' (OF (htd_main b)) /\ view k (OF (htd_sec a)) = view k' (OF (htd_sec b))) /\
  alike (h_NewBiDiagonal x) h (h_NewBiDiagonal x') h' (fun k a k' b =>
    view k (OM (htd_hv a)) = view k' (OM (htd_hv b)) /\ view k (OF (htd_main a)) = view k' (OF (htd_main b)) /\ view k (OF (htd_sec a)) = view k' (OF (htd_sec b))) /\
  (forall small, alike (h_NewRectChol x small) h (h_NewRectChol x' small) h' (fun k a k' b =>
    exists w g, HMatIs k a r w g /\ HMatIs k' b r w g)) /\
  (zero_like fzero ->
    alike (h_NewQR x) h (h_NewQR x') h' (fun k a k' b =>
      view k (OM (hqr_qrt a)) = view k' (OM (hqr_qrt b)) /\ view k (OF (hqr_rDiag a)) = view k' (OF (hqr_rDiag b))) /\
    alike (h_NewRRQR x) h (h_NewRRQR x') h' (fun k a k' b =>
      view k (OM (hrr_qrt a)) = view k' (OM (hrr_qrt b)) /\ view k (OF (hrr_rDiag a)) = view k' (OF (hrr_rDiag b)) /\ hrr_p a = hrr_p b)).
Proof. exact (@same_all). Qed.
Print Assumptions C74_entries_only.

(** Three memories in which a matrix has the rows [4,2] and [2,5] (the last one
    [4,0] and [0,5]): with rows of their own; with overlapping rows of one
    array [4,2,5]; and a DiagonalMatrix. *)
Definition sep : @heap E64 := mkHeap [fls [4; 2]; fls [2; 5]] [[mkSl 0 0 2 2; mkSl 1 0 2 2]].
Definition lap : @heap E64 := mkHeap [fls [4; 2; 5]] [[mkSl 0 0 2 3; mkSl 0 1 2 2]].
Definition ents (i j : Z) : @F E64 := if i =? j then (if i =? 0 then fl 4 else fl 5) else fl 2.
Lemma two_cases i : 0 <= i < 2 -> i = 0 \/ i = 1. Proof. lia. Qed.
Example C74_sep : HMatIs sep (HA (mkSl 0 0 2 2)) 2 2 ents.
Proof.
  cbn [HMatIs]. repeat split; try (cbn; lia). exists [fls [4; 2]; fls [2; 5]]. split; [|split].
  - split; [repeat constructor; cbn; lia|cbn; lia].
  - split; [reflexivity|]. intros i Hi. destruct (two_cases i Hi) as [-> | ->]; reflexivity.
  - intros i j Hi Hj. destruct (two_cases i Hi) as [-> | ->], (two_cases j Hj) as [-> | ->]; reflexivity.
Qed.
Example C74_lap : HMatIs lap (HA (mkSl 0 0 2 2)) 2 2 ents.
Proof.
  cbn [HMatIs]. repeat split; try (cbn; lia). exists [fls [4; 2]; fls [2; 5]]. split; [|split].
  - split; [repeat constructor; cbn; lia|cbn; lia].
  - split; [reflexivity|]. intros i Hi. destruct (two_cases i Hi) as [-> | ->]; reflexivity.
  - intros i j Hi Hj. destruct (two_cases i Hi) as [-> | ->], (two_cases j Hj) as [-> | ->]; reflexivity.
Qed.
Example C74_diag : HMatIs sep (HD (mkSl 1 0 2 2)) 2 2 (fun i j => if i =? j then nthZ (fls [2; 5]) i else @fzero E64).
Proof.
  split; [reflexivity|]. split; [lia|]. exists (nthZ (fls [2; 5])). split; [|reflexivity]. exists (fls [2; 5]). split; [|split; [reflexivity|]].
  - repeat split; cbn; lia.
  - intros j Hj. destruct (two_cases j Hj) as [-> | ->]; reflexivity.
Qed.
Example C74_float : @zero_like E64 fzero.
Proof. reflexivity. Qed.
(** The constructors do something on them: the LU rows are [4,2],[0.5,4]. *)
Example C74_run : match h_NewLU (HA (mkSl 0 0 2 2)) (@fzero E64) lap with
  (Ok d, h) => Some (view h (OM (hlu_lu d)), view h (OM (mkSl 0 0 2 2))) | _ => None end =
  Some ([fls [4; 2]; [@fdiv E64 (fl 1) (fl 2); fl 4]], flss [[4; 2]; [2; 5]]).
Proof. vm_compute. reflexivity. Qed.
Example C74_run_rrqr : match h_NewRRQR (HD (mkSl 1 0 2 2)) sep with
  (Ok d, h) => Some (view h (OF (hrr_rDiag d)), hrr_p d) | _ => None end = Some (flss [[5; -2]], [1; 0]).
Proof. vm_compute. reflexivity. Qed.

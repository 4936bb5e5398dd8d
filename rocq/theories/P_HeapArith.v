(** C78: arithmetic on matrices held in memory.  The operands may be the same
    object, share rows, or overlap; the right operand may be of any kind of the
    library.  [HTab h a r c f]: in memory [h] the dense matrix [a] has these
    dimensions and entries ([HMatIs]: a matrix of any kind; [HVecIs]: a vector).
    [fresh]: the call returns, with a result as described; nothing that was
    there has changed, and the result is independent of everything that was
    there.  In any arithmetic. *)
From Coq Require Import ZArith List Lia Bool.
From Verif Require Import Base BaseLemmas Scalar Vector Matrix VecSpec MatSpec Heap HeapSpec HeapFacts HeapDec HeapRefSpec HeapSolve HeapDecFacts HeapSolveFacts
  HeapArith HeapArithSpec HeapArithFacts HeapArithMain HeapArithProps Float64 ExampleOps P_HeapRef.
Import ListNotations.
Open Scope Z_scope.

(** Add, Subtract, ScalarAdd, ScalarMultiply of a dense matrix. *)
Theorem C78_entrywise : forall (O : Ops) h a m r c f g x, wfheap h -> HTab h a r c f -> HMatIs h m r c g ->
  fresh (h2_Add a m) OM h (fun h' o => HTab h' o r c (fun i j => (f i j + g i j)%f)) /\
  fresh (h2_Subtract a m) OM h (fun h' o => HTab h' o r c (fun i j => (f i j - g i j)%f)) /\
  fresh (h2_ScalarAdd a x) OM h (fun h' o => HTab h' o r c (fun i j => (f i j + x)%f)) /\
  fresh (h2_ScalarMultiply a x) OM h (fun h' o => HTab h' o r c (fun i j => (f i j * x)%f)).
Proof. exact (@arith_entries). Qed.
Print Assumptions C78_entrywise.
(** Multiply: the products are added from left to right. *)
Theorem C78_product : forall (O : Ops) h a m r n c f g, wfheap h -> HTab h a r n f -> HMatIs h m n c g ->
  fresh (h2_Multiply a m) OM h (fun h' o => HTab h' o r c (fun i j => fsum n (fun k => (f i k * g k j)%f))).
Proof. exact (@arith_product). Qed.
Print Assumptions C78_product.
(** Operate, OperateVector, PreMultiply, PreMultiplyVector; the vector may share
    storage with the matrix. *)
Theorem C78_vectors : forall (O : Ops) h a r c f v w g k, wfheap h -> HTab h a r c f -> HVecIs h v c g -> HVecIs h w r k ->
  fresh (h2_Operate a v) OF h (fun h' o => HVecIs h' o r (fun i => fsum c (fun j => (f i j * g j)%f))) /\
  fresh (h2_OperateVector a (HArr v)) OF h (fun h' o => HVecIs h' o r (fun i => fsum c (fun j => (f i j * g j)%f))) /\
  fresh (h2_PreMultiply a w) OF h (fun h' o => HVecIs h' o c (fun j => fsum r (fun i => (f i j * k i)%f))) /\
  fresh (h2_PreMultiplyVector a (HArr w)) OF h (fun h' o => HVecIs h' o c (fun j => fsum r (fun i => (f i j * k i)%f))).
Proof. exact (@arith_vectors). Qed.
Print Assumptions C78_vectors.
(** Trace reads the diagonal and leaves memory exactly as it was. *)
Theorem C78_trace : forall (O : Ops) h a n f, HTab h a n n f -> h2_Trace a h = (Ok (fsum n (fun i => f i i)), h).
Proof. exact (@m2_Trace). Qed.
Print Assumptions C78_trace.
(** Operands that do not fit: a panic, before anything is allocated. *)
Theorem C78_mismatch : forall (O : Ops) h a m r c f r' c' g, HTab h a r c f -> HMatIs h m r' c' g ->
  (r <> r' \/ c <> c' -> h2_Add a m h = (Panic EMatDimMismatch, h) /\ h2_Subtract a m h = (Panic EMatDimMismatch, h)) /\
  (c <> r' -> h2_Multiply a m h = (Panic EDimMismatch, h)).
Proof. exact (@arith_mismatch). Qed.
Print Assumptions C78_mismatch.
(** Whatever the operands and the outcome, panics included: nothing that was
    there changes, and a result shares nothing with what was there. *)
Theorem C78_separate : forall (O : Ops) (a : slice) (m : HMat) (x : F) (v : slice) (w : HVec),
  (separate (h2_Add a m) OM /\ separate (h2_Subtract a m) OM /\ separate (h2_Multiply a m) OM) /\
  (separate (h2_ScalarAdd a x) OM /\ separate (h2_ScalarMultiply a x) OM) /\
  (separate (h2_Operate a v) OF /\ separate (h2_PreMultiply a v) OF) /\
  (separate (h2_OperateVector a w) OF /\ separate (h2_PreMultiplyVector a w) OF).
Proof. exact (@arith_separate). Qed.
Print Assumptions C78_separate.
Theorem C78_separate_diagonal : forall (O : Ops) (d : slice) (m : HMat) (x : F) (v : slice) (w : HVec),
  (separate (hd_Add d m) OF /\ separate (hd_Subtract d m) OF /\ separate (hd_Multiply d m) hm_obj) /\
  (separate (hd_ScalarAdd d x) OF /\ separate (hd_ScalarMultiply d x) OF) /\
  (separate (hd_Operate d v) OF /\ separate (hd_OperateVector d w) OF /\ separate (hd_PreMultiplyVector d w) OF).
Proof. exact (@arith_separate_diag). Qed.
Print Assumptions C78_separate_diagonal.
(** Equal entries give equal results: two memories, operands stored differently
    in them, the right ones perhaps of different kinds. *)
Theorem C78_entries_only : forall (O : Ops) h a h' a' r c f m m' r2 c2 g,
  HTab h a r c f -> HTab h' a' r c f -> HMatIs h m r2 c2 g -> HMatIs h' m' r2 c2 g ->
  alike (h2_Add a m) h (h2_Add a' m') h' (fun k x k' y => view k (OM x) = view k' (OM y)) /\
  alike (h2_Subtract a m) h (h2_Subtract a' m') h' (fun k x k' y => view k (OM x) = view k' (OM y)) /\
  alike (h2_Multiply a m) h (h2_Multiply a' m') h' (fun k x k' y => view k (OM x) = view k' (OM y)).
Proof. exact (@arith_alike). Qed.
Print Assumptions C78_entries_only.
(** Diagonal matrices with each other, on the left of another matrix, and with
    vectors.  OperateVector of a vector that is not an ArrayRealVector adds up
    whole rows. *)
Theorem C78_diagonal : forall (O : Ops) h d e n f g, wfheap h -> 1 <= n -> HVecIs h d n f -> HVecIs h e n g ->
  fresh (hd_Add d (HD e)) OF h (fun h' o => HVecIs h' o n (fun i => (f i + g i)%f)) /\
  fresh (hd_Subtract d (HD e)) OF h (fun h' o => HVecIs h' o n (fun i => (f i - g i)%f)) /\
  fresh (hd_Multiply d (HD e)) hm_obj h (fun h' o => exists s, o = HD s /\ HVecIs h' s n (fun i => (f i * g i)%f)).
Proof. exact (@arith_diag). Qed.
Print Assumptions C78_diagonal.
Theorem C78_diagonal_product : forall (O : Ops) h d m r c f g, wfheap h -> HVecIs h d r f -> HMatIs h m r c g -> (forall s, m <> HD s) ->
  fresh (hd_Multiply d m) hm_obj h (fun h' o => exists s, o = HA s /\ HTab h' s r c (fun i j => (f i * g i j)%f)).
Proof. exact (@arith_diag_table). Qed.
Print Assumptions C78_diagonal_product.
Theorem C78_diagonal_vectors : forall (O : Ops) h d n f v g, wfheap h -> 1 <= n -> HVecIs h d n f -> HVIs h v n g ->
  fresh (hd_PreMultiplyVector d v) OF h (fun h' o => HVecIs h' o n (fun i => (f i * g i)%f)) /\
  fresh (hd_OperateVector d v) OF h (fun h' o => HVecIs h' o n (match v with HArr _ => fun i => (f i * g i)%f
    | HOther _ => fun i => fsum n (fun k => ((if (i =? k)%Z then f i else fzero) * g k)%f) end)) /\
  (forall s, v = HArr s -> fresh (hd_Operate d s) OF h (fun h' o => HVecIs h' o n (fun i => (f i * g i)%f))).
Proof. exact (@arith_diag_vector). Qed.
Print Assumptions C78_diagonal_vectors.
(** Expressions of any depth over matrices in memory ([run] makes the calls,
    [means] says which matrix the expression stands for): evaluating one gives
    the matrix it stands for, and changes none of its leaves. *)
Theorem C78_expressions : forall (O : Ops) h e r c f, wfheap h -> means h e r c f ->
  exists x h', run e h = (Ok x, h') /\ HMatIs h' x r c f /\ only_adds h h' /\ wfheap h'.
Proof. exact (@run_expression). Qed.
Print Assumptions C78_expressions.

(** The matrix with rows [4,2] and [2,5], stored in overlapping rows of one
    array, with itself: A+A, A-A, A*A, A+1, 3A; A is as before. *)
Definition mA : slice := mkSl 0 0 2 2.
Example C78_overlap_wf : wfheap lap.
Proof.
  intros b l s E Hs. pose proof (zget_range _ _ _ E) as Hb. cbn in Hb. replace b with 0 in E by lia. cbn in E. injection E as <-.
  destruct Hs as [<-|[<-|[]]]; cbn; lia.
Qed.
Definition seen (p : res slice * @heap E64) : option (list (list (@F E64)) * list (list (@F E64))) :=
  match p with (Ok o, h) => Some (view h (OM o), view h (OM mA)) | _ => None end.
Definition seenv (p : res slice * @heap E64) : option (list (list (@F E64)) * list (list (@F E64))) :=
  match p with (Ok o, h) => Some (view h (OF o), view h (OM mA)) | _ => None end.
Example C78_overlap : map seen [h2_Add mA (HA mA) lap; h2_Subtract mA (HA mA) lap; h2_Multiply mA (HA mA) lap; h2_ScalarAdd mA (fl 1) lap; h2_ScalarMultiply mA (fl 3) lap] =
  map (fun l => Some (flss l, flss [[4; 2]; [2; 5]])) [[[8; 4]; [4; 10]]; [[0; 0]; [0; 0]]; [[20; 18]; [18; 29]]; [[5; 3]; [3; 6]]; [[12; 6]; [6; 15]]].
Proof. vm_compute. reflexivity. Qed.
(** A vector that is a row of the matrix. *)
Example C78_row : map seenv [h2_Operate mA (mkSl 0 1 2 2) lap; h2_PreMultiply mA (mkSl 0 0 2 3) lap; h2_PreMultiplyVector mA (HArr (mkSl 0 0 2 3)) lap;
    hd_Operate (mkSl 0 0 2 3) (mkSl 0 1 2 2) lap; hd_OperateVector (mkSl 0 0 2 3) (HOther (fls [2; 5])) lap] =
  map (fun l => Some (flss l, flss [[4; 2]; [2; 5]])) [[[18; 29]]; [[20; 18]]; [[20; 18]]; [[8; 10]]; [[8; 10]]].
Proof. vm_compute. reflexivity. Qed.
(** A diagonal matrix on the right, on the left, and with itself. *)
Example C78_diag_case : (seen (h2_Multiply mA (HD (mkSl 0 1 2 2)) lap),
  seen (match hd_Multiply (mkSl 0 1 2 2) (HA mA) lap with (Ok (HA o), h) => (Ok o, h) | (_, h) => (Panic ERuntime, h) end),
  seenv (match hd_Multiply (mkSl 0 1 2 2) (HD (mkSl 0 0 2 2)) lap with (Ok (HD o), h) => (Ok o, h) | (_, h) => (Panic ERuntime, h) end)) =
  (Some (flss [[8; 10]; [4; 25]], flss [[4; 2]; [2; 5]]), Some (flss [[8; 4]; [10; 25]], flss [[4; 2]; [2; 5]]), Some (flss [[8; 10]], flss [[4; 2]; [2; 5]])).
Proof. vm_compute. reflexivity. Qed.
(** The vector is the row of [lap]; the diagonal matrix holds it. *)
Example C78_row_is : HVecIs lap (mkSl 0 1 2 2) 2 (nthZ (fls [2; 5])).
Proof. exists (fls [2; 5]). split; [repeat split; cbn; lia|]. split; [reflexivity|]. intros j Hj. destruct (two_cases j Hj) as [-> | ->]; reflexivity. Qed.
(** (A + A) * A^T - 3A, over overlapping storage. *)
Definition exA : @mexp E64 := Minus (Times (Plus (Leaf (HA mA)) (Leaf (HA mA))) (Turn (Leaf (HA mA)))) (Scale (Leaf (HA mA)) (fl 3)).
Example C78_means : exists f, means lap exA 2 2 f.
Proof.
  pose proof C74_lap as HL. eexists. unfold exA. apply me_minus; [|apply me_scale; [apply me_leaf; exact HL|exact I]|exact I].
  eapply me_times; [apply me_plus; [apply me_leaf; exact HL|apply me_leaf; exact HL|exact I]|apply me_turn; [apply me_leaf; exact HL|exact I]|exact I].
Qed.
Example C78_run : match run exA lap with (Ok (HA o), h) => seen (Ok o, h) | _ => None end = Some (flss [[28; 30]; [30; 43]], flss [[4; 2]; [2; 5]]).
Proof. vm_compute. reflexivity. Qed.

(** C78 continued: arithmetic of a BlockRealMatrix held in memory.  [HBlkIs h b r
    c f]: in memory [h] the block matrix [b] has these dimensions and entries.
    The operands may be the same object or share blocks; the right operand may be
    of any kind of the library, and a vector may be part of a block.  In any
    arithmetic. *)
From Coq Require Import ZArith List Lia Bool.
From Verif Require Import Base BaseLemmas Scalar Vector Matrix VecSpec MatSpec Heap HeapSpec HeapFacts HeapDec HeapRefSpec HeapSolve HeapDecFacts HeapSolveFacts
  HeapArith HeapBlkArith HeapBlkArithSpec HeapBlkArithProps Float64 ExampleOps P_Heap P_HeapRef.
Import ListNotations.
Open Scope Z_scope.

(** Add, Subtract, ScalarAdd, ScalarMultiply. *)
Theorem C78_block_entrywise : forall (O : Ops) h b m r c f g x, wfheap h -> HBlkIs h b r c f -> HMatIs h m r c g ->
  fresh (hb_Add b m) (fun o => OM (hb_blocks o)) h (fun h' o => HBlkIs h' o r c (fun i j => (f i j + g i j)%f)) /\
  fresh (hb_Subtract b m) (fun o => OM (hb_blocks o)) h (fun h' o => HBlkIs h' o r c (fun i j => (f i j - g i j)%f)) /\
  fresh (hb_ScalarAdd b x) (fun o => OM (hb_blocks o)) h (fun h' o => HBlkIs h' o r c (fun i j => (f i j + x)%f)) /\
  fresh (hb_ScalarMultiply b x) (fun o => OM (hb_blocks o)) h (fun h' o => HBlkIs h' o r c (fun i j => (f i j * x)%f)).
Proof. exact (@blk_entries). Qed.
Print Assumptions C78_block_entrywise.
(** Multiply: one partial sum for every block; within a block the products are
    added four at a time if the other matrix is a block matrix too, and one at a
    time otherwise. *)
Theorem C78_block_product : forall (O : Ops) h b m r n c f g, wfheap h -> HBlkIs h b r n f -> HMatIs h m n c g ->
  fresh (hb_Multiply b m) (fun o => OM (hb_blocks o)) h
    (fun h' o => HBlkIs h' o r c (fun i j => sum_blocks (match m with HB _ => sum_fours | _ => fsum end) n (fun k => (f i k * g k j)%f))).
Proof. exact (@blk_product). Qed.
Print Assumptions C78_block_product.
(** Operate, OperateVector, PreMultiply, PreMultiplyVector. *)
Theorem C78_block_vectors : forall (O : Ops) h b r c f v w g k, wfheap h -> HBlkIs h b r c f -> HVecIs h v c g -> HVecIs h w r k ->
  (fresh (hb_Operate b v) OF h (fun h' o => HVecIs h' o r (fun i => sum_blocks sum_fours c (fun j => (f i j * g j)%f))) /\
   fresh (hb_OperateVector b (HArr v)) OF h (fun h' o => HVecIs h' o r (fun i => sum_blocks sum_fours c (fun j => (f i j * g j)%f)))) /\
  (fresh (hb_PreMultiply b w) OF h (fun h' o => HVecIs h' o c (fun j => sum_blocks sum_fours r (fun i => (f i j * k i)%f))) /\
   fresh (hb_PreMultiplyVector b (HArr w)) OF h (fun h' o => HVecIs h' o c (fun j => sum_blocks sum_fours r (fun i => (f i j * k i)%f)))).
Proof. exact (@blk_vectors). Qed.
Print Assumptions C78_block_vectors.
(** Trace reads the diagonal and leaves memory exactly as it was. *)
Theorem C78_block_trace : forall (O : Ops) h b n f, HBlkIs h b n n f -> hb_Trace b h = (Ok (fsum n (fun i => f i i)), h).
Proof. exact (@blk_trace). Qed.
Print Assumptions C78_block_trace.
(** Operands that do not fit: a panic, before anything is allocated. *)
Theorem C78_block_mismatch : forall (O : Ops) h b m r c f r' c' g v n k, HBlkIs h b r c f -> HMatIs h m r' c' g -> HVecIs h v n k ->
  ((r <> r' \/ c <> c' -> hb_Add b m h = (Panic EMatDimMismatch, h) /\ hb_Subtract b m h = (Panic EMatDimMismatch, h)) /\
   (c <> r' -> hb_Multiply b m h = (Panic EDimMismatch, h))) /\
  (n <> c -> hb_Operate b v h = (Panic EDimMismatch, h)) /\
  (n <> r -> hb_PreMultiply b v h = (Panic EDimMismatch, h)) /\
  (r <> c -> hb_Trace b h = (Panic ENonSquare, h)).
Proof. exact (@blk_mismatch). Qed.
Print Assumptions C78_block_mismatch.
(** Whatever the operands and the outcome, panics included: nothing that was
    there changes, and a result shares nothing with what was there. *)
Theorem C78_block_separate : forall (O : Ops) (b : HBlk) (m : HMat) (x : F) (v : slice) (w : HVec),
  (separate (hb_Add b m) (fun o => OM (hb_blocks o)) /\ separate (hb_Subtract b m) (fun o => OM (hb_blocks o)) /\ separate (hb_Multiply b m) (fun o => OM (hb_blocks o))) /\
  (separate (hb_ScalarAdd b x) (fun o => OM (hb_blocks o)) /\ separate (hb_ScalarMultiply b x) (fun o => OM (hb_blocks o))) /\
  (separate (hb_Operate b v) OF /\ separate (hb_PreMultiply b v) OF) /\
  (separate (hb_OperateVector b w) OF /\ separate (hb_PreMultiplyVector b w) OF).
Proof. exact (@blk_separate). Qed.
Print Assumptions C78_block_separate.

(** The block matrix with rows [5,6] and [7,8] of P_Heap.v. *)
#[local] Existing Instance E64.
Example C78_blk_is : HBlkIs hx bx 2 2 (fun i j => nthZ (nthZ (flss [[5; 6]; [7; 8]]) i) j).
Proof.
  exists [fls [5; 6; 7; 8]]. split; [split; [repeat constructor; cbn; lia|split; cbn; lia]|]. do 4 (split; [reflexivity|]).
  split; [|split; [reflexivity|split; [reflexivity|split]]].
  - cbn. do 5 (split; [lia|]). intros I J HI HJ. replace I with 0 by lia. replace J with 0 by lia. reflexivity.
  - intros i j Hi Hj. destruct (two_cases i Hi) as [-> | ->], (two_cases j Hj) as [-> | ->]; vm_compute; reflexivity.
  - intros i j H. cbn [m_At]. unfold b_At, checkMatrixIndex, checkRowIndex, checkColumnIndex. cbn.
    destruct (Z.ltb_spec i 0); [eexists; reflexivity|]. destruct (Z.leb_spec 2 i); [eexists; reflexivity|]. cbn.
    destruct (Z.ltb_spec j 0); [eexists; reflexivity|]. destruct (Z.leb_spec 2 j); [eexists; reflexivity|]. exfalso. lia.
Qed.
Definition bseen (p : res HBlk * heap) : option (list (list F) * list (list F)) :=
  match p with (Ok o, h) => Some (view h (OM (hb_blocks o)), view h (OM (hb_blocks bx))) | _ => None end.
Definition vseen (p : res slice * heap) : option (list (list F) * list (list F)) :=
  match p with (Ok o, h) => Some (view h (OF o), view h (OM (hb_blocks bx))) | _ => None end.
(** With itself, with the dense matrix with rows [1,2] and [3,4], and with a
    diagonal matrix whose storage is inside the block. *)
Example C78_blk_self : map bseen [hb_Add bx (HB bx) hx; hb_Subtract bx (HA ax) hx; hb_Multiply bx (HB bx) hx; hb_Multiply bx (HA ax) hx;
    hb_Multiply bx (HD sx) hx; hb_ScalarAdd bx (fl 1) hx; hb_ScalarMultiply bx (fl 3) hx] =
  map (fun l => Some (flss [l], flss [[5; 6; 7; 8]]))
    [[10; 12; 14; 16]; [4; 4; 4; 4]; [67; 78; 91; 106]; [23; 34; 31; 46]; [30; 42; 42; 56]; [6; 7; 8; 9]; [15; 18; 21; 24]].
Proof. vm_compute. reflexivity. Qed.
(** The vector [6,7] is the middle of the block. *)
Example C78_blk_vec : map vseen [hb_Operate bx sx hx; hb_OperateVector bx (HArr sx) hx; hb_PreMultiply bx sx hx; hb_PreMultiplyVector bx (HArr sx) hx] =
  map (fun l => Some (flss [l], flss [[5; 6; 7; 8]])) [[72; 98]; [72; 98]; [79; 92]; [79; 92]].
Proof. vm_compute. reflexivity. Qed.
(** 54 rows, hence two blocks: a column of ones. *)
Definition tall : heap := mkHeap [repeat (fl 1) 52; repeat (fl 1) 2; repeat (fl 1) 54; fls [3]] [[mkSl 0 0 52 52; mkSl 1 0 2 2]].
Definition btall : HBlk := mkHBlk (mkSl 0 0 2 2) 54 1 2 1.
Example C78_blk_two : (match hb_PreMultiply btall (mkSl 2 0 54 54) tall with (Ok o, h) => view h (OF o) | _ => [] end,
  match hb_Operate btall (mkSl 3 0 1 1) tall with (Ok o, h) => view h (OF o) | _ => [] end,
  match hb_Add btall (HB btall) tall with (Ok o, h) => view h (OM (hb_blocks o)) | _ => [] end) =
  (flss [[54]], [repeat (fl 3) 54], [repeat (fl 2) 52; repeat (fl 2) 2]).
Proof. vm_compute. reflexivity. Qed.

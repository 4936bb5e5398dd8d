(** Storage: C36, C37, C54.  Heap.v models slices, the arrays behind them and the
    methods that copy, share or write; HeapSpec.v says what sharing means.
    All theorems hold in any arithmetic, float64 included. *)
From Coq Require Import ZArith List Lia Bool.
From Verif Require Import Base BaseLemmas Scalar Matrix MatSpec Heap HeapSpec HeapProps HeapMain Float64 ExampleOps.
Import ListNotations.
Open Scope Z_scope.

(** C36.  Every one of these methods returns new storage holding the right
    values, leaves all that exists as it was, and its result is independent of
    all that existed: no action through the one is ever seen through the other. *)
Theorem C36_array : forall (O : Ops) h a r c f, wfheap h -> HTab h a r c f ->
  fresh (h2_Copy a) OM h (fun h' o => HTab h' o r c f) /\
  fresh (h2_Data a) OM h (fun h' o => HTab h' o r c f) /\
  fresh (h2_FromSlices a true) OM h (fun h' o => HTab h' o r c f) /\
  fresh (h2_Transpose a) OM h (fun h' o => HTab h' o c r (fun i j => f j i)) /\
  (forall i, 0 <= i < r ->
    fresh (h2_RowAt a i) OF h (fun h' s => HVecIs h' s c (f i)) /\
    fresh (h2_RowVectorAt a i) OF h (fun h' s => HVecIs h' s c (f i)) /\
    fresh (h2_RowMatrixAt a i) OM h (fun h' o => HTab h' o 1 c (fun _ j => f i j))) /\
  (forall j, 0 <= j < c ->
    fresh (h2_ColumnAt a j) OF h (fun h' s => HVecIs h' s r (fun i => f i j)) /\
    fresh (h2_ColumnVectorAt a j) OF h (fun h' s => HVecIs h' s r (fun i => f i j)) /\
    fresh (h2_ColumnMatrixAt a j) OM h (fun h' o => HTab h' o r 1 (fun i _ => f i j))) /\
  (forall r0 r1 c0 c1, 0 <= r0 <= r1 -> r1 < r -> 0 <= c0 <= c1 -> c1 < c ->
    fresh (h2_SubMatrix a r0 r1 c0 c1) OM h (fun h' o => HTab h' o (r1 - r0 + 1) (c1 - c0 + 1) (fun i j => f (r0 + i) (c0 + j)))).
Proof. exact (@C36_arr). Qed.
Print Assumptions C36_array.
Theorem C36_block : forall (O : Ops) h b r c f, wfheap h -> HBlkIs h b r c f ->
  fresh (hb_Copy b) (fun b => OM (hb_blocks b)) h (fun h' o => HBlkIs h' o r c f) /\
  fresh (hb_Data b) OM h (fun h' o => HTab h' o r c f) /\
  (forall i, 0 <= i < r -> fresh (hb_RowAt b i) OF h (fun h' s => HVecIs h' s c (f i))) /\
  (forall j, 0 <= j < c -> fresh (hb_ColumnAt b j) OF h (fun h' s => HVecIs h' s r (fun i => f i j))) /\
  (forall r0 r1 c0 c1, 0 <= r0 <= r1 -> r1 < r -> 0 <= c0 <= c1 -> c1 < c ->
    fresh (hb_SubMatrix b r0 r1 c0 c1) (fun b => OM (hb_blocks b)) h
      (fun h' o => HBlkIs h' o (r1 - r0 + 1) (c1 - c0 + 1) (fun i j => f (r0 + i) (c0 + j)))).
Proof. exact (@C36_blk). Qed.
Print Assumptions C36_block.
Theorem C36_block_from_slices : forall (O : Ops) h a r c f, wfheap h -> HTab h a r c f ->
  fresh (hb_FromSlices a) (fun b => OM (hb_blocks b)) h (fun h' o => HBlkIs h' o r c f).
Proof. exact (@C36_blk_from). Qed.
Print Assumptions C36_block_from_slices.
Theorem C36_diagonal : forall (O : Ops) h s n g, wfheap h -> HVecIs h s n g -> sl_arr s <> -1 ->
  fresh (hd_New s true) OF h (fun h' t => HVecIs h' t n g) /\
  fresh (hd_Copy s) OF h (fun h' t => HVecIs h' t n g) /\
  (1 <= n -> fresh (hd_Data s) OM h (fun h' o => HTab h' o n n (fun i j => if i =? j then g i else fzero))) /\
  (forall i, 0 <= i < n ->
    fresh (hd_RowAt s i) OF h (fun h' t => HVecIs h' t n (fun j => if i =? j then g i else fzero)) /\
    fresh (hd_ColumnAt s i) OF h (fun h' t => HVecIs h' t n (fun j => if j =? i then g j else fzero))).
Proof. exact (@C36_diag). Qed.
Print Assumptions C36_diagonal.
Theorem C36_vector : forall (O : Ops) h s n g, wfheap h -> HVecIs h s n g ->
  fresh (h_Copy s) OF h (fun h' t => HVecIs h' t n g) /\
  fresh (h_ToArray s) OF h (fun h' t => HVecIs h' t n g) /\
  (sl_arr s <> -1 -> fresh (h_NewArrayRealVector s true) OF h (fun h' t => HVecIs h' t n g)) /\
  (forall i m, 0 <= i -> 1 <= m -> i + m <= n -> fresh (h_SubVector s i m) OF h (fun h' t => HVecIs h' t m (fun j => g (i + j)))) /\
  (forall x, fresh (h_Append s x) OF h (fun h' t => HVecIs h' t (n + 1) (fun i => if i <? n then g i else x))) /\
  (forall t m e, HVecIs h t m e -> fresh (h_FromTwo s t) OF h (fun h' u => HVecIs h' u (n + m) (fun i => if i <? n then g i else e (i - n)))) /\
  (forall v e, HVIs h v n e -> fresh (h_Add s v) OF h (fun h' u => HVecIs h' u n (fun i => (g i + e i)%f))) /\
  (forall v m e, HVIs h v m e -> fresh (h_NewArrayRealVectorCopy v) OF h (fun h' u => HVecIs h' u m e)).
Proof. exact (@C36_vec). Qed.
Print Assumptions C36_vector.
(** For any arguments, ragged or out of range included, and any outcome, an
    error or a panic included: nothing that exists changes, and the result, if
    there is one, is independent of all that existed. *)
Theorem C36_any_outcome : forall (O : Ops),
  (forall a, separate (h2_Copy a) OM /\ separate (h2_Data a) OM /\ separate (h2_Transpose a) OM /\ separate (h2_FromSlices a true) OM) /\
  (forall a i, separate (h2_RowAt a i) OF /\ separate (h2_ColumnAt a i) OF /\ separate (h2_RowVectorAt a i) OF /\ separate (h2_ColumnVectorAt a i) OF /\
     separate (h2_RowMatrixAt a i) OM /\ separate (h2_ColumnMatrixAt a i) OM) /\
  (forall a r0 r1 c0 c1, separate (h2_SubMatrix a r0 r1 c0 c1) OM) /\
  (forall b, separate (hb_Copy b) (fun b => OM (hb_blocks b)) /\ separate (hb_Data b) OM) /\
  (forall a, separate (hb_FromSlices a) (fun b => OM (hb_blocks b))) /\
  (forall b i, separate (hb_RowAt b i) OF /\ separate (hb_ColumnAt b i) OF) /\
  (forall b r0 r1 c0 c1, separate (hb_SubMatrix b r0 r1 c0 c1) (fun b => OM (hb_blocks b))) /\
  (forall d, separate (hd_New d true) OF /\ separate (hd_Copy d) OF /\ separate (hd_Data d) OM) /\
  (forall d i, separate (hd_RowAt d i) OF /\ separate (hd_ColumnAt d i) OF) /\
  (forall v, separate (h_NewArrayRealVectorCopy v) OF) /\
  (forall s, separate (h_Copy s) OF /\ separate (h_ToArray s) OF /\ separate (h_NewArrayRealVector s true) OF) /\
  (forall s i n, separate (h_SubVector s i n) OF) /\
  (forall s t, separate (h_FromTwo s t) OF) /\ (forall s x, separate (h_Append s x) OF) /\ (forall s v, separate (h_Add s v) OF).
Proof. exact (@C36_sep). Qed.
Print Assumptions C36_any_outcome.
(** The methods that write do nothing but act through what they are called on,
    whatever their arguments and outcome ... *)
Theorem C36_writers : forall (O : Ops),
  (forall s i x, writes (OF s) (h_SetEntry s i x) /\ writes (OF s) (h_AddToEntry s i x)) /\
  (forall s x, writes (OF s) (h_Set s x)) /\ (forall s f, writes (OF s) (h_Map s f)) /\
  (forall s i d, writes (OF s) (h_SetSubVectorWithSlice s i d)) /\ (forall s i v, writes (OF s) (h_SetSubVector s i v)) /\
  (forall s v, writes (OF s) (h_CopyFrom s v)) /\ (forall s a b v, writes (OF s) (h_Combine s a b v)) /\
  (forall s i x, writes (OF s) (wrF s i x)) /\ (forall a i j x, writes (OM a) (wr2 a i j x)) /\
  (forall a i j x, writes (OM a) (h2_SetEntry a i j x) /\ writes (OM a) (h2_AddToEntry a i j x) /\ writes (OM a) (h2_MultiplyEntry a i j x)) /\
  (forall a i d, writes (OM a) (h2_SetRow a i d) /\ writes (OM a) (h2_SetColumn a i d)) /\
  (forall a d i j, sl_arr a <> -1 -> writes (OM a) (h2_SetSubMatrix a d i j)) /\
  (forall s i j x, writes (OF s) (hd_SetEntry s i j x) /\ writes (OF s) (hd_AddToEntry s i j x) /\ writes (OF s) (hd_MultiplyEntry s i j x)) /\
  (forall s i d, writes (OF s) (hd_SetRow s i d) /\ writes (OF s) (hd_SetColumn s i d)) /\
  (forall b i j x, writes (OM (hb_blocks b)) (hb_SetEntry b i j x) /\ writes (OM (hb_blocks b)) (hb_AddToEntry b i j x) /\
     writes (OM (hb_blocks b)) (hb_MultiplyEntry b i j x)).
Proof. exact (@C36_wr). Qed.
Print Assumptions C36_writers.
(** ... so with independent [x] and [y], after any number of calls on the two in
    any order, a call that writes the one does not change the other. *)
Theorem C36_histories : forall (O : Ops) h x y, independent h x y -> forall h1, history x y h h1 ->
  forall A (m : M A) r h2, m h1 = (r, h2) -> (writes x m -> view h2 y = view h1 y) /\ (writes y m -> view h2 x = view h1 x).
Proof. exact (@C36_hist). Qed.
Print Assumptions C36_histories.
(** [HTab], [HVecIs] and [HBlkIs] say what At returns. *)
Theorem C36_reads : forall (O : Ops) h,
  (forall a r c f i j, HTab h a r c f -> 0 <= i < r -> 0 <= j < c -> h2_At a i j h = (Ok (f i j), h)) /\
  (forall b r c f i j, HBlkIs h b r c f -> 0 <= i < r -> 0 <= j < c -> hb_At b i j h = (Ok (f i j), h)) /\
  (forall s n g i j, HVecIs h s n g -> 0 <= i < n -> 0 <= j < n -> hd_At s i j h = (Ok (if i =? j then g i else fzero), h)) /\
  (forall v n g i, HVIs h v n g -> 0 <= i < n -> hv_At v i h = (Ok (g i), h)).
Proof.
  exact (fun O h => conj (@m2_At O h) (conj (@mb_At O h) (conj (@md_At O h) (@HeapVec.HVIs_At O h)))).
Qed.
Print Assumptions C36_reads.
(** The reference accessors and constructors share: what is written through the
    one is read through the other. *)
Theorem C36_shares_array : forall (O : Ops) h a r c f, HTab h a r c f -> exists t, h2_FromSlices a false h = (Ok t, h) /\
  forall i j x, 0 <= i < r -> 0 <= j < c ->
    (exists h', h2_SetEntry t i j x h = (Ok tt, h') /\ rd2 a i j h' = (Ok x, h') /\ rd2 (h2_DataRef t) i j h' = (Ok x, h')) /\
    (exists h', wr2 a i j x h = (Ok tt, h') /\ h2_At t i j h' = (Ok x, h')) /\
    (exists h', wr2 (h2_DataRef t) i j x h = (Ok tt, h') /\ h2_At t i j h' = (Ok x, h')).
Proof. exact (@sh_arr). Qed.
Print Assumptions C36_shares_array.
Theorem C36_shares_vector : forall (O : Ops) h s n g, HVecIs h s n g -> sl_arr s <> -1 -> exists t, h_NewArrayRealVector s false h = (Ok t, h) /\
  forall i x, 0 <= i < n ->
    (exists h', h_SetEntry t i x h = (Ok tt, h') /\ rdF s i h' = (Ok x, h') /\ rdF (h_DataRef t) i h' = (Ok x, h')) /\
    (exists h', wrF s i x h = (Ok tt, h') /\ hv_At (HArr t) i h' = (Ok x, h')) /\
    (exists h', wrF (h_DataRef t) i x h = (Ok tt, h') /\ hv_At (HArr t) i h' = (Ok x, h')).
Proof. exact (@sh_vec). Qed.
Print Assumptions C36_shares_vector.
Theorem C36_shares_diagonal : forall (O : Ops) h s n g, HVecIs h s n g -> sl_arr s <> -1 -> exists t, hd_New s false h = (Ok t, h) /\
  forall i x, 0 <= i < n ->
    (exists h', hd_SetEntry t i i x h = (Ok tt, h') /\ rdF s i h' = (Ok x, h') /\ rdF (hd_DataRef t) i h' = (Ok x, h')) /\
    (exists h', wrF s i x h = (Ok tt, h') /\ hd_At t i i h' = (Ok x, h')) /\
    (exists h', wrF (hd_DataRef t) i x h = (Ok tt, h') /\ hd_At t i i h' = (Ok x, h')).
Proof. exact (@sh_diag). Qed.
Print Assumptions C36_shares_diagonal.
(** NewBlockRealMatrixFromBlockData, whose documentation says nothing about it,
    shares the blocks it is given. *)
Theorem C36_shares_block : forall (O : Ops) h b0 r c f, HBlkIs h b0 r c f -> exists b, hb_FromBlockData r c (hb_blocks b0) h = (Ok b, h) /\ HBlkIs h b r c f /\
  forall i j x, 0 <= i < r -> 0 <= j < c ->
    (exists h', hb_SetEntry b i j x h = (Ok tt, h') /\ hb_At b0 i j h' = (Ok x, h')) /\
    (exists h', hb_SetEntry b0 i j x h = (Ok tt, h') /\ hb_At b i j h' = (Ok x, h')).
Proof. exact (@sh_blk). Qed.
Print Assumptions C36_shares_block.

#[local] Existing Instance E64.
Definition hx : heap := mkHeap [fls [1; 2]; fls [9; 3; 4]; fls [5; 6; 7; 8]] [[mkSl 0 0 2 2; mkSl 1 1 2 2]; [mkSl 2 0 4 4]].
Definition ax : slice := mkSl 0 0 2 2.
Definition bx : HBlk := mkHBlk (mkSl 1 0 1 1) 2 2 1 1.
Definition sx : slice := mkSl 2 1 2 3.
Example C36_ex_heap : wfheap hx.
Proof.
  intros b l s Hb Hs. apply HeapFacts.zget_In in Hb. cbn in Hb. destruct Hb as [<-|[<-|[]]]; cbn in Hs;
  repeat (destruct Hs as [<-|Hs]; [cbn; lia|]); destruct Hs.
Qed.
Example C36_ex_array : exists f, HTab hx ax 2 2 f /\ f 0 0 = fl 1 /\ f 0 1 = fl 2 /\ f 1 0 = fl 3 /\ f 1 1 = fl 4.
Proof.
  exists (fun i j => nthZ (nthZ (flss [[1; 2]; [3; 4]]) i) j). repeat split; cbn; try lia. exists (flss [[1; 2]; [3; 4]]). split; [|split].
  - split; [|split; cbn; lia]. repeat constructor; cbn; lia.
  - split; [reflexivity|]. intros i Hi. assert (i = 0 \/ i = 1) as [-> | ->] by lia; reflexivity.
  - intros i j Hi Hj. assert (i = 0 \/ i = 1) as [-> | ->] by lia; assert (j = 0 \/ j = 1) as [-> | ->] by lia; reflexivity.
Qed.
Example C36_ex_vector : exists g, HVecIs hx sx 2 g /\ g 0 = fl 6 /\ g 1 = fl 7.
Proof.
  exists (nthZ (fls [6; 7])). repeat split; cbn; try lia. exists (fls [6; 7]). split; [repeat split; cbn; lia|]. split; [reflexivity|].
  intros j Hj. assert (j = 0 \/ j = 1) as [-> | ->] by lia; reflexivity.
Qed.
Example C36_ex_blk : exists h b f, wfheap h /\ HBlkIs h b 2 2 f /\ f 1 0 = fl 3.
Proof.
  destruct C36_ex_array as (f & H & _ & _ & E & _). destruct (C36_block_from_slices _ hx ax 2 2 f C36_ex_heap H) as (b & h & _ & HB & _ & Hw & _).
  exists h, b, f. auto.
Qed.
Definition runh {A} (m : M A) (h : heap) : res A := fst (m h).
(** A copy, then writes on both sides. *)
Example C36_ex_copy : runh (let! c := h2_Copy ax in let! _ := h2_SetEntry ax 0 0 (fl 70) in let! _ := h2_SetEntry c 1 1 (fl 80) in
  let! w := h2_At ax 0 0 in let! x := h2_At ax 1 1 in let! y := h2_At c 0 0 in let! z := h2_At c 1 1 in ret [w; x; y; z]) hx
  = Ok (fls [70; 4; 1; 80]).
Proof. vm_compute. reflexivity. Qed.
Example C36_ex_block : runh (let! c := hb_Copy bx in let! _ := hb_SetEntry bx 0 0 (fl 70) in let! _ := hb_SetEntry c 1 1 (fl 80) in
  let! w := hb_At bx 0 0 in let! x := hb_At bx 1 1 in let! y := hb_At c 0 0 in let! z := hb_At c 1 1 in ret [w; x; y; z]) hx
  = Ok (fls [70; 8; 5; 80]).
Proof. vm_compute. reflexivity. Qed.
(** DataRef, then a write. *)
Example C36_ex_ref : runh (let! _ := wr2 (h2_DataRef ax) 1 0 (fl 70) in h2_At ax 1 0) hx = Ok (fl 70).
Proof. vm_compute. reflexivity. Qed.

(** C37: SetSubVectorWithSlice stores the values as they were before the call,
    wherever in memory they are, and changes nothing else. *)
Theorem C37_slice : forall (O : Ops) h s i v, inheap h s -> inheap h v -> 0 <= i -> 1 <= sl_len v -> i + sl_len v <= sl_len s ->
  exists h', h_SetSubVectorWithSlice s i v h = (Ok tt, h') /\ stored h h' s i (sl_len v) (vval h (HArr v)).
Proof. exact (@sub_with). Qed.
Print Assumptions C37_slice.
(** So does SetSubVector if the values are not in the places written, or are
    exactly there.
    Missing: any other overlap, where the statement is false, see below. *)
Theorem C37_partial : forall (O : Ops) h s i v n, inheap h s -> vok h v -> hv_dim v = n -> 0 <= i -> 1 <= n -> i + n <= sl_len s ->
  apart_from s i n v \/ (exists t, v = HArr t /\ sl_arr t = sl_arr s /\ sl_off t = sl_off s + i) ->
  exists h', h_SetSubVector s i v h = (Ok tt, h') /\ stored h h' s i n (vval h v).
Proof. exact (@sub_apart). Qed.
Print Assumptions C37_partial.
(** With any other overlap the code copies twice, and the second time reads
    what the first has written: exactly this is stored. *)
Theorem C37_overlap : forall (O : Ops) h s i t n, inheap h s -> inheap h t -> sl_len t = n -> 0 <= i -> i + n <= sl_len s ->
  sl_arr t = sl_arr s -> 0 < Z.abs (sl_off t - (sl_off s + i)) < n ->
  exists h', h_SetSubVector s i (HArr t) h = (Ok tt, h') /\ stored h h' s i n (fun k =>
    let d := sl_off t - (sl_off s + i) in
    vval h (HArr t) (if 0 <? d then (if k + d <? n then k + d else k) else k mod (- d))).
Proof. exact (@sub_overlap). Qed.
Print Assumptions C37_overlap.
(** For every such layout the result is wrong as soon as two entries, the
    distance of the two vectors apart, differ. *)
Theorem C37_refuted : forall (O : Ops) h s i t n, inheap h s -> inheap h t -> sl_len t = n -> 0 <= i -> i + n <= sl_len s ->
  sl_arr t = sl_arr s -> 0 < Z.abs (sl_off t - (sl_off s + i)) < n ->
  vval h (HArr t) 0 <> vval h (HArr t) (Z.abs (sl_off t - (sl_off s + i))) ->
  exists h' k, h_SetSubVector s i (HArr t) h = (Ok tt, h') /\ 0 <= k < n /\
    slot h' (sl_arr s) (sl_off s + i + k) <> vval h (HArr t) k.
Proof. exact (@sub_wrong). Qed.
Print Assumptions C37_refuted.
(** [1,2,3,4].SetSubVector(1, its first three) should give [1,1,2,3], and
    [1,2,3,4].SetSubVector(0, its last three) [2,3,4,4]. *)
Definition wx : heap := mkHeap [fls [1; 2; 3; 4]] [].
Definition vx : slice := mkSl 0 0 4 4.
Example C37_ex : runh (let! _ := h_SetSubVector vx 1 (HArr (mkSl 0 0 3 4)) in h_ToArray vx) wx = Ok (mkSl 1 0 4 4) /\
  cont (snd ((let! _ := h_SetSubVector vx 1 (HArr (mkSl 0 0 3 4)) in h_ToArray vx) wx)) (mkSl 1 0 4 4) = fls [1; 1; 1; 1] /\
  cont (snd (h_SetSubVector vx 0 (HArr (mkSl 0 1 3 3)) wx)) vx = fls [3; 4; 4; 4] /\
  cont (snd (h_SetSubVectorWithSlice vx 1 (mkSl 0 0 3 4) wx)) vx = fls [1; 1; 2; 3].
Proof. vm_compute. auto. Qed.
Example C37_inheap : inheap wx vx /\ inheap wx (mkSl 0 0 3 4) /\ vval wx (HArr (mkSl 0 0 3 4)) 0 <> vval wx (HArr (mkSl 0 0 3 4)) 1.
Proof.
  split; [|split]; try (split; [cbn; lia|split; [cbn; lia|]]; cbn; intros j Hj;
    assert (j = 0 \/ j = 1 \/ j = 2 \/ j = 3) as [-> |[-> |[-> | ->]]] by lia; vm_compute; eauto).
  vm_compute. discriminate.
Qed.

(** C54: CopyFrom stores the values as they were before the call if they share
    no place with the receiver, or start at its start or after it.
    Missing: values that start before the receiver and reach into it, where the
    statement is false: the beginning is repeated. *)
Theorem C54_partial : forall (O : Ops) h s v n, inheap h s -> vok h v -> hv_dim v = n -> 0 <= n -> sl_len s = n ->
  apart_from s 0 n v \/ (exists t, v = HArr t /\ sl_arr t = sl_arr s /\ sl_off s <= sl_off t) ->
  exists h', h_CopyFrom s v h = (Ok tt, h') /\ stored h h' s 0 n (vval h v).
Proof. exact (@cf_apart). Qed.
Print Assumptions C54_partial.
Theorem C54_overlap : forall (O : Ops) h s t n, inheap h s -> inheap h t -> sl_len t = n -> sl_len s = n -> sl_arr t = sl_arr s ->
  0 < sl_off s - sl_off t < n ->
  exists h', h_CopyFrom s (HArr t) h = (Ok tt, h') /\ stored h h' s 0 n (fun k => vval h (HArr t) (k mod (sl_off s - sl_off t))).
Proof. exact (@cf_overlap). Qed.
Print Assumptions C54_overlap.
Theorem C54_refuted : forall (O : Ops) h s t n, inheap h s -> inheap h t -> sl_len t = n -> sl_len s = n -> sl_arr t = sl_arr s ->
  0 < sl_off s - sl_off t < n -> vval h (HArr t) 0 <> vval h (HArr t) (sl_off s - sl_off t) ->
  exists h' k, h_CopyFrom s (HArr t) h = (Ok tt, h') /\ 0 <= k < n /\ slot h' (sl_arr s) (sl_off s + k) <> vval h (HArr t) k.
Proof. exact (@cf_wrong). Qed.
Print Assumptions C54_refuted.
Example C54_ex : cont (snd (h_CopyFrom (mkSl 0 1 3 3) (HArr (mkSl 0 0 3 4)) wx)) vx = fls [1; 1; 1; 1] /\
  cont (snd (h_CopyFrom (mkSl 0 0 3 4) (HArr (mkSl 0 1 3 3)) wx)) vx = fls [2; 3; 4; 4].
Proof. vm_compute. auto. Qed.

(** What the writers of a row, a column or a submatrix leave in memory: C64.
    [HTab], [HBlkIs]: a dense matrix, a block matrix with these entries (HeapSpec.v);
    [own_rows], [clear], [only_in]: HeapPutSpec.v.  All theorems hold in any
    arithmetic, float64 included. *)
From Coq Require Import ZArith List Lia Bool Floats.SpecFloat.
From Verif Require Import Base BaseLemmas Scalar Matrix MatSpec Heap HeapBlk HeapSpec HeapPutSpec HeapProps HeapPut HeapPutBlk Float64 ExampleOps P_Heap.
Import ListNotations.
Open Scope Z_scope.

(** Dense matrices: the addressed entries hold the values the argument had
    before the call, every other entry and everything else in memory is as it
    was.  SetRow: wherever the argument is; the row needs the room the code asks
    for.  SetColumn, SetSubMatrix: the argument is apart from the matrix. *)
Theorem C64_array_partial : forall (O : Ops) h a r c f, HTab h a r c f -> own_rows h a ->
  (forall i d g s, HVecIs h d c g -> row_of h a i s -> i + c <= sl_cap s -> 0 <= i < r ->
     returns (h2_SetRow a i d) h (fun h' _ => HTab h' a r c (fun k j => if k =? i then g j else f k j) /\ only_in h h' a)) /\
  (forall j d g, HVecIs h d r g -> clear h a d -> 0 <= j < c ->
     returns (h2_SetColumn a j d) h (fun h' _ => HTab h' a r c (fun i k => if k =? j then g i else f i k) /\ only_in h h' a)) /\
  (forall sub p q e row column, HTab h sub p q e -> clear_rows h a sub -> 0 <= row -> row + p <= r -> 0 <= column -> column + q <= c ->
     returns (h2_SetSubMatrix a sub row column) h (fun h' a' => a' = a /\
       HTab h' a r c (fun i j => if ((row <=? i) && (i <? row + p)) && ((column <=? j) && (j <? column + q)) then e (i - row) (j - column) else f i j) /\ only_in h h' a)).
Proof. exact (@put_array). Qed.
Print Assumptions C64_array_partial.
(** Block matrices of any size, the same. *)
Theorem C64_block_partial : forall (O : Ops) h b r c f, HBlkIs h b r c f -> own_rows h (hb_blocks b) ->
  (forall i d g, HVecIs h d c g -> clear h (hb_blocks b) d -> 0 <= i < r ->
     returns (hb_SetRow b i d) h (fun h' _ => HBlkIs h' b r c (fun k j => if k =? i then g j else f k j) /\ only_in h h' (hb_blocks b))) /\
  (forall j d g, HVecIs h d r g -> clear h (hb_blocks b) d -> 0 <= j < c ->
     returns (hb_SetColumn b j d) h (fun h' _ => HBlkIs h' b r c (fun i k => if k =? j then g i else f i k) /\ only_in h h' (hb_blocks b))) /\
  (forall sub p q e row column, HTab h sub p q e -> clear_rows h (hb_blocks b) sub -> 0 <= row -> row + p <= r -> 0 <= column -> column + q <= c ->
     returns (hb_SetSubMatrix b sub row column) h (fun h' _ =>
       HBlkIs h' b r c (fun i j => if ((row <=? i) && (i <? row + p)) && ((column <=? j) && (j <? column + q)) then e (i - row) (j - column) else f i j) /\ only_in h h' (hb_blocks b))).
Proof. exact (@put_block). Qed.
Print Assumptions C64_block_partial.
(** Every copy and every matrix built from slices has rows (blocks) of its own,
    apart from every slice that was there before: the conditions above are met. *)
Theorem C64_fresh : forall (O : Ops) h,
  (forall a r c f, HTab h a r c f ->
     returns (h2_Copy a) h (fun h' o => HTab h' o r c f /\ own_new h h' o) /\
     returns (h2_FromSlices a true) h (fun h' o => HTab h' o r c f /\ own_new h h' o) /\
     returns (hb_FromSlices a) h (fun h' b => HBlkIs h' b r c f /\ own_new h h' (hb_blocks b))) /\
  (forall b r c f, HBlkIs h b r c f -> returns (hb_Copy b) h (fun h' b' => HBlkIs h' b' r c f /\ own_new h h' (hb_blocks b'))).
Proof. exact (@put_fresh). Qed.
Print Assumptions C64_fresh.
(** Whatever the arguments and the outcome, the writers of a block matrix touch
    no array but those of the matrix. *)
Theorem C64_writers : forall (O : Ops) b,
  (forall i d, writes (OM (hb_blocks b)) (hb_SetRow b i d) /\ writes (OM (hb_blocks b)) (hb_SetColumn b i d)) /\
  (forall sub i j, writes (OM (hb_blocks b)) (hb_SetSubMatrix b sub i j)).
Proof. exact (@block_writers). Qed.
Print Assumptions C64_writers.
(** When the argument is part of the matrix the writer may read back what it has
    just written: SetColumn(1, row 0) on [[1,2],[3,4]] gives [[1,1],[3,1]], not
    [[1,1],[3,2]]. *)
Lemma hx_rows i s : row_of hx ax i s -> (i = 0 /\ s = mkSl 0 0 2 2) \/ (i = 1 /\ s = mkSl 1 1 2 2).
Proof.
  intros H. apply (f_equal fst) in H. unfold rdS in H. destruct (inb i (sl_len ax)) eqn:E; [|discriminate H]. unfold inb in E. apply andb_prop in E. destruct E as [E1 E2].
  apply Z.leb_le in E1. apply Z.ltb_lt in E2. change (sl_len ax) with 2 in E2. assert (i = 0 \/ i = 1) as [->| ->] by lia; [left; change (Ok (mkSl 0 0 2 2) = Ok s) in H|right; change (Ok (mkSl 1 1 2 2) = Ok s) in H]; injection H as <-; auto.
Qed.
Lemma hx_own : own_rows hx ax.
Proof. intros i i' s s' Hne H H'. apply hx_rows in H, H'. destruct H as [[-> ->]|[-> ->]], H' as [[-> ->]|[-> ->]]; try lia; left; cbn; lia. Qed.
Lemma hx_row0 : HVecIs hx (mkSl 0 0 2 2) 2 (fun j => nthZ (fls [1; 2]) j).
Proof. exists (fls [1; 2]). split; [repeat split; cbn; lia|]. split; [reflexivity|]. intros j Hj. assert (j = 0 \/ j = 1) as [->| ->] by lia; reflexivity. Qed.
Theorem C64_overlap_refuted : ~ (forall (h : @heap E64) a r c f j d g, HTab h a r c f -> own_rows h a -> HVecIs h d r g -> 0 <= j < c ->
  returns (h2_SetColumn a j d) h (fun h' _ => HTab h' a r c (fun i k => if k =? j then g i else f i k))).
Proof.
  intros H. destruct C36_ex_array as (f & HT & _). specialize (H hx ax 2 2 f 1 (mkSl 0 0 2 2) _ HT hx_own hx_row0 ltac:(lia)).
  destruct H as (y & h' & E & (_ & _ & _ & d & HM & _ & Hd)). assert (Eh : h' = snd (h2_SetColumn ax 1 (mkSl 0 0 2 2) hx)) by (rewrite E; reflexivity).
  specialize (Hd 1 1 ltac:(lia) ltac:(lia)). assert (Ed : d = flss [[1; 1]; [3; 1]]).
  { assert (V : view h' (OM ax) = flss [[1; 1]; [3; 1]]) by (rewrite Eh; vm_compute; reflexivity). rewrite <- V. destruct HM as (HF & _). cbn [view].
    clear -HF. induction HF as [|s l ss ls (E & _) HF IH]; [reflexivity|]. cbn [map]. rewrite E, <- IH. reflexivity. }
  rewrite Ed in Hd. vm_compute in Hd. discriminate Hd.
Qed.
Print Assumptions C64_overlap_refuted.
(** On the heap of C36, [ax] = [[1,2],[3,4]] and [sx] = (6,7) apart from it: the
    conditions of C64_array hold, and SetColumn(0, sx), SetRow(0, column of ...)
    store. *)
Example C64_ex_hyp : (exists f, HTab hx ax 2 2 f) /\ own_rows hx ax /\ (exists g, HVecIs hx sx 2 g) /\ clear hx ax sx /\ row_of hx ax 0 (mkSl 0 0 2 2).
Proof.
  destruct C36_ex_array as (f & H & _), C36_ex_vector as (g & G & _). split; [eauto|]. split; [exact hx_own|]. split; [eauto|]. split; [|reflexivity].
  intros i s H1. apply hx_rows in H1. destruct H1 as [[-> ->]|[-> ->]]; left; cbn; lia.
Qed.
Example C64_ex : view (snd (h2_SetColumn ax 0 sx hx)) (OM ax) = flss [[6; 2]; [7; 4]] /\
  view (snd (h2_SetRow ax 0 sx hx)) (OM ax) = flss [[6; 7]; [3; 4]] /\
  view (snd (h2_SetSubMatrix ax ax 0 0 hx)) (OM ax) = flss [[1; 2]; [3; 4]].
Proof. vm_compute. auto. Qed.
(** A block matrix of 2 rows and 60 columns has two blocks; a row across them. *)
Definition row60 : list F := map (fun k => fl (Z.of_nat k)) (seq 1 60).
Definition h60 : @heap E64 := mkHeap [row60; row60; rev row60] [[mkSl 0 0 60 60; mkSl 1 0 60 60]].
Example C64_ex_block : runh (let! b := hb_FromSlices (mkSl 0 0 2 2) in let! _ := hb_SetRow b 1 (mkSl 2 0 60 60) in
  let! u := hb_At b 1 0 in let! v := hb_At b 1 51 in let! w := hb_At b 1 52 in let! x := hb_At b 1 59 in let! y := hb_At b 0 59 in ret [u; v; w; x; y]) h60
  = Ok (fls [60; 9; 8; 1; 60]).
Proof. vm_compute. reflexivity. Qed.

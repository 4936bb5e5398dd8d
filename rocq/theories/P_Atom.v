(** Refused writes: C56.  Heap.v keeps the memory on errors and panics.  All
    theorems hold in any arithmetic, float64 included. *)
From Coq Require Import ZArith List Lia Bool Floats.SpecFloat.
From Verif Require Import Base BaseLemmas Scalar Matrix MatSpec Heap HeapBlk HeapSpec HeapAtomSpec HeapAtom HeapAtomBlk Float64 ExampleOps P_Heap.
Import ListNotations.
Open Scope Z_scope.

(** Writes of one entry, whatever the arguments and whatever is in memory. *)
Theorem C56_entries : forall (O : Ops) h,
  (forall s i x, all_or_nothing (h_SetEntry s i x) h /\ all_or_nothing (h_AddToEntry s i x) h) /\
  (forall a i j x, all_or_nothing (h2_SetEntry a i j x) h /\ all_or_nothing (h2_AddToEntry a i j x) h /\ all_or_nothing (h2_MultiplyEntry a i j x) h) /\
  (forall s i j x, all_or_nothing (hd_SetEntry s i j x) h /\ all_or_nothing (hd_AddToEntry s i j x) h /\ all_or_nothing (hd_MultiplyEntry s i j x) h) /\
  (forall b i j x, all_or_nothing (hb_SetEntry b i j x) h /\ all_or_nothing (hb_AddToEntry b i j x) h /\ all_or_nothing (hb_MultiplyEntry b i j x) h).
Proof. exact (@aon_entries). Qed.
Print Assumptions C56_entries.
(** Writes of many entries of a vector: any index, any length, any overlap. *)
Theorem C56_vectors : forall (O : Ops) h s, inheap h s ->
  (forall i d, all_or_nothing (h_SetSubVectorWithSlice s i d) h) /\
  (forall i v, vok h v -> 0 <= hv_dim v -> all_or_nothing (h_SetSubVector s i v) h) /\
  (forall v, vok h v -> all_or_nothing (h_CopyFrom s v) h) /\
  (forall a b v, vok h v -> all_or_nothing (h_Combine s a b v) h).
Proof. exact (@aon_vectors). Qed.
Print Assumptions C56_vectors.
(** Dense matrices: any place, ragged submatrices included; the argument may be
    part of the matrix. *)
Theorem C56_array : forall (O : Ops) h a r c f, HTab h a r c f ->
  (forall i d, all_or_nothing (h2_SetRow a i d) h) /\
  (forall j d, inheap h d -> all_or_nothing (h2_SetColumn a j d) h) /\
  (forall sub e i j, MRep h sub e -> all_or_nothing (h2_SetSubMatrix a sub i j) h).
Proof. exact (@aon_array). Qed.
Print Assumptions C56_array.
(** Block matrices of any size: any place, any argument, ragged submatrices and
    parts of the matrix itself included. *)
Theorem C56_block : forall (O : Ops) h b r c f, HBlkIs h b r c f ->
  (forall i d, inheap h d -> all_or_nothing (hb_SetRow b i d) h) /\
  (forall j d, inheap h d -> all_or_nothing (hb_SetColumn b j d) h) /\
  (forall sub e i j, MRep h sub e -> all_or_nothing (hb_SetSubMatrix b sub i j) h).
Proof. exact (@aon_block). Qed.
Print Assumptions C56_block.
(** SetRow and SetColumn of a diagonal matrix may be refused after they have
    changed the matrix: SetRow(0, (5,7)) on diag(1,2) leaves diag(5,2). ... *)
Definition hd0 : heap := mkHeap [fls [1; 2]; fls [5; 7]] [].
Theorem C56_diagonal_refuted : ~ (forall (h : @heap E64) s row array, inheap h s -> inheap h array -> all_or_nothing (hd_SetRow s row array) h) /\
  ~ (forall (h : @heap E64) s column array, inheap h s -> inheap h array -> all_or_nothing (hd_SetColumn s column array) h).
Proof.
  assert (H1 : inheap hd0 (mkSl 0 0 2 2)) by (split; [cbn; lia|split; [cbn; lia|]]; cbn; intros j Hj; assert (j = 0 \/ j = 1) as [-> | ->] by lia; vm_compute; eauto).
  assert (H2 : inheap hd0 (mkSl 1 0 2 2)) by (split; [cbn; lia|split; [cbn; lia|]]; cbn; intros j Hj; assert (j = 0 \/ j = 1) as [-> | ->] by lia; vm_compute; eauto).
  split; intros H; specialize (H hd0 (mkSl 0 0 2 2) 0 (mkSl 1 0 2 2) H1 H2 _ _ (surjective_pairing _)).
  - assert (E1 : fst (hd_SetRow (mkSl 0 0 2 2) 0 (mkSl 1 0 2 2) hd0) = Panic ETooLarge) by (vm_compute; reflexivity).
    assert (E2 : cont (snd (hd_SetRow (mkSl 0 0 2 2) 0 (mkSl 1 0 2 2) hd0)) (mkSl 0 0 2 2) = fls [5; 2]) by (vm_compute; reflexivity).
    rewrite E1 in H. destruct H as [[y E]|E]; [discriminate E|]. rewrite E in E2. vm_compute in E2. discriminate E2.
  - assert (E1 : fst (hd_SetColumn (mkSl 0 0 2 2) 0 (mkSl 1 0 2 2) hd0) = Panic ETooLarge) by (vm_compute; reflexivity).
    assert (E2 : cont (snd (hd_SetColumn (mkSl 0 0 2 2) 0 (mkSl 1 0 2 2) hd0)) (mkSl 0 0 2 2) = fls [5; 2]) by (vm_compute; reflexivity).
    rewrite E1 in H. destruct H as [[y E]|E]; [discriminate E|]. rewrite E in E2. vm_compute in E2. discriminate E2.
Qed.
Print Assumptions C56_diagonal_refuted.
(** ... but, whatever the outcome, they change no more than the one entry on the
    diagonal. *)
Theorem C56_diagonal_partial : forall (O : Ops) h s k array, one_entry (hd_SetRow s k array) h s array k /\ one_entry (hd_SetColumn s k array) h s array k.
Proof. exact (@diag_one). Qed.
Print Assumptions C56_diagonal_partial.
(** On the heap of C36: [ax] is [[1,2],[3,4]], [sx] is (6,7), [wx] holds (1,2,3,4). *)
Example C56_ex : fst (h2_SetRow ax 1 sx hx) = Panic ERuntime /\ fst (h2_SetSubMatrix ax ax 1 0 hx) = Panic EOutOfRange /\
  fst (h2_SetColumn ax 0 sx hx) = Ok tt /\ view (snd (h2_SetColumn ax 0 sx hx)) (OM ax) = flss [[6; 2]; [7; 4]] /\
  fst (h_SetSubVector vx 2 (HArr (mkSl 0 0 3 4)) wx) = Panic EOutOfRange.
Proof. vm_compute. auto 10. Qed.
(** On a block matrix: a row of the wrong length, a place outside, and writes
    that are taken ([sx] is part of the block of [bx]). *)
Example C56_ex_block : fst (hb_SetRow bx 0 (mkSl 0 0 1 1) hx) = Panic EMatDimMismatch /\ fst (hb_SetColumn bx 2 sx hx) = Panic EOutOfRange /\
  fst (hb_SetSubMatrix bx ax 1 0 hx) = Panic EOutOfRange /\
  runh (let! _ := hb_SetSubMatrix bx ax 0 0 in let! _ := hb_SetRow bx 1 sx in let! w := hb_At bx 0 0 in let! x := hb_At bx 0 1 in let! y := hb_At bx 1 0 in let! z := hb_At bx 1 1 in ret [w; x; y; z]) hx
  = Ok (fls [1; 2; 2; 3]).
Proof. vm_compute. auto 10. Qed.

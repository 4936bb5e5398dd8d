(** What the writers of single entries and the in-place operations of vectors
    leave in memory: C69.  [HVecIs], [HTab], [HBlkIs]: a vector (or diagonal matrix), a
    dense matrix, a block matrix with these entries; [stored h h' s i n val]: the
    [n] places of [s] from index [i] on received the values [val 0], ... and
    nothing else changed (HeapSpec.v); [own_rows], [only_in]: HeapPutSpec.v;
    [only_places]: HeapUpdSpec.v.  All theorems hold in any arithmetic. *)
From Coq Require Import ZArith List Lia Bool Floats.SpecFloat.
From Verif Require Import Base BaseLemmas Scalar Matrix MatSpec Heap HeapSpec HeapPutSpec HeapUpdSpec HeapUpd Float64 ExampleOps P_Heap P_Put.
Import ListNotations.
Open Scope Z_scope.

(** SetEntry, AddToEntry, Set and the Map methods of a vector. *)
Theorem C69_vector : forall (O : Ops) h s n g, HVecIs h s n g ->
  (forall i x, 0 <= i < n -> exists h', h_SetEntry s i x h = (Ok tt, h') /\ stored h h' s i 1 (fun _ => Ok x)) /\
  (forall i x, 0 <= i < n -> exists h', h_AddToEntry s i x h = (Ok tt, h') /\ stored h h' s i 1 (fun _ => Ok (g i + x)%f)) /\
  (forall x, exists h', h_Set s x h = (Ok tt, h') /\ stored h h' s 0 n (fun _ => Ok x)) /\
  (forall F, exists h', h_Map s F h = (Ok tt, h') /\ stored h h' s 0 n (fun k => Ok (F (g k)))).
Proof. exact @upd_vector. Qed.
Print Assumptions C69_vector.
(** SetEntry, AddToEntry and MultiplyEntry of a dense matrix, ... *)
Theorem C69_array : forall (O : Ops) h a r c f, HTab h a r c f -> own_rows h a -> forall i j x, 0 <= i < r -> 0 <= j < c ->
  returns (h2_SetEntry a i j x) h (fun h' _ => HTab h' a r c (fun k q => if (k =? i) && (q =? j) then x else f k q) /\ only_in h h' a) /\
  returns (h2_AddToEntry a i j x) h (fun h' _ => HTab h' a r c (fun k q => if (k =? i) && (q =? j) then (f i j + x)%f else f k q) /\ only_in h h' a) /\
  returns (h2_MultiplyEntry a i j x) h (fun h' _ => HTab h' a r c (fun k q => if (k =? i) && (q =? j) then (f i j * x)%f else f k q) /\ only_in h h' a).
Proof. exact @upd_array. Qed.
Print Assumptions C69_array.
(** ... of a block matrix of any size, ... *)
Theorem C69_block : forall (O : Ops) h b r c f, HBlkIs h b r c f -> own_rows h (hb_blocks b) -> forall i j x, 0 <= i < r -> 0 <= j < c ->
  returns (hb_SetEntry b i j x) h (fun h' _ => HBlkIs h' b r c (fun k q => if (k =? i) && (q =? j) then x else f k q) /\ only_in h h' (hb_blocks b)) /\
  returns (hb_AddToEntry b i j x) h (fun h' _ => HBlkIs h' b r c (fun k q => if (k =? i) && (q =? j) then (f i j + x)%f else f k q) /\ only_in h h' (hb_blocks b)) /\
  returns (hb_MultiplyEntry b i j x) h (fun h' _ => HBlkIs h' b r c (fun k q => if (k =? i) && (q =? j) then (f i j * x)%f else f k q) /\ only_in h h' (hb_blocks b)).
Proof. exact @upd_block. Qed.
Print Assumptions C69_block.
(** ... and of a diagonal matrix, on the diagonal. *)
Theorem C69_diagonal : forall (O : Ops) h s n g, HVecIs h s n g -> forall i x, 0 <= i < n ->
  (exists h', hd_SetEntry s i i x h = (Ok tt, h') /\ stored h h' s i 1 (fun _ => Ok x)) /\
  (exists h', hd_AddToEntry s i i x h = (Ok tt, h') /\ stored h h' s i 1 (fun _ => Ok (g i + x)%f)) /\
  (exists h', hd_MultiplyEntry s i i x h = (Ok tt, h') /\ stored h h' s i 1 (fun _ => Ok (g i * x)%f)).
Proof. exact @upd_diagonal. Qed.
Print Assumptions C69_diagonal.
(** Combine(a, b, y) stores a x + b y, with the values from before the call, if y
    shares no place with the receiver, or starts at its start (it may be the
    receiver itself) or after it.
    Missing: a y that starts before the receiver and reaches into it, where the
    statement is false. *)
Theorem C69_combine_partial : forall (O : Ops) h s v n a b, inheap h s -> vok h v -> hv_dim v = n -> 0 <= n -> sl_len s = n ->
  apart_from s 0 n v \/ (exists t, v = HArr t /\ sl_arr t = sl_arr s /\ sl_off s <= sl_off t) ->
  exists h', h_Combine s a b v h = (Ok tt, h') /\ stored h h' s 0 n (fun k => let* x := vval h (HArr s) k in let* z := vval h v k in Ok (a * x + b * z)%f).
Proof. exact @cb_apart. Qed.
Print Assumptions C69_combine_partial.
(** Such a y is read back after it has been overwritten: each entry from the
    distance d of the two on is a x(k) + b times the new entry k - d. *)
Theorem C69_combine_overlap : forall (O : Ops) h s t n a b, inheap h s -> inheap h t -> sl_len t = n -> sl_len s = n -> sl_arr t = sl_arr s -> 0 < sl_off s - sl_off t < n ->
  exists h', h_Combine s a b (HArr t) h = (Ok tt, h') /\ only_places h h' s 0 n /\
    forall k, 0 <= k < n -> slot h' (sl_arr s) (sl_off s + k) =
      (let* x := vval h (HArr s) k in let* z := (if k <? sl_off s - sl_off t then vval h (HArr t) k else slot h' (sl_arr s) (sl_off s + (k - (sl_off s - sl_off t)))) in Ok (a * x + b * z)%f).
Proof. exact @cb_overlap. Qed.
Print Assumptions C69_combine_overlap.
(** With a = b = 1 the last three of [1,2,3,4] combined with its first three give
    [3,6,10], not [3,5,7]. *)
Theorem C69_combine_refuted : ~ (forall (h : @heap E64) s v n a b, inheap h s -> vok h v -> hv_dim v = n -> 0 <= n -> sl_len s = n ->
  exists h', h_Combine s a b v h = (Ok tt, h') /\ stored h h' s 0 n (fun k => let* x := vval h (HArr s) k in let* z := vval h v k in Ok (a * x + b * z)%f)).
Proof.
  intros H. assert (I : forall off, 0 <= off <= 1 -> inheap wx (mkSl 0 off 3 (4 - off))).
  { intros off Ho. assert (off = 0 \/ off = 1) as [-> | ->] by lia; (split; [cbn; lia|split; [cbn; lia|]]; cbn; intros j Hj; assert (j = 0 \/ j = 1 \/ j = 2) as [-> |[-> | ->]] by lia; vm_compute; eauto). }
  destruct (H wx (mkSl 0 1 3 3) (HArr (mkSl 0 0 3 4)) 3 (fl 1) (fl 1) (I 1 ltac:(lia)) (I 0 ltac:(lia)) eq_refl ltac:(lia) eq_refl) as (h' & E & _ & S).
  assert (Eh : h' = snd (h_Combine (mkSl 0 1 3 3) (fl 1) (fl 1) (HArr (mkSl 0 0 3 4)) wx)) by (rewrite E; reflexivity).
  specialize (S 0 2). assert (W : slot h' 0 2 = Ok (fl 6)) by (rewrite Eh; vm_compute; reflexivity). rewrite W in S. vm_compute in S. discriminate S.
Qed.
Print Assumptions C69_combine_refuted.
Example C69_ex : cont (snd (h_Combine (mkSl 0 1 3 3) (fl 1) (fl 1) (HArr (mkSl 0 0 3 4)) wx)) vx = fls [1; 3; 6; 10] /\
  cont (snd (h_Combine vx (fl 2) (fl 3) (HArr vx) wx)) vx = fls [5; 10; 15; 20] /\
  cont (snd (h_Combine (mkSl 0 0 3 4) (fl 1) (fl 10) (HArr (mkSl 0 1 3 3)) wx)) vx = fls [21; 32; 43; 4] /\
  cont (snd (h_AddToEntry vx 2 (fl 10) wx)) vx = fls [1; 2; 13; 4].
Proof. vm_compute. auto. Qed.
(** The dense matrix of C36 meets the hypotheses, and so does every copy (C64_fresh). *)
Example C69_ex_array : exists f, HTab hx ax 2 2 f /\ own_rows hx ax.
Proof. destruct C36_ex_array as (f & H & _). exists f. split; [exact H|exact hx_own]. Qed.

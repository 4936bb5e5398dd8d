(** What "sharing storage" and "independent" mean on the heap of Heap.v, said
    without reference to the code. *)
From Coq Require Import ZArith List Lia Bool.
From Verif Require Import Base Scalar Matrix MatSpec Heap.
Import ListNotations.
Open Scope Z_scope.

Section HeapSpec.
Context {O : Ops}.

(** Something a caller holds: a []float64 (or an object that is one inside: an
    ArrayRealVector, a DiagonalMatrix) or a [][]float64 (an
    Array2DRowRealMatrix, the blocks of a BlockRealMatrix). *)
Inductive obj := OF (s : slice) | OM (o : slice).

(** All that can be read from it. *)
Definition view (h : heap) (x : obj) : list (list F) :=
  match x with OF s => [cont h s] | OM o => map (cont h) (heads h o) end.

(** A []float64 of this length with these values; a [][]float64 whose rows are
    these. *)
Definition VRep (h : heap) (s : slice) (r : list F) : Prop :=
  cont h s = r /\ sl_len s = len r /\ 0 <= sl_off s /\ sl_len s <= sl_cap s.
Definition MRep (h : heap) (o : slice) (d : mat) : Prop :=
  Forall2 (VRep h) (heads h o) d /\ sl_len o = len d /\ 0 <= sl_off o.

(** A []float64 or vector of length [n] with entries [g]; a [][]float64 or
    Array2DRowRealMatrix with [r] rows, [c] columns and entries [f]; the
    [n] by [n] DiagonalMatrix of [g]; a BlockRealMatrix. *)
Definition HVecIs (h : heap) (s : slice) (n : Z) (g : Z -> F) : Prop :=
  exists l, VRep h s l /\ len l = n /\ forall j, 0 <= j < n -> zget l j = Ok (g j).
Definition HTab (h : heap) (o : slice) (r c : Z) (f : Z -> Z -> F) : Prop :=
  sl_arr o <> -1 /\ 1 <= r /\ 1 <= c /\ exists d, MRep h o d /\ rect d r c /\
  forall i j, 0 <= i < r -> 0 <= j < c -> mget d i j = Ok (f i j).
Definition HBlkIs (h : heap) (b : HBlk) (r c : Z) (f : Z -> Z -> F) : Prop :=
  exists bl, MRep h (hb_blocks b) bl /\
    hb_rows b = r /\ hb_columns b = c /\ hb_blockRows b = nblk r /\ hb_blockColumns b = nblk c /\
    MatIs (MBlk (mkBlock bl r c (nblk r) (nblk c))) r c f.

(** A RealVector argument: an ArrayRealVector or a foreign implementation. *)
Definition HVIs (h : heap) (v : HVec) (n : Z) (g : Z -> F) : Prop :=
  match v with
  | HArr s => HVecIs h s n g
  | HOther d => len d = n /\ forall j, 0 <= j < n -> zget d j = Ok (g j)
  end.

(** The number in place [k] of array [a]; a slice all of whose places exist. *)
Definition slot (h : heap) (a k : Z) : res F := let* A := zget (hf h) a in zget A k.
Definition inheap (h : heap) (s : slice) : Prop :=
  0 <= sl_off s /\ sl_len s <= sl_cap s /\
  forall j, 0 <= j < sl_len s -> exists x, slot h (sl_arr s) (sl_off s + j) = Ok x.

(** The [k]th value of a RealVector argument; it can be read. *)
Definition vval (h : heap) (v : HVec) (k : Z) : res F :=
  match v with HArr s => slot h (sl_arr s) (sl_off s + k) | HOther d => zget d k end.
Definition vok (h : heap) (v : HVec) : Prop := match v with HArr s => inheap h s | HOther _ => True end.
(** From [h] to [h'] the [n] places of [s] from index [i] on received the values
    [val 0], [val 1], ... and nothing else changed. *)
Definition stored (h h' : heap) (s : slice) (i n : Z) (val : Z -> res F) : Prop :=
  hs h' = hs h /\ forall a k, slot h' a k =
    if (a =? sl_arr s) && ((sl_off s + i <=? k) && (k <? sl_off s + i + n))
    then val (k - (sl_off s + i)) else slot h a k.
(** The places of [v] and the [n] places of [s] from index [i] on: they have no
    place in common. *)
Definition apart_from (s : slice) (i n : Z) (v : HVec) : Prop :=
  match v with
  | HArr t => sl_arr t <> sl_arr s \/ sl_off t + n <= sl_off s + i \/ sl_off s + i + n <= sl_off t
  | HOther _ => True
  end.

(** It refers to arrays that exist. *)
Definition exists_in (h : heap) (x : obj) : Prop :=
  match x with
  | OF s => -1 <= sl_arr s < len (hf h)
  | OM o => -1 <= sl_arr o < len (hs h)
  end.
(** Every header in memory refers to an array that exists, or is nil. *)
Definition wfheap (h : heap) : Prop :=
  forall b l s, zget (hs h) b = Ok l -> In s l -> -1 <= sl_arr s < len (hf h).

(** ** What a program can do that holds some arrays *)
(** The arrays a program can get at. *)
Record know := mkK { kF : Z -> Prop; kS : Z -> Prop }.
Definition holds (x : obj) : know :=
  match x with
  | OF s => mkK (fun a => a = sl_arr s) (fun _ => False)
  | OM o => mkK (fun _ => False) (fun b => b = sl_arr o)
  end.
(** One action.  The program may write anywhere in an array it holds, not only
    inside the window it was given. *)
Inductive step : know -> heap -> know -> heap -> Prop :=
| st_put K h a i v l :
    kF K a -> zget (hf h) a = Ok l -> step K h K (mkHeap (upd (hf h) a (upd l i v)) (hs h))
| st_head K h b i s l :
    kS K b -> kF K (sl_arr s) \/ sl_arr s = -1 -> zget (hs h) b = Ok l ->
    step K h K (mkHeap (hf h) (upd (hs h) b (upd l i s)))
| st_look K h b s l :
    kS K b -> zget (hs h) b = Ok l -> In s l ->
    step K h (mkK (fun a => kF K a \/ a = sl_arr s) (kS K)) h
| st_newF K h l :
    step K h (mkK (fun a => kF K a \/ a = len (hf h)) (kS K)) (mkHeap (hf h ++ [l]) (hs h))
| st_newS K h l :
    (forall s, In s l -> kF K (sl_arr s) \/ sl_arr s = -1) ->
    step K h (mkK (kF K) (fun b => kS K b \/ b = len (hs h))) (mkHeap (hf h) (hs h ++ [l])).
Inductive steps : know -> heap -> know -> heap -> Prop :=
| ss_refl K h : steps K h K h
| ss_step K h K1 h1 K2 h2 : step K h K1 h1 -> steps K1 h1 K2 h2 -> steps K h K2 h2.

(** Two programs taking turns, in any order and for any number of actions. *)
Inductive turns : know -> know -> heap -> know -> know -> heap -> Prop :=
| tn_refl K L h : turns K L h K L h
| tn_one K L h K1 h1 K2 L2 h2 : step K h K1 h1 -> turns K1 L h1 K2 L2 h2 -> turns K L h K2 L2 h2
| tn_two K L h L1 h1 K2 L2 h2 : step L h L1 h1 -> turns K L1 h1 K2 L2 h2 -> turns K L h K2 L2 h2.

(** [x] and [y] are independent: whatever one program holding [x] and another
    holding [y] have done, nothing the first does next is seen through [y] and
    nothing the second does next is seen through [x]. *)
Definition independent (h : heap) (x y : obj) : Prop :=
  forall K L h1, turns (holds x) (holds y) h K L h1 ->
    (forall K' h2, steps K h1 K' h2 -> view h2 y = view h1 y) /\
    (forall L' h2, steps L h1 L' h2 -> view h2 x = view h1 x).

(** The call that led from [h] to [h'] changed nothing that was there. *)
Definition only_adds (h h' : heap) : Prop :=
  forall z, exists_in h z -> view h' z = view h z.

(** What a method that returns new storage guarantees, whatever the outcome. *)
Definition separate {A} (m : M A) (of : A -> obj) : Prop :=
  forall h0, wfheap h0 -> forall r h, m h0 = (r, h) ->
    only_adds h0 h /\ wfheap h /\
    forall y, r = Ok y -> exists_in h (of y) /\ forall x, exists_in h0 x -> independent h x (of y).
(** It returns normally, with a result such that [R]. *)
Definition returns {A} (m : M A) (h : heap) (R : heap -> A -> Prop) : Prop :=
  exists y h', m h = (Ok y, h') /\ R h' y.
(** The call is something a program holding [x] can do. *)
Definition writes {A} (x : obj) (m : M A) : Prop :=
  forall h r h', m h = (r, h') -> exists K', steps (holds x) h K' h'.
(** It returns normally, with a result such that [R]; nothing that was there has
    changed, and the result is independent of everything that was there. *)
Definition fresh {A} (m : M A) (of : A -> obj) (h : heap) (R : heap -> A -> Prop) : Prop :=
  exists y h', m h = (Ok y, h') /\ R h' y /\ only_adds h h' /\ wfheap h' /\ exists_in h' (of y) /\
    forall x, exists_in h x -> independent h' x (of y).
(** Calls through [x] and through [y], in any order and any number, whatever
    their outcomes. *)
Inductive history (x y : obj) : heap -> heap -> Prop :=
| hi_none h : history x y h h
| hi_x {A} (m : M A) h h1 r h2 : history x y h h1 -> writes x m -> m h1 = (r, h2) -> history x y h h2
| hi_y {A} (m : M A) h h1 r h2 : history x y h h1 -> writes y m -> m h1 = (r, h2) -> history x y h h2.
End HeapSpec.

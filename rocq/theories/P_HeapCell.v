(** C77: accessors that remember their result (L, U and P of the LU decomposition, L
    and LT of the Cholesky decomposition), called by several goroutines at the same
    time.  The goroutines [gs] are those of C76; every call of an accessor is a
    goroutine of its own.  They take turns in any order, after every action on an
    array or on a cell (the field that remembers). *)
From Coq Require Import ZArith List Lia Bool.
From Verif Require Import Base BaseLemmas Scalar Vector Matrix Heap HeapSpec HeapFacts HeapDec HeapSolve HeapCo HeapCoCode HeapCoSpec HeapCoMain HeapRefSpec HeapCell HeapCellSpec HeapCellFacts HeapCellAlone Float64 ExampleOps.
Import ListNotations.
Open Scope Z_scope.

(** ** When the fields are filled, or stay nil *)
(** Everyone gets what is in the field (nil, for an LU decomposition found singular),
    and does so with two turns. *)
Theorem C77_filled : forall (O : Ops) h cs gs qs order i q,
  (forall q, In q qs -> settled cs q) -> nth_error qs i = Some q ->
  (forall r, finished (cmoves (begin h cs gs qs) order) (length gs + i) r -> r = Ok (held (cell cs (cell_of q)))) /\
  ((2 <= turns_of order (length gs + i))%nat -> exists r, finished (cmoves (begin h cs gs qs) order) (length gs + i) r).
Proof. exact (@filled_result). Qed.
Print Assumptions C77_filled.

(** The fields and all that was in memory stay as they were. *)
Theorem C77_filled_keeps : forall (O : Ops) h cs gs qs order, ready h gs ->
  (forall q, In q qs -> settled cs q) ->
  cells (cmoves (begin h cs gs qs) order) = cs /\ only_adds h (cmem (cmoves (begin h cs gs qs) order)).
Proof. exact (@filled_same). Qed.
Print Assumptions C77_filled_keeps.

(** There is no race, on an array or on a field. *)
Theorem C77_filled_no_race : forall (O : Ops) h cs gs qs order, ready h gs ->
  (forall q, In q qs -> settled cs q) ->
  ~ clash (cmoves (begin h cs gs qs) order) /\ ~ cell_clash (cmoves (begin h cs gs qs) order).
Proof. exact (@filled_clash). Qed.
Print Assumptions C77_filled_no_race.

(** The other goroutines have the results they have alone. *)
Theorem C77_filled_others : forall (O : Ops) h cs gs qs order i ts r, ready h gs ->
  (forall q, In q qs -> settled cs q) ->
  nth_error gs i = Some ts -> finished (cmoves (begin h cs gs qs) order) i r ->
  outcome (cmem (cmoves (begin h cs gs qs) order)) r = outcome (snd (go_alone ts [] h)) (fst (go_alone ts [] h)).
Proof. exact (@filled_others). Qed.
Print Assumptions C77_filled_others.

(** ** The first call, by one goroutine *)
(** L of an LU decomposition: the caller gets, in a new matrix, the triangle below the
    diagonal of the table lu and ones on the diagonal; the field keeps it.  The call
    comes to an end. *)
Theorem C77_first_L : forall (O : Ops) h cs c s f order,
  ready h [] -> (c < length cs)%nat -> cell cs c = None -> hlu_singular s = false ->
  HTab h (hlu_lu s) (len (hlu_pivot s)) (len (hlu_pivot s)) f ->
  let w := cmoves (begin h cs [] [LuL c s]) order in
  (forall r, finished w 0 r -> exists x, r = Ok [AMat x] /\ HMatIs (cmem w) x (len (hlu_pivot s)) (len (hlu_pivot s)) (unit_lower f) /\
    cell (cells w) c = Some x /\ only_adds h (cmem w)) /\
  exists k r, finished (cmoves (begin h cs [] [LuL c s]) (repeat 0%nat k)) 0 r.
Proof. intros. eapply alone_LU; eauto 6. Qed.
Print Assumptions C77_first_L.

(** U: the triangle from the diagonal on. *)
Theorem C77_first_U : forall (O : Ops) h cs c s f order,
  ready h [] -> (c < length cs)%nat -> cell cs c = None -> hlu_singular s = false ->
  HTab h (hlu_lu s) (len (hlu_pivot s)) (len (hlu_pivot s)) f ->
  let w := cmoves (begin h cs [] [LuU c s]) order in
  (forall r, finished w 0 r -> exists x, r = Ok [AMat x] /\ HMatIs (cmem w) x (len (hlu_pivot s)) (len (hlu_pivot s)) (upper f) /\
    cell (cells w) c = Some x /\ only_adds h (cmem w)) /\
  exists k r, finished (cmoves (begin h cs [] [LuU c s]) (repeat 0%nat k)) 0 r.
Proof. intros. eapply alone_LU; eauto 6. Qed.
Print Assumptions C77_first_U.

(** P: a one in row [i] at the place that pivot gives. *)
Theorem C77_first_P : forall (O : Ops) h cs c s f p order,
  ready h [] -> (c < length cs)%nat -> cell cs c = None -> hlu_singular s = false ->
  HTab h (hlu_lu s) (len (hlu_pivot s)) (len (hlu_pivot s)) f ->
  (forall i, 0 <= i < len (hlu_pivot s) -> zget (hlu_pivot s) i = Ok (p i) /\ 0 <= p i < len (hlu_pivot s)) ->
  let w := cmoves (begin h cs [] [LuP c s]) order in
  (forall r, finished w 0 r -> exists x, r = Ok [AMat x] /\ HMatIs (cmem w) x (len (hlu_pivot s)) (len (hlu_pivot s)) (rows_of p) /\
    cell (cells w) c = Some x /\ only_adds h (cmem w)) /\
  exists k r, finished (cmoves (begin h cs [] [LuP c s]) (repeat 0%nat k)) 0 r.
Proof. intros. eapply alone_LU; eauto 6. Qed.
Print Assumptions C77_first_P.

(** ** The first calls, by several goroutines *)
(** The first calls of LT of a Cholesky decomposition, any number of them: every
    caller gets a matrix with the entries it has alone, and arrays are safe.  What is
    missing is that there is no race and that all get the same matrix: see below. *)
Theorem C77_LT_partial : forall (O : Ops) h cs gs c lT n order,
  ready h gs -> exists_in h (OM lT) -> (c < length cs)%nat -> cell cs c = None ->
  let w := cmoves (begin h cs gs (repeat (ChLT c lT) n)) order in
  (forall i r, finished w (length gs + i) r -> like_alone h (cmem w) (CFromSlices lT) r) /\
  only_adds h (cmem w) /\ ~ clash w /\
  (forall i ts r, nth_error gs i = Some ts -> finished w i r -> outcome (cmem w) r = outcome (snd (go_alone ts [] h)) (fst (go_alone ts [] h))).
Proof. exact (@LT_all). Qed.
Print Assumptions C77_LT_partial.

(** The same for the first calls of L when LT has been called before. *)
Theorem C77_L_partial : forall (O : Ops) h cs gs c c' lT x n order,
  ready h gs -> mat_in h x -> (c < length cs)%nat -> c' <> c -> cell cs c = None -> cell cs c' = Some x ->
  let w := cmoves (begin h cs gs (repeat (ChL c c' lT) n)) order in
  (forall i r, finished w (length gs + i) r -> like_alone h (cmem w) (CTranspose x) r) /\
  only_adds h (cmem w) /\ ~ clash w /\
  (forall i ts r, nth_error gs i = Some ts -> finished w i r -> outcome (cmem w) r = outcome (snd (go_alone ts [] h)) (fst (go_alone ts [] h))).
Proof. exact (@L_all). Qed.
Print Assumptions C77_L_partial.

(** The LU decomposition with lu = [4,2],[1/2,4] and no exchange of rows, and the
    Cholesky decomposition with lT = [2,1],[0,2]; the fields are nil. *)
Definition half : @F E64 := (fl 1 / fl 2)%f.
Definition memL : heap (O := E64) := mkHeap [fls [4; 2]; [half; fl 4]; fls [2; 1]; fls [0; 2]] [[mkSl 0 0 2 2; mkSl 1 0 2 2]; [mkSl 2 0 2 2; mkSl 3 0 2 2]].
Definition luD : HLU := mkHLU (mkSl 0 0 2 2) [0; 1] true false.
Definition chD : slice := mkSl 1 0 2 2.
Definition turns_in (o : list (nat * nat)) : list nat := flat_map (fun p => repeat (fst p) (snd p)) o.
Lemma memL_ready : ready memL [] /\ exists_in memL (OM (hlu_lu luD)) /\ exists_in memL (OM chD).
Proof.
  split; [|cbn; lia]. split; [|intros ts c f1 f2 []]. intros b l s Hb Hs.
  assert (Hr : 0 <= b < 2) by (apply zget_range in Hb; exact Hb). assert (Hc : b = 0 \/ b = 1) by lia.
  destruct Hc as [-> | ->]; cbv in Hb; injection Hb as <-; destruct Hs as [<-|[<-|[]]]; cbn; lia.
Qed.

(** First calls of L of an LU decomposition.  The field is filled before the matrix
    is: a second caller may get a matrix that is not complete ... *)
Theorem C77_early_refuted : ~ (forall (O : Ops) h cs q order alone j l l0, ready h [] ->
  finished (cmoves (begin h cs [] [q]) alone) 0 (Ok l0) -> finished (cmoves (begin h cs [] [q; q]) order) j (Ok l) ->
  map (seen (cmem (cmoves (begin h cs [] [q; q]) order))) l = map (seen (cmem (cmoves (begin h cs [] [q]) alone))) l0).
Proof.
  intros H. pose (a := repeat 0%nat 26). pose (o := turns_in [(0, 8); (1, 2)]%nat).
  assert (E0 : got (cmoves (begin memL [None] [] [LuL 0 luD]) a) 0 = Some [fls [1; 0]; [half; fl 1]]) by (vm_compute; reflexivity).
  assert (E1 : got (cmoves (begin memL [None] [] [LuL 0 luD; LuL 0 luD]) o) 1 = Some (flss [[0; 0]; [0; 0]])) by (vm_compute; reflexivity).
  destruct (got_finished _ _ _ E0) as (l0 & F0 & _). destruct (got_finished _ _ _ E1) as (l & F1 & D).
  specialize (D _ _ _ _ F0 E0 (H E64 memL [None] (LuL 0 luD) o a 1%nat l l0 (proj1 memL_ready) F0 F1)). discriminate D.
Qed.
Print Assumptions C77_early_refuted.

(** ... and may be left with it when all have come to the end. *)
Theorem C77_forever_refuted : ~ (forall (O : Ops) h cs q order alone j l l0, ready h [] ->
  finished (cmoves (begin h cs [] [q]) alone) 0 (Ok l0) -> finished (cmoves (begin h cs [] [q; q; q]) order) j (Ok l) ->
  (forall i, (i < 3)%nat -> exists r, finished (cmoves (begin h cs [] [q; q; q]) order) i r) ->
  map (seen (cmem (cmoves (begin h cs [] [q; q; q]) order))) l = map (seen (cmem (cmoves (begin h cs [] [q]) alone))) l0).
Proof.
  intros H. pose (a := repeat 0%nat 26). pose (o := turns_in [(0, 1); (1, 1); (0, 7); (2, 2); (1, 25); (0, 18)]%nat).
  assert (E0 : got (cmoves (begin memL [None] [] [LuL 0 luD]) a) 0 = Some [fls [1; 0]; [half; fl 1]]) by (vm_compute; reflexivity).
  assert (E1 : got (cmoves (begin memL [None] [] [LuL 0 luD; LuL 0 luD; LuL 0 luD]) o) 2 = Some (flss [[0; 0]; [0; 0]])) by (vm_compute; reflexivity).
  assert (E2 : got (cmoves (begin memL [None] [] [LuL 0 luD; LuL 0 luD; LuL 0 luD]) o) 0 = Some [fls [1; 0]; [half; fl 1]]) by (vm_compute; reflexivity).
  assert (E3 : got (cmoves (begin memL [None] [] [LuL 0 luD; LuL 0 luD; LuL 0 luD]) o) 1 = Some [fls [1; 0]; [half; fl 1]]) by (vm_compute; reflexivity).
  destruct (got_finished _ _ _ E0) as (l0 & F0 & _). destruct (got_finished _ _ _ E1) as (l & F1 & D).
  destruct (got_finished _ _ _ E2) as (l2 & F2 & _). destruct (got_finished _ _ _ E3) as (l3 & F3 & _).
  assert (Hall : forall i, (i < 3)%nat -> exists r, finished (cmoves (begin memL [None] [] [LuL 0 luD; LuL 0 luD; LuL 0 luD]) o) i r).
  { intros [|[|[|i]]] Hi; [eexists; exact F2|eexists; exact F3|eexists; exact F1|lia]. }
  specialize (D _ _ _ _ F0 E0 (H E64 memL [None] (LuL 0 luD) o a 2%nat l l0 (proj1 memL_ready) F0 F1 Hall)). discriminate D.
Qed.
Print Assumptions C77_forever_refuted.

(** There are races on the field, of LU and of Cholesky, and on arrays. *)
Theorem C77_field_race_refuted : ~ (forall (O : Ops) h cs lT order, ready h [] -> exists_in h (OM lT) ->
  ~ cell_clash (cmoves (begin h cs [] [ChLT 0 lT; ChLT 0 lT]) order)).
Proof.
  intros H. apply (H E64 memL [None] chD (turns_in [(0, 17)]%nat) (proj1 memL_ready) (proj2 (proj2 memL_ready))).
  eapply (about_clash _ 0 1); [lia| |]; vm_compute; reflexivity.
Qed.
Print Assumptions C77_field_race_refuted.
Theorem C77_array_race_refuted : ~ (forall (O : Ops) h cs s order, ready h [] -> exists_in h (OM (hlu_lu s)) ->
  ~ clash (cmoves (begin h cs [] [LuL 0 s; LuL 0 s]) order)).
Proof.
  intros H. apply (H E64 memL [None] luD (turns_in [(0, 1); (1, 1); (0, 7); (1, 7); (0, 3); (1, 3)]%nat) (proj1 memL_ready) (proj1 (proj2 memL_ready))).
  eapply (array_clash _ 0 1); [lia| | |]; [|vm_compute; reflexivity..]. lia.
Qed.
Print Assumptions C77_array_race_refuted.

(** Two callers of LT may get different matrices, so that one does not see what the
    other writes into it. *)
Theorem C77_same_refuted : ~ (forall (O : Ops) h cs lT order l l', ready h [] -> exists_in h (OM lT) ->
  finished (cmoves (begin h cs [] [ChLT 0 lT; ChLT 0 lT]) order) 0 (Ok l) ->
  finished (cmoves (begin h cs [] [ChLT 0 lT; ChLT 0 lT]) order) 1 (Ok l') -> l = l').
Proof.
  intros H. pose (w := cmoves (begin memL [None] [] [ChLT 0 chD; ChLT 0 chD]) (turns_in [(0, 1); (1, 1); (0, 40); (1, 40)]%nat)).
  assert (E0 : table_of w 0 = Some (mkSl 2 0 2 2)) by (vm_compute; reflexivity).
  assert (E1 : table_of w 1 = Some (mkSl 3 0 2 2)) by (vm_compute; reflexivity).
  pose proof (H E64 memL [None] chD _ _ _ (proj1 memL_ready) (proj2 (proj2 memL_ready)) (table_finished _ _ _ E0) (table_finished _ _ _ E1)) as E. discriminate E.
Qed.
Print Assumptions C77_same_refuted.

(** ** Examples *)
(** One caller alone gets L, U and P, LT and L. *)
Definition all5 : list accessor := [LuL 0 luD; LuU 1 luD; LuP 2 luD; ChLT 3 chD; ChL 4 3 chD].
Definition after (order : list nat) := cmoves (begin memL [None; None; None; None; None] [] all5) order.
Example C77_alone : (let w := after (turns_in [(0, 60); (1, 60); (2, 60); (3, 60); (4, 60)]%nat) in map (got w) [0; 1; 2; 3; 4]%nat) =
  [Some [fls [1; 0]; [half; fl 1]]; Some (flss [[4; 2]; [0; 4]]); Some (flss [[1; 0]; [0; 1]]); Some (flss [[2; 1]; [0; 2]]); Some (flss [[2; 0]; [1; 2]])].
Proof. vm_compute. reflexivity. Qed.
(** The LU decomposition meets the hypotheses of the three theorems on the first
    call. *)
Definition luF (i j : Z) : @F E64 := if i =? 0 then (if j =? 0 then fl 4 else fl 2) else (if j =? 0 then half else fl 4).
Example C77_first_case : HTab memL (hlu_lu luD) (len (hlu_pivot luD)) (len (hlu_pivot luD)) luF /\
  forall i, 0 <= i < len (hlu_pivot luD) -> zget (hlu_pivot luD) i = Ok i /\ 0 <= i < len (hlu_pivot luD).
Proof.
  assert (Hb : forall i, 0 <= i < 2 -> i = 0 \/ i = 1) by lia. change (len (hlu_pivot luD)) with 2. split.
  - split; [cbn; lia|]. split; [lia|]. split; [lia|]. exists [fls [4; 2]; [half; fl 4]]. split; [|split].
    + split; [|split; cbn; lia]. repeat constructor; cbn; lia.
    + split; [reflexivity|]. intros i Hi. destruct (Hb i Hi) as [-> | ->]; reflexivity.
    + intros i j Hi Hj. destruct (Hb i Hi) as [-> | ->], (Hb j Hj) as [-> | ->]; vm_compute; reflexivity.
  - intros i Hi. split; [|exact Hi]. destruct (Hb i Hi) as [-> | ->]; reflexivity.
Qed.
(** A decomposition found singular: the accessors give nil. *)
Example C77_singular_case : (let w := cmoves (begin memL [None] [] [LuL 0 (mkHLU (mkSl 0 0 2 2) [0; 1] true true); LuU 0 (mkHLU (mkSl 0 0 2 2) [0; 1] true true)]) [0; 1; 0; 1]%nat in
  map (fun t => match t with Fin (Ok l) => Some (length l) | _ => None end) (cthreads w)) = [Some 0%nat; Some 0%nat].
Proof. vm_compute. reflexivity. Qed.
(** The fields are then filled, and the next callers meet the hypotheses of
    [C77_filled]; they get the same matrices, whatever the order. *)
Definition later : cworld (O := E64) (list answer) := after (turns_in [(0, 60); (1, 60); (2, 60); (3, 60); (4, 60)]%nat).
Example C77_filled_case : forall q, In q all5 -> settled (cells later) q.
Proof.
  assert (E : forallb (fun q => match cell (cells later) (cell_of q) with Some _ => true | None => false end) all5 = true) by (vm_compute; reflexivity).
  intros q Hq. left. rewrite forallb_forall in E. specialize (E q Hq). destruct (cell (cells later) (cell_of q)); [eauto|discriminate].
Qed.
(** Three first callers of LT, and goroutines that take turns with them. *)
Example C77_LT_case : (let w := cmoves (begin memL [None] [[Make (CLUInverse luD) None None]] (repeat (ChLT 0 chD) 3)) (concat (repeat [0; 2; 1; 3; 1]%nat 80)) in
  map (got w) [1; 2; 3]%nat) = repeat (Some (flss [[2; 1]; [0; 2]])) 3.
Proof. vm_compute. reflexivity. Qed.

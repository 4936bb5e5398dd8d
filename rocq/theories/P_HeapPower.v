(** C79 Integer powers of a matrix held in memory. *)
From Coq Require Import ZArith List Lia Bool Reals Lra.
From Verif Require Import Base BaseLemmas Scalar Vector Matrix VecSpec MatSpec DiagSpec RealOps RSum Heap HeapSpec HeapFacts HeapDec HeapRefSpec HeapSolve HeapDecFacts HeapSolveFacts
  HeapArith HeapArithSpec HeapBlkArith HeapBlkArithSpec HeapExpr HeapExprSpec HeapPower HeapPowerSpec HeapPowerFacts Float64 ExampleOps P_Heap P_HeapRef P_HeapBlkArith P_HeapExpr.
Import ListNotations.
Open Scope Z_scope.

(** Over the reals: Power(p) is the product of p copies of the matrix, of the same
    kind (for p = 0: of the kind its size calls for), in storage of its own; nothing that was there has changed. *)
Theorem C79_power : forall h x n f p, wfheap h -> HMatIs (O := ROps) h x n n f -> 0 <= p ->
  fresh (h_Power (O := ROps) x p) hm_obj h (fun h' o => HMatIs (O := ROps) h' o n n (mpow n f (Z.to_nat p)) /\ kind_of o = if p =? 0 then newkind n else kind_of x).
Proof. exact power_real. Qed.
Print Assumptions C79_power.
(** In any arithmetic: the identity, the matrix itself, and for p >= 2 the matrix
    times the repeated squarings that the binary digits of p-1 name, greatest first. *)
Theorem C79_any_arithmetic : forall (O : Ops) h x n f, wfheap h -> HMatIs h x n n f ->
  fresh (h_Power x 0) hm_obj h (fun h' o => kind_of o = newkind n /\ HMatIs h' o n n (fun i j => if i =? j then fone else fzero)) /\
  fresh (h_Power x 1) hm_obj h (fun h' o => kind_of o = kind_of x /\ HMatIs h' o n n f) /\
  forall p, 2 <= p -> fresh (h_Power x p) hm_obj h (fun h' o => kind_of o = kind_of x /\ HMatIs h' o n n (raised (kind_of x) n f p)).
Proof. exact (@power_entries). Qed.
Print Assumptions C79_any_arithmetic.
(** A result shares no storage with anything that was there, whatever the call is
    given. *)
Theorem C79_separate : forall (O : Ops) x p, separate (h_Power x p) hm_obj.
Proof. exact (@power_separate). Qed.
Print Assumptions C79_separate.
(** A negative exponent, and a matrix that is not square, are refused before
    anything is allocated or written. *)
Theorem C79_refused : forall (O : Ops) h x r c f p, HMatIs h x r c f ->
  (p < 0 -> h_Power x p h = (Panic ENotPositive, h)) /\ (0 <= p -> r <> c -> h_Power x p h = (Panic ENonSquare, h)).
Proof. exact (@power_refused). Qed.
Print Assumptions C79_refused.

#[local] Existing Instance E64.
(** In the memory of P_Heap.v, A dense with rows [1,2] and [3,4], B a block matrix with
    rows [5,6] and [7,8], D the diagonal matrix stored inside B. *)
Definition pseen (x : HMat) (p : res HMat * heap) : list (list F) * list (list F) :=
  match p with
  | (Ok (HA o), h) => (view h (OM o), view h (hm_obj x)) | (Ok (HB o), h) => (view h (OM (hb_blocks o)), view h (hm_obj x))
  | (Ok (HD o), h) => (view h (OF o), view h (hm_obj x)) | _ => ([], []) end.
Example C79_ex_square : HMatIs hx (HA ax) 2 2 eA /\ HMatIs hx (HD sx) 2 2 eD.
Proof. split; [exact C78_mixed_A|exact C78_mixed_D]. Qed.
Example C79_ex_runs : map (fun p => pseen (HA ax) (h_Power (HA ax) p hx)) [0; 1; 2; 6] =
  [(flss [[1; 0]; [0; 1]], flss [[1; 2]; [3; 4]]); (flss [[1; 2]; [3; 4]], flss [[1; 2]; [3; 4]]);
   (flss [[7; 10]; [15; 22]], flss [[1; 2]; [3; 4]]); (flss [[5743; 8370]; [12555; 18298]], flss [[1; 2]; [3; 4]])].
Proof. vm_compute. reflexivity. Qed.
Example C79_ex_block : pseen (HB bx) (h_Power (HB bx) 3 hx) = (flss [[881; 1026; 1197; 1394]], flss [[5; 6; 7; 8]]).
Proof. vm_compute. reflexivity. Qed.
Example C79_ex_diag : pseen (HD sx) (h_Power (HD sx) 4 hx) = (flss [[1296; 2401]], flss [[6; 7]]).
Proof. vm_compute. reflexivity. Qed.
(** What the theorem says of A^6: 6 - 1 = 101 in base two, so A times A^4 times A. *)
Example C79_ex_raised : ones 5 = [2%nat; 0%nat] /\ map (fun i => map (raised Dense 2 eA 6 i) [0; 1]) [0; 1] = flss [[5743; 8370]; [12555; 18298]].
Proof. split; vm_compute; reflexivity. Qed.
Example C79_ex_refused : fst (h_Power (HA ax) (-1) hx) = Panic ENotPositive.
Proof. reflexivity. Qed.

(** Over the reals: a diagonal matrix with entries 2 and 3, stored inside a longer array. *)
Definition hr : @heap ROps := @mkHeap ROps [[7; 2; 3]%R] [].
Definition dr : slice := mkSl 0 1 2 2.
Definition fr (i j : Z) : R := if (i =? j)%Z then (if (i =? 0)%Z then 2 else 3)%R else 0%R.
Example C79_ex_real : @wfheap ROps hr /\ @HMatIs ROps hr (HD dr) 2 2 fr /\ mpow 2 fr 3 1 1 = 27%R.
Proof.
  split; [|split].
  - intros b l s Hb. apply HeapFacts.zget_In in Hb. destruct Hb.
  - split; [reflexivity|split; [lia|]]. exists (fun i => if (i =? 0)%Z then 2%R else 3%R). split.
    + exists [2; 3]%R. split; [repeat split; cbn; lia|]. split; [reflexivity|]. intros j Hj. assert (K : j = 0 \/ j = 1) by lia. destruct K as [-> | ->]; reflexivity.
    + intros i j Hi Hj. reflexivity.
  - cbn [mpow]. unfold mmul, idm, fr. change (Rs 0 2) with (Rs 0 (0 + 1 + 1)). repeat (rewrite !Rs_last by lia || rewrite !Rs_nil by lia). cbn. lra.
Qed.

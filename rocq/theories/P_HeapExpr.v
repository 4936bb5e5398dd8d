(** C78 continued: the calls of the RealMatrix interface, with receivers of any
    kind, on matrices held in memory.  In any arithmetic. *)
From Coq Require Import ZArith List Lia Bool.
From Verif Require Import Base BaseLemmas Scalar Vector Matrix VecSpec MatSpec DiagSpec Heap HeapSpec HeapFacts HeapDec HeapRefSpec HeapSolve HeapDecFacts HeapSolveFacts
  HeapArith HeapArithSpec HeapBlkArith HeapBlkArithSpec HeapExpr HeapExprSpec HeapExprFacts Float64 ExampleOps P_Heap P_HeapRef P_HeapBlkArith.
Import ListNotations.
Open Scope Z_scope.

(** A diagonal receiver with an operand of another kind, and with a number: the
    result if all entries outside the diagonal pass for zero, a panic otherwise. *)
Theorem C78_diagonal_mixed : forall (O : Ops) h d m n f g, wfheap h -> HMatIs h (HD d) n n f -> HMatIs h m n n g -> kind_of m <> Diag ->
  (((offzero n (fun i j => (f i j + g i j)%f) -> fresh (hd_Add d m) OF h (fun h' o => HMatIs h' (HD o) n n (diag_of (fun i j => (f i j + g i j)%f)))) /\
    (~ offzero n (fun i j => (f i j + g i j)%f) -> exists h', hd_Add d m h = (Panic ETooLarge, h'))) /\
   ((offzero n (fun i j => (f i j - g i j)%f) -> fresh (hd_Subtract d m) OF h (fun h' o => HMatIs h' (HD o) n n (diag_of (fun i j => (f i j - g i j)%f)))) /\
    (~ offzero n (fun i j => (f i j - g i j)%f) -> exists h', hd_Subtract d m h = (Panic ETooLarge, h')))).
Proof. exact (@diag_any_fresh). Qed.
Print Assumptions C78_diagonal_mixed.
Theorem C78_diagonal_scalar : forall (O : Ops) h d n f x, wfheap h -> HMatIs h (HD d) n n f ->
  (((offzero n (fun i j => (f i j + x)%f) -> fresh (hd_ScalarAdd d x) OF h (fun h' o => HMatIs h' (HD o) n n (diag_of (fun i j => (f i j + x)%f)))) /\
    (~ offzero n (fun i j => (f i j + x)%f) -> exists h', hd_ScalarAdd d x h = (Panic ETooLarge, h'))) /\
   ((offzero n (fun i j => (f i j * x)%f) -> fresh (hd_ScalarMultiply d x) OF h (fun h' o => HMatIs h' (HD o) n n (diag_of (fun i j => (f i j * x)%f)))) /\
    (~ offzero n (fun i j => (f i j * x)%f) -> exists h', hd_ScalarMultiply d x h = (Panic ETooLarge, h')))).
Proof. exact (@diag_scalar_fresh). Qed.
Print Assumptions C78_diagonal_scalar.
(** Expressions of any depth over matrices of the three kinds ([calls] makes the
    calls, [stands] says which matrix of which kind the expression stands for):
    evaluating one gives that matrix and changes none of its leaves. *)
Theorem C78_expressions_any : forall (O : Ops) h e k r c f, wfheap h -> stands h e k r c f ->
  exists x h', calls e h = (Ok x, h') /\ kind_of x = k /\ HMatIs h' x r c f /\ only_adds h h' /\ wfheap h'.
Proof. exact (@any_expression). Qed.
Print Assumptions C78_expressions_any.
(** Expressions that stand for nothing too: wherever the evaluation ends,
    nothing that was there has changed. *)
Theorem C78_expressions_panic : forall (O : Ops) h e, wfheap h -> only_adds h (snd (calls e h)) /\ wfheap (snd (calls e h)).
Proof. exact (@any_calls). Qed.
Print Assumptions C78_expressions_panic.

#[local] Existing Instance E64.
(** In the memory of P_Heap.v: A dense with rows [1,2] and [3,4], B a block matrix with
    rows [5,6] and [7,8], D diagonal, stored inside B: (B + D*A) - (3B)^T. *)
Definition mixed : mexp := Minus (Plus (Leaf (HB bx)) (Times (Leaf (HD sx)) (Leaf (HA ax)))) (Turn (Scale (Leaf (HB bx)) (fl 3))).
Definition eA (i j : Z) : F := nthZ (nthZ (flss [[1; 2]; [3; 4]]) i) j.
Definition eB (i j : Z) : F := nthZ (nthZ (flss [[5; 6]; [7; 8]]) i) j.
Definition eD (i j : Z) : F := nthZ (nthZ (flss [[6; 0]; [0; 7]]) i) j.
Example C78_mixed_A : HMatIs hx (HA ax) 2 2 eA.
Proof.
  split; [discriminate|split; [lia|split; [lia|]]]. exists (flss [[1; 2]; [3; 4]]). split; [|split].
  - split; [repeat constructor; cbn; lia|split; cbn; lia].
  - split; [reflexivity|]. intros i Hi. destruct (two_cases i Hi) as [-> | ->]; reflexivity.
  - intros i j Hi Hj. destruct (two_cases i Hi) as [-> | ->], (two_cases j Hj) as [-> | ->]; vm_compute; reflexivity.
Qed.
Example C78_mixed_D : HMatIs hx (HD sx) 2 2 eD.
Proof.
  split; [reflexivity|split; [lia|]]. exists (nthZ (fls [6; 7])). split.
  - exists (fls [6; 7]). split; [repeat split; cbn; lia|]. split; [reflexivity|]. intros j Hj. destruct (two_cases j Hj) as [-> | ->]; reflexivity.
  - intros i j Hi Hj. destruct (two_cases i Hi) as [-> | ->], (two_cases j Hj) as [-> | ->]; vm_compute; reflexivity.
Qed.
Example C78_mixed_stands : exists f, stands hx mixed Blocks 2 2 f /\ f 0 0 = fl (-4) /\ f 0 1 = fl (-3) /\ f 1 0 = fl 10 /\ f 1 1 = fl 12.
Proof.
  eexists. split.
  - eapply (st_minus hx _ _ Blocks Blocks); [eapply (st_plus hx _ _ Blocks Dense)| |].
    + apply (st_leaf hx (HB bx)). exact C78_blk_is.
    + eapply (st_times hx _ _ Diag Dense); [apply (st_leaf hx (HD sx)); exact C78_mixed_D|apply (st_leaf hx (HA ax)); exact C78_mixed_A].
    + exact (fun _ => I).
    + eapply (st_turn hx _ Blocks); [|discriminate]. eapply (st_scale hx _ _ Blocks); [|exact I]. apply (st_leaf hx (HB bx)). exact C78_blk_is.
    + exact (fun _ => I).
  - vm_compute. auto.
Qed.
Example C78_mixed_run : match calls mixed hx with (Ok (HB o), h) => (view h (OM (hb_blocks o)), view h (OM (hb_blocks bx)), view h (OM ax), view h (OF sx)) | _ => ([], [], [], []) end =
  (flss [[-4; -3; 10; 12]], flss [[5; 6; 7; 8]], flss [[1; 2]; [3; 4]], flss [[6; 7]]).
Proof. vm_compute. reflexivity. Qed.
(** D*D + D is diagonal; 3D too; D+1 and D+A do not fit. *)
Definition dseen (p : res HMat * heap) : option (list (list F)) + err :=
  match p with (Ok (HD o), h) => inl (Some (view h (OF o))) | (Panic e, _) => inr e | _ => inl None end.
Example C78_mixed_diag : map dseen [calls (Plus (Times (Leaf (HD sx)) (Leaf (HD sx))) (Leaf (HD sx))) hx; calls (Scale (Leaf (HD sx)) (fl 3)) hx;
    calls (Shift (Leaf (HD sx)) (fl 1)) hx; calls (Plus (Leaf (HD sx)) (Leaf (HA ax))) hx] =
  [inl (Some (flss [[42; 56]])); inl (Some (flss [[18; 21]])); inr ETooLarge; inr ETooLarge].
Proof. vm_compute. reflexivity. Qed.
(** The dense matrix with rows [1,0] and [0,2] fits. *)
Definition hz : heap := mkHeap [fls [1; 0; 2]; fls [6; 7]] [[mkSl 0 0 2 3; mkSl 0 1 2 2]].
Example C78_mixed_fits : dseen (calls (Minus (Leaf (HD (mkSl 1 0 2 2))) (Leaf (HA (mkSl 0 0 2 2)))) hz) = inl (Some (flss [[5; 5]])).
Proof. vm_compute. reflexivity. Qed.

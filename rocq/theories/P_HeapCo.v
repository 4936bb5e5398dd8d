(** C76: goroutines may build decompositions, solve, add, multiply and read the same
    matrices and vectors at the same time.  The goroutines of HeapCoCode.v make any calls, one
    after the other, on shared objects and on their own results, and may change
    their own results; they take turns in one memory, after every single action on
    it and in any order. *)
From Coq Require Import ZArith List Lia Bool.
From Verif Require Import Base BaseLemmas Scalar Vector Matrix VecSpec Heap HeapSpec HeapFacts HeapDec HeapRefSpec HeapSolve HeapBlkArithSpec HeapCo HeapCoCode HeapCoSpec HeapCoMain HeapCoArith Float64 ExampleOps.
Import ListNotations.
Open Scope Z_scope.

(** Nothing that was there changes. *)
Theorem C76_shared : forall (O : Ops) h gs order, ready h gs -> only_adds h (memory (moves (launch h gs) order)).
Proof. exact (@co_shared). Qed.
Print Assumptions C76_shared.

(** At no moment are two goroutines about to touch the same array with one of
    them about to change it. *)
Theorem C76_no_race : forall (O : Ops) h gs order, ready h gs -> ~ race (moves (launch h gs) order).
Proof. exact (@co_race). Qed.
Print Assumptions C76_no_race.

(** A goroutine that has come to the end has the results, the error or the panic
    it has when it is alone: same numbers, same lengths, same everything that can
    be seen. *)
Theorem C76_as_alone : forall (O : Ops) h gs order i ts q, ready h gs ->
  nth_error gs i = Some ts -> ended (moves (launch h gs) order) i q ->
  outcome (memory (moves (launch h gs) order)) q = outcome (snd (go_alone ts [] h)) (fst (go_alone ts [] h)).
Proof. exact (@co_alone). Qed.
Print Assumptions C76_as_alone.

(** It does come to the end, after a number of turns that depends on the shared
    memory and on its own calls only. *)
Theorem C76_ends : forall (O : Ops) h ts, exists n, forall gs i order, ready h gs ->
  nth_error gs i = Some ts -> (n <= turns_of order i)%nat -> exists q, ended (moves (launch h gs) order) i q.
Proof. exact (@co_finish). Qed.
Print Assumptions C76_ends.

(** Its results are in storage of their own: not in the shared memory ... *)
Theorem C76_new : forall (O : Ops) h gs order i l x k a, ready h gs -> ended (moves (launch h gs) order) i (Ok l) -> In x l ->
  reaches (memory (moves (launch h gs) order)) x k a -> ~ array_in h k a.
Proof. exact (@co_own). Qed.
Print Assumptions C76_new.

(** ... and not in the results of another goroutine. *)
Theorem C76_apart : forall (O : Ops) h gs order i j l l' x x' k a, ready h gs -> i <> j ->
  ended (moves (launch h gs) order) i (Ok l) -> ended (moves (launch h gs) order) j (Ok l') -> In x l -> In x' l' -> 0 <= a ->
  reaches (memory (moves (launch h gs) order)) x k a -> ~ reaches (memory (moves (launch h gs) order)) x' k a.
Proof. exact (@co_apart). Qed.
Print Assumptions C76_apart.

(** What this means for sums, differences, products and multiples of shared dense
    matrices [a] (the right operand of any kind, perhaps [a] itself): whatever the
    others do meanwhile, a goroutine that computes one ends up with a matrix of
    these dimensions and entries. *)
Theorem C76_arithmetic : forall (O : Ops) h gs order i q a m f g x r n c, ready h gs -> HTab h a r n f -> ended (moves (launch h gs) order) i q ->
  (HMatIs h m r n g -> nth_error gs i = Some [Make (CPlus a m) None None] ->
    has_made (moves (launch h gs) order) q r n (fun i j => (f i j + g i j)%f)) /\
  (HMatIs h m r n g -> nth_error gs i = Some [Make (CMinus a m) None None] ->
    has_made (moves (launch h gs) order) q r n (fun i j => (f i j - g i j)%f)) /\
  (HMatIs h m n c g -> nth_error gs i = Some [Make (CTimes a m) None None] ->
    has_made (moves (launch h gs) order) q r c (fun i j => fsum n (fun k => (f i k * g k j)%f))) /\
  (nth_error gs i = Some [Make (CScale a x) None None] ->
    has_made (moves (launch h gs) order) q r n (fun i j => (f i j * x)%f)).
Proof. exact (@co_arith). Qed.
Print Assumptions C76_arithmetic.
(** The same for shared block matrices [b]; the sums of a product are those of C78. *)
Theorem C76_block_arithmetic : forall (O : Ops) h gs order i q b m f g x r n c, ready h gs -> HBlkIs h b r n f -> ended (moves (launch h gs) order) i q ->
  (HMatIs h m r n g -> nth_error gs i = Some [Make (CBPlus b m) None None] ->
    has_made_blocks (moves (launch h gs) order) q r n (fun i j => (f i j + g i j)%f)) /\
  (HMatIs h m r n g -> nth_error gs i = Some [Make (CBMinus b m) None None] ->
    has_made_blocks (moves (launch h gs) order) q r n (fun i j => (f i j - g i j)%f)) /\
  (HMatIs h m n c g -> nth_error gs i = Some [Make (CBTimes b m) None None] ->
    has_made_blocks (moves (launch h gs) order) q r c (fun i j => sum_blocks (match m with HB _ => sum_fours | _ => fsum end) n (fun k => (f i k * g k j)%f))) /\
  (nth_error gs i = Some [Make (CBScale b x) None None] ->
    has_made_blocks (moves (launch h gs) order) q r n (fun i j => (f i j * x)%f)).
Proof. exact (@co_blocks). Qed.
Print Assumptions C76_block_arithmetic.
(** A shared matrix, dense [a] or block [b], times a shared vector from either side ... *)
Theorem C76_vectors : forall (O : Ops) h gs order i q a b f v w g k r c, ready h gs -> HVecIs h v c g -> HVecIs h w r k -> ended (moves (launch h gs) order) i q ->
  (HTab h a r c f -> nth_error gs i = Some [Make (COperate a (HArr v)) None None] ->
    has_made_vector (moves (launch h gs) order) q r (fun i => fsum c (fun j => (f i j * g j)%f))) /\
  (HTab h a r c f -> nth_error gs i = Some [Make (CPreMultiply a (HArr w)) None None] ->
    has_made_vector (moves (launch h gs) order) q c (fun j => fsum r (fun i => (f i j * k i)%f))) /\
  (HBlkIs h b r c f -> nth_error gs i = Some [Make (CBOperate b (HArr v)) None None] ->
    has_made_vector (moves (launch h gs) order) q r (fun i => sum_blocks sum_fours c (fun j => (f i j * g j)%f))) /\
  (HBlkIs h b r c f -> nth_error gs i = Some [Make (CBPreMultiply b (HArr w)) None None] ->
    has_made_vector (moves (launch h gs) order) q c (fun j => sum_blocks sum_fours r (fun i => (f i j * k i)%f))).
Proof. exact (@co_vectors). Qed.
Print Assumptions C76_vectors.
(** ... a number added to every entry of it, and its trace. *)
Theorem C76_shift_trace : forall (O : Ops) h gs order i q a b f x r c, ready h gs -> ended (moves (launch h gs) order) i q ->
  (HTab h a r c f -> nth_error gs i = Some [Make (CShift a x) None None] ->
    has_made (moves (launch h gs) order) q r c (fun i j => (f i j + x)%f)) /\
  (HBlkIs h b r c f -> nth_error gs i = Some [Make (CBShift b x) None None] ->
    has_made_blocks (moves (launch h gs) order) q r c (fun i j => (f i j + x)%f)) /\
  (HTab h a r r f -> nth_error gs i = Some [Make (CTrace a) None None] -> q = Ok [ANum (fsum r (fun i => f i i))]) /\
  (HBlkIs h b r r f -> nth_error gs i = Some [Make (CBTrace b) None None] -> q = Ok [ANum (fsum r (fun i => f i i))]).
Proof. exact (@co_shifts). Qed.
Print Assumptions C76_shift_trace.

(** ** Example *)
(** The matrix with rows [4,2],[2,5] and the vector (4,2). *)
Definition mem2 : heap (O := E64) := mkHeap [fls [4; 2]; fls [2; 5]; fls [4; 2]] [[mkSl 0 0 2 2; mkSl 1 0 2 2]].
Definition mtx : HMat := HA (mkSl 0 0 2 2).
Definition vct : HVec (O := E64) := HArr (mkSl 2 0 2 2).
(** One goroutine factors and solves; another factors and inverts, and overwrites
    an entry of its inverse; a third transposes, overwrites and reads. *)
Definition crew : list (list (task (O := E64))) :=
  [[Make (CLU mtx fzero) None None; Make (CLUVector (mkHLU nilsl [] true false) vct) (Some 0%nat) None];
   [Make (CCholesky mtx fzero fzero) None None; Make (CChMatrix nilsl mtx) (Some 0%nat) None; Put 1 0 1 (fl 7)];
   [Make (CTranspose mtx) None None; Put 0 0 1 (fl 3); Make (CAt mtx 0 1) (Some 0%nat) None; Make (CAt mtx 0 1) None None]].
Example C76_ready : ready mem2 crew.
Proof.
  split.
  - intros b l s Hb Hs. destruct (Z.eq_dec b 0) as [->|Hn].
    + cbv in Hb. injection Hb as <-. destruct Hs as [<-|[<-|[]]]; cbn; lia.
    + apply zget_range in Hb. change (len (hs mem2)) with 1 in Hb. lia.
  - intros ts c f1 f2 Hts Hc. repeat (destruct Hts as [<-|Hts]; [repeat (destruct Hc as [Hc|Hc]; [injection Hc as <- _ _ || discriminate Hc; cbn; lia|]); contradiction|]).
    contradiction.
Qed.
Fixpoint rounds (n : nat) : list nat := match n with O => [] | Datatypes.S n => 2%nat :: 0%nat :: 1%nat :: rounds n end.
(** The numbers of result [n] of goroutine [i], when it has ended. *)
Definition numbers (w : world (O := E64) (list answer)) (i n : nat) : option (list (list (@F E64))) :=
  match nth_error (threads w) i with
  | Some (Done (Ok l)) =>
    match nth_error (map (seen (memory w)) l) n with
    | Some (SNum x) => Some [[x]]
    | Some (SVec (_, _, v)) => Some [v]
    | Some (SArr2 (_, _, o)) | Some (SBlk (_, _, o) _ _ _ _) => Some (map snd o)
    | _ => None
    end
  | _ => None
  end.
(** After five rounds none has ended; after a hundred and fifty all have.  The
    solution is (1,0); the quotient of the matrix by itself has its new entry; the
    third has read its own new entry, and the shared one as it was. *)
Example C76_run_early : map (fun i => numbers (moves (launch mem2 crew) (rounds 5)) i 0) [0; 1; 2]%nat = [None; None; None].
Proof. vm_compute. reflexivity. Qed.
Example C76_run : (let w := moves (launch mem2 crew) (rounds 150) in [numbers w 0 1; numbers w 1 1; numbers w 2 1; numbers w 2 2]) =
  [Some (flss [[1; 0]]); Some (flss [[1; 7]; [0; 1]]); Some (flss [[3]]); Some (flss [[2]])].
Proof. vm_compute. reflexivity. Qed.
(** The machine is not blind to interference: a goroutine that writes into the
    shared vector races with one that reads it, and the order decides what is read. *)
Definition bad : world (O := E64) (list answer) :=
  mkWorld mem2 [WrF (mkSl 2 0 2 2) 0 (fl 9) (fun _ => pret []); go [Make (CVAt vct 0) None None] []].
Example C76_bad_race : race bad.
Proof. exists 0%nat, 1%nat. do 2 eexists. exists KF, 2. split; [lia|]. split; [reflexivity|]. split; [reflexivity|]. cbn. split; [lia|]. split; reflexivity. Qed.
Example C76_bad_order : (numbers (moves bad [0; 1; 1; 1]%nat) 1 0, numbers (moves bad [1; 1; 1; 0]%nat) 1 0) = (Some (flss [[9]]), Some (flss [[4]])).
Proof. vm_compute. reflexivity. Qed.
(** Arithmetic with the shared matrix A at the same time: A*A, A+A, and one
    goroutine that overwrites an entry of A-A, computes (A-A)*A and A times the
    vector. *)
Definition sums : list (list (task (O := E64))) :=
  [[Make (CTimes (mkSl 0 0 2 2) mtx) None None]; [Make (CPlus (mkSl 0 0 2 2) mtx) None None];
   [Make (CMinus (mkSl 0 0 2 2) mtx) None None; Put 0 0 1 (fl 1); Make (CTimes nilsl mtx) (Some 0%nat) None; Make (COperate (mkSl 0 0 2 2) vct) None None]].
Example C76_sums_ready : ready mem2 sums.
Proof.
  split; [exact (proj1 C76_ready)|].
  intros ts c f1 f2 Hts Hc. repeat (destruct Hts as [<-|Hts]; [repeat (destruct Hc as [Hc|Hc]; [injection Hc as <- _ _ || discriminate Hc; cbn; lia|]); contradiction|]).
  contradiction.
Qed.
Example C76_sums : (let w := moves (launch mem2 sums) (rounds 250) in [numbers w 0 0; numbers w 1 0; numbers w 2 1; numbers w 2 2]) =
  [Some (flss [[20; 18]; [18; 29]]); Some (flss [[8; 4]; [4; 10]]); Some (flss [[2; 5]; [0; 0]]); Some (flss [[20; 18]])].
Proof. vm_compute. reflexivity. Qed.
(** A shared block matrix B with rows [1,2] and [3,4], beside A: B*B, B+A, and one
    goroutine that overwrites an entry of 2B and computes (2B)*A and B times the
    vector. *)
Definition mem3 : heap (O := E64) := mkHeap [fls [4; 2]; fls [2; 5]; fls [4; 2]; fls [1; 2; 3; 4]] [[mkSl 0 0 2 2; mkSl 1 0 2 2]; [mkSl 3 0 4 4]].
Definition blk3 : HBlk := mkHBlk (mkSl 1 0 1 1) 2 2 1 1.
Definition blocks3 : list (list (task (O := E64))) :=
  [[Make (CBTimes blk3 (HB blk3)) None None]; [Make (CBPlus blk3 mtx) None None];
   [Make (CBScale blk3 (fl 2)) None None; Put 0 0 0 (fl 1); Make (CBTimes blk3 mtx) (Some 0%nat) None; Make (CBOperate blk3 vct) None None]].
Example C76_blocks_ready : ready mem3 blocks3.
Proof.
  split.
  - intros b l s Hb Hs. apply HeapFacts.zget_In in Hb. cbn in Hb. destruct Hb as [<-|[<-|[]]]; cbn in Hs; repeat (destruct Hs as [<-|Hs]; [cbn; lia|]); destruct Hs.
  - intros ts c f1 f2 Hts Hc. repeat (destruct Hts as [<-|Hts]; [repeat (destruct Hc as [Hc|Hc]; [injection Hc as <- _ _ || discriminate Hc; cbn; lia|]); contradiction|]).
    contradiction.
Qed.
Example C76_blocks : (let w := moves (launch mem3 blocks3) (rounds 300) in [numbers w 0 0; numbers w 1 0; numbers w 2 1; numbers w 2 2]) =
  [Some (flss [[7; 10; 15; 22]]); Some (flss [[5; 4; 5; 9]]); Some (flss [[12; 22; 40; 52]]); Some (flss [[8; 20]])].
Proof. vm_compute. reflexivity. Qed.
(** B and A times the vector, the vector times B, B + 3, and the two traces. *)
Definition vectors3 : list (list (task (O := E64))) :=
  [[Make (CBOperate blk3 vct) None None]; [Make (CBPreMultiply blk3 vct) None None]; [Make (COperate (mkSl 0 0 2 2) vct) None None];
   [Make (CBShift blk3 (fl 3)) None None]; [Make (CTrace (mkSl 0 0 2 2)) None None]; [Make (CBTrace blk3) None None]].
Example C76_vectors_ready : ready mem3 vectors3.
Proof.
  split; [exact (proj1 C76_blocks_ready)|].
  intros ts c f1 f2 Hts Hc. repeat (destruct Hts as [<-|Hts]; [repeat (destruct Hc as [Hc|Hc]; [injection Hc as <- _ _ || discriminate Hc; cbn; lia|]); contradiction|]).
  contradiction.
Qed.
Example C76_vectors_run : (let w := moves (launch mem3 vectors3) (concat (repeat [0; 1; 2; 3; 4; 5]%nat 150)) in map (fun i => numbers w i 0) [0; 1; 2; 3; 4; 5]%nat) =
  [Some (flss [[8; 20]]); Some (flss [[10; 16]]); Some (flss [[20; 18]]); Some (flss [[4; 5; 6; 7]]); Some (flss [[9]]); Some (flss [[5]])].
Proof. vm_compute. reflexivity. Qed.

(** Expressions over matrices of the three kinds held in memory, and what they
    mean. *)
From Coq Require Import ZArith List Lia Bool.
From Verif Require Import Base Scalar Vector Matrix VecSpec DiagSpec Heap HeapSpec HeapDec HeapRefSpec HeapArithSpec HeapBlkArithSpec HeapExpr.
Open Scope Z_scope.

Section HeapExprSpec.
Context {O : Ops}.

(** What a program does that writes the expression down: a call for every
    operation, the operands before. *)
Fixpoint calls (e : mexp) : M HMat :=
  match e with
  | Leaf x => ret x
  | Plus a b => let! x := calls a in let! y := calls b in hm_Add x y
  | Minus a b => let! x := calls a in let! y := calls b in hm_Subtract x y
  | Times a b => let! x := calls a in let! y := calls b in hm_Multiply x y
  | Shift a k => let! x := calls a in hm_ScalarAdd x k
  | Scale a k => let! x := calls a in hm_ScalarMultiply x k
  | Turn a => let! x := calls a in hm_Transpose x
  end.

Inductive kind := Dense | Blocks | Diag.
Definition kind_of (x : HMat) : kind := match x with HA _ => Dense | HB _ => Blocks | HD _ => Diag end.
(** A diagonal matrix can only take a table whose other entries pass for zero,
    and drops them. *)
Definition offzero (n : Z) (e : Z -> Z -> F) : Prop := forall i j, 0 <= i < n -> 0 <= j < n -> i <> j -> zero_like (e i j).
Definition takes (k : kind) (n : Z) (e : Z -> Z -> F) : Prop := match k with Diag => offzero n e | _ => True end.
Definition diag_of (e : Z -> Z -> F) (i j : Z) : F := if i =? j then e i i else fzero.
Definition held (k : kind) (e : Z -> Z -> F) : Z -> Z -> F := match k with Diag => diag_of e | _ => e end.
(** Entries and kind of a product. *)
Definition product (k l : kind) (n : Z) (f g : Z -> Z -> F) : Z -> Z -> F :=
  match k, l with
  | Dense, _ => fun i j => fsum n (fun t => (f i t * g t j)%f)
  | Blocks, Blocks => fun i j => sum_blocks sum_fours n (fun t => (f i t * g t j)%f)
  | Blocks, _ => fun i j => sum_blocks fsum n (fun t => (f i t * g t j)%f)
  | Diag, Diag => diag_of (fun i j => (f i j * g i j)%f)
  | Diag, _ => fun i j => (f i i * g i j)%f
  end.
Definition kproduct (k l : kind) : kind := match k, l with Diag, Diag => Diag | Diag, _ => Dense | _, _ => k end.
(** In memory [h] the expression stands for an [r] by [c] matrix of kind [k] with
    entries [f]. *)
Inductive stands (h : heap) : mexp -> kind -> Z -> Z -> (Z -> Z -> F) -> Prop :=
| st_leaf x r c f : HMatIs h x r c f -> stands h (Leaf x) (kind_of x) r c f
| st_plus a b k l r c f g : stands h a k r c f -> stands h b l r c g ->
    (l <> Diag -> takes k r (fun i j => (f i j + g i j)%f)) -> stands h (Plus a b) k r c (held k (fun i j => (f i j + g i j)%f))
| st_minus a b k l r c f g : stands h a k r c f -> stands h b l r c g ->
    (l <> Diag -> takes k r (fun i j => (f i j - g i j)%f)) -> stands h (Minus a b) k r c (held k (fun i j => (f i j - g i j)%f))
| st_times a b k l r n c f g : stands h a k r n f -> stands h b l n c g -> stands h (Times a b) (kproduct k l) r c (product k l n f g)
| st_shift a x k r c f : stands h a k r c f -> takes k r (fun i j => (f i j + x)%f) -> stands h (Shift a x) k r c (held k (fun i j => (f i j + x)%f))
| st_scale a x k r c f : stands h a k r c f -> takes k r (fun i j => (f i j * x)%f) -> stands h (Scale a x) k r c (held k (fun i j => (f i j * x)%f))
| st_turn a k r c f : stands h a k r c f -> (k = Diag -> zero_like fzero) -> stands h (Turn a) k c r (fun i j => f j i).
End HeapExprSpec.

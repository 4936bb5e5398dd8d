(** Expressions over matrices held in memory, and what they mean. *)
From Coq Require Import ZArith List Lia Bool.
From Verif Require Import Base Scalar Vector Matrix VecSpec Heap HeapSpec HeapDec HeapRefSpec HeapArith.
Import ListNotations.
Open Scope Z_scope.

Section HeapArithSpec.
Context {O : Ops}.

Inductive mexp : Type :=
| Leaf (x : HMat)
| Plus (a b : mexp) | Minus (a b : mexp) | Times (a b : mexp)
| Shift (a : mexp) (x : F) | Scale (a : mexp) (x : F)
| Turn (a : mexp).

(** What a program does that writes the expression down: a call for every
    operation, the operands before.  The receiver of a call is dense; where it
    is not, nothing is said about the expression ([means] below). *)
Definition on_dense (x : HMat) (f : slice -> M slice) : M HMat :=
  match x with HA a => let! o := f a in ret (HA o) | _ => mpanic ERuntime end.
Fixpoint run (e : mexp) : M HMat :=
  match e with
  | Leaf x => ret x
  | Plus a b => let! x := run a in let! y := run b in on_dense x (fun s => h2_Add s y)
  | Minus a b => let! x := run a in let! y := run b in on_dense x (fun s => h2_Subtract s y)
  | Times a b => let! x := run a in let! y := run b in on_dense x (fun s => h2_Multiply s y)
  | Shift a k => let! x := run a in on_dense x (fun s => h2_ScalarAdd s k)
  | Scale a k => let! x := run a in on_dense x (fun s => h2_ScalarMultiply s k)
  | Turn a => let! x := run a in on_dense x h2_Transpose
  end.
Definition dense (e : mexp) : Prop := match e with Leaf (HD _) | Leaf (HB _) => False | _ => True end.
(** In memory [h] the expression stands for an [r] by [c] matrix with entries
    [f]. *)
Inductive means (h : heap) : mexp -> Z -> Z -> (Z -> Z -> F) -> Prop :=
| me_leaf x r c f : HMatIs h x r c f -> means h (Leaf x) r c f
| me_plus a b r c f g : means h a r c f -> means h b r c g -> dense a -> means h (Plus a b) r c (fun i j => (f i j + g i j)%f)
| me_minus a b r c f g : means h a r c f -> means h b r c g -> dense a -> means h (Minus a b) r c (fun i j => (f i j - g i j)%f)
| me_times a b r n c f g : means h a r n f -> means h b n c g -> dense a -> means h (Times a b) r c (fun i j => fsum n (fun k => (f i k * g k j)%f))
| me_shift a k r c f : means h a r c f -> dense a -> means h (Shift a k) r c (fun i j => (f i j + k)%f)
| me_scale a k r c f : means h a r c f -> dense a -> means h (Scale a k) r c (fun i j => (f i j * k)%f)
| me_turn a r c f : means h a r c f -> dense a -> means h (Turn a) c r (fun i j => f j i).
End HeapArithSpec.

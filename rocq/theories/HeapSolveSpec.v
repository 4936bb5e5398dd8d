(** Calling a function on each member of a list, in order. *)
From Coq Require Import ZArith List.
From Verif Require Import Base Scalar Vector Matrix VecSpec MatSpec MatHist Heap HeapSpec HeapDec HeapRefSpec.
Import ListNotations.

Section HeapSolveSpec.
Context {O : Ops}.
Fixpoint mall {A B} (f : A -> M B) (l : list A) : M (list B) :=
  match l with
  | [] => ret []
  | a :: t => let! x := f a in let! r := mall f t in ret (x :: r)
  end.
(** The vector [b] in memory [h] and the vector [w] have the same entries; so
    have the matrix [x] and the matrix [m] of the library. *)
Definition VIn (h : heap) (b : HVec) (w : RealVector) : Prop := exists n g, HVIs h b n g /\ VecIs w n g.
Definition MIn (h : heap) (x : HMat) (m : RealMatrix) : Prop := exists r c f, HMatIs h x r c f /\ library m /\ MatIs m r c f.
(** The same of results. *)
Definition MOut (h : heap) (x : HMat) (m : RealMatrix) : Prop := exists r c f, HMatIs h x r c f /\ MatIs m r c f.
(** The same entries in two memories. *)
Definition VBoth (h h' : heap) (b b' : HVec) : Prop := exists n g, HVIs h b n g /\ HVIs h' b' n g.
Definition MBoth (h h' : heap) (x x' : HMat) : Prop := exists r c f, HMatIs h x r c f /\ HMatIs h' x' r c f.
End HeapSolveSpec.
Fixpoint rall {A B} (f : A -> res B) (l : list A) : res (list B) :=
  match l with
  | [] => Ok []
  | a :: t => let* x := f a in let* r := rall f t in Ok (x :: r)
  end.

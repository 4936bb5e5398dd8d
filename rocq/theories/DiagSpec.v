(** Histories of operations on a DiagonalMatrix and their specification on a
    plain diagonal. *)
From Coq Require Import ZArith List Lia Bool.
From Verif Require Import Base BaseLemmas Scalar Vector VecSpec Matrix Array2D BlockM Diagonal RealMatrixM MatSpec HistSpec.
Import ListNotations.
Open Scope Z_scope.

Section DiagSpec.
Context {O : Ops}.

(** The table with diagonal [g] and zeros elsewhere. *)
Definition diagonal (g : Z -> F) : Z -> Z -> F := fun i j => if i =? j then g i else fzero.
(** [m] is a DiagonalMatrix, observably the n by n table with diagonal [g]. *)
Definition DiagIs (m : RealMatrix) (n : Z) (g : Z -> F) : Prop :=
  (exists d, m = MDiag d) /\ MatIs m n n (diagonal g).
(** The values accepted off the diagonal. *)
Definition zero_like (x : F) : Prop := fulp1 fzero x = true.

(** Entry operations.  On the diagonal: as for any table.  Off the diagonal
    nothing ever changes; a SetEntry or AddToEntry whose argument is not zero
    is refused (the indices are not looked at). *)
Definition de_step (n : Z) (g : Z -> F) (o : eop) : option (Z -> F) :=
  let '((i, j), x) := e_val (diagonal g) o in
  if i =? j then (if inb i n then Some (fun k => if k =? i then x else g k) else None)
  else match o with
       | ESet _ _ v | EAdd _ _ v => if fulp1 fzero v then Some g else None
       | EMul _ _ _ => Some g
       end.
Fixpoint de_table (n : Z) (g : Z -> F) (os : list eop) : (Z -> F) * list bool :=
  match os with
  | [] => (g, [])
  | o :: os =>
      match de_step n g o with
      | Some g' => let '(g', bs) := de_table n g' os in (g', true :: bs)
      | None => let '(g', bs) := de_table n g os in (g', false :: bs)
      end
  end.

(** Any history: step by step what the same operation does to a table, of
    which the diagonal is kept. *)
Fixpoint d_tables (n : Z) (g : Z -> F) (os : list mop) : option (Z * (Z -> F)) :=
  match os with
  | [] => Some (n, g)
  | o :: os =>
      match o_table (n, n, diagonal g) o with
      | Some (r, c, f) => if r =? c then d_tables r (fun i => f i i) os else None
      | None => None
      end
  end.
End DiagSpec.

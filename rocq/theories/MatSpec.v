(** What a user can observe of a matrix: its dimensions and its entries. *)
From Coq Require Import ZArith List Lia Bool.
From Verif Require Import Base BaseLemmas Scalar Vector Matrix VecSpec.
Import ListNotations.
Open Scope Z_scope.

Section MatSpec.
Context {O : Ops}.

(** Storage shapes. *)
Definition rect (d : mat) (r c : Z) : Prop :=
  len d = r /\ forall i, 0 <= i < r -> len (nthZ d i) = c.

(** Number of blocks covering [n], and the extent of block [J]. *)
Definition nblk (n : Z) : Z := (n + 51) / 52.
Definition bw (n J : Z) : Z := Z.min (J * 52 + 52) n - J * 52.

(** The storage is as the constructors build it. *)
Definition Valid (m : RealMatrix) : Prop :=
  match m with
  | MArr a => exists d r c, a2_data a = Some d /\ 1 <= r /\ 1 <= c /\ rect d r c
  | MBlk b => 1 <= b_rows b /\ 1 <= b_columns b /\
      b_blockRows b = nblk (b_rows b) /\ b_blockColumns b = nblk (b_columns b) /\
      len (b_blocks b) = nblk (b_rows b) * nblk (b_columns b) /\
      forall I J, 0 <= I < nblk (b_rows b) -> 0 <= J < nblk (b_columns b) ->
        len (nthZ (b_blocks b) (I * nblk (b_columns b) + J)) = bw (b_rows b) I * bw (b_columns b) J
  | MDiag _ => True
  | MOther r c _ => 0 <= r /\ 0 <= c
  end.

(** [m] is the [r] by [c] matrix with entries [f i j]; any other index pair
    panics. *)
Definition MatIs (m : RealMatrix) (r c : Z) (f : Z -> Z -> F) : Prop :=
  Valid m /\ m_rows m = r /\ m_cols m = Ok c /\
  (forall i j, 0 <= i < r -> 0 <= j < c -> m_At m i j = Ok (f i j)) /\
  (forall i j, ~ (0 <= i < r /\ 0 <= j < c) -> panics (m_At m i j)).

(** The two library types that can hold any table. *)
Definition general (m : RealMatrix) : Prop :=
  match m with MArr _ | MBlk _ => True | _ => False end.

(** The call returns a dense or block matrix with these dimensions and entries. *)
Definition gives (x : res RealMatrix) (r c : Z) (f : Z -> Z -> F) : Prop :=
  exists s, x = Ok s /\ general s /\ MatIs s r c f.

(** The three library types. *)
Definition library (m : RealMatrix) : Prop :=
  match m with MOther _ _ _ => False | _ => True end.

(** The table [t] with one row or one column replaced. *)
Definition rowset (f : Z -> Z -> F) k (g : Z -> F) i j := if i =? k then g j else f i j.
Definition colset (f : Z -> Z -> F) k (g : Z -> F) i j := if j =? k then g i else f i j.
(** The table [t] with one entry replaced. *)
Definition tset (t : Z -> Z -> F) (p q : Z) (v : F) : Z -> Z -> F :=
  fun i j => if (i =? p) && (j =? q) then v else t i j.

(** ** Walks *)
(** The coordinates of a rectangle (end rows and columns included), row by row
    and column by column. *)
Definition row_order (r0 r1 c0 c1 : Z) : list (Z * Z) :=
  flat_map (fun i => map (fun j => (i, j)) (range c0 (c1 + 1))) (range r0 (r1 + 1)).
Definition column_order (r0 r1 c0 c1 : Z) : list (Z * Z) :=
  flat_map (fun j => map (fun i => (i, j)) (range r0 (r1 + 1))) (range c0 (c1 + 1)).

(** Visiting the listed cells of the table [f] in turn, reading only, or
    replacing each visited entry by the value returned. *)
Fixpoint visits {St} (v : MatVisitor St) (cs : list (Z * Z)) (f : Z -> Z -> F) (st : St) : res St :=
  match cs with
  | [] => Ok st
  | (i, j) :: cs => let* (_, st) := mv_visit v i j (f i j) st in visits v cs f st
  end.
Fixpoint visits_update {St} (v : MatVisitor St) (cs : list (Z * Z)) (f : Z -> Z -> F) (st : St)
  : res ((Z -> Z -> F) * St) :=
  match cs with
  | [] => Ok (f, st)
  | (i, j) :: cs =>
      let* (y, st) := mv_visit v i j (f i j) st in visits_update v cs (tset f i j y) st
  end.
(** What a reading walk returns: the visitor's final state and End value. *)
Definition read_result {St} (v : MatVisitor St) cs f st : res (St * F) :=
  let* st' := visits v cs f st in Ok (st', mv_end v st').
(** What an updating walk does: it runs the visitor over the cells in turn and
    leaves the table the visitor asked for. *)
Definition updates {St} (x : res (RealMatrix * St * F)) (v : MatVisitor St) r c cs f st : Prop :=
  match visits_update v cs f st with
  | Ok (g, st') => exists m', x = Ok (m', st', mv_end v st') /\ general m' /\ MatIs m' r c g
  | Err e => x = Err e
  | Panic e => x = Panic e
  end.
End MatSpec.

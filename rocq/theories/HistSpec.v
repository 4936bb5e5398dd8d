(** Histories of matrix operations, and their specification on plain tables. *)
From Coq Require Import ZArith List Lia Bool.
From Verif Require Import Base BaseLemmas Scalar Vector VecSpec Matrix Array2D BlockM Diagonal RealMatrixM MatSpec.
Import ListNotations.
Open Scope Z_scope.

Section Hist.
Context {O : Ops}.

(** ** Entry operations *)
Inductive eop := ESet (i j : Z) (x : F) | EAdd (i j : Z) (x : F) | EMul (i j : Z) (x : F).
Definition e_exec (m : RealMatrix) (o : eop) : res RealMatrix :=
  match o with
  | ESet i j x => m_SetEntry m i j x
  | EAdd i j x => m_AddToEntry m i j x
  | EMul i j x => m_MultiplyEntry m i j x
  end.
(** A history: a call that panics leaves the matrix as it was (the code checks
    the indices before touching the storage).  The list of booleans says which
    calls were accepted. *)
Fixpoint e_run (m : RealMatrix) (os : list eop) : RealMatrix * list bool :=
  match os with
  | [] => (m, [])
  | o :: os =>
      match e_exec m o with
      | Ok m' => let '(m', bs) := e_run m' os in (m', true :: bs)
      | _ => let '(m', bs) := e_run m os in (m', false :: bs)
      end
  end.
(** On a plain r by c table. *)
Definition e_val (f : Z -> Z -> F) (o : eop) : (Z * Z) * F :=
  match o with
  | ESet i j x => ((i, j), x)
  | EAdd i j x => ((i, j), (f i j + x)%f)
  | EMul i j x => ((i, j), (f i j * x)%f)
  end.
Fixpoint e_table (r c : Z) (f : Z -> Z -> F) (os : list eop) : (Z -> Z -> F) * list bool :=
  match os with
  | [] => (f, [])
  | o :: os =>
      let '((i, j), x) := e_val f o in
      if inb i r && inb j c
      then let '(g, bs) := e_table r c (tset f i j x) os in (g, true :: bs)
      else let '(g, bs) := e_table r c f os in (g, false :: bs)
  end.

(** ** Whole-matrix operations *)
Inductive mop :=
| OEntry (o : eop)
| OSetColumn (k : Z) (v : vec) | OSetRowVector (k : Z) (v : vec) | OSetColumnVector (k : Z) (v : vec)
| OSetRowMatrix (k : Z) (n : RealMatrix) | OSetColumnMatrix (k : Z) (n : RealMatrix)
| OSetSub (d : mat) (row column : Z)
| OTranspose | OCopy | OSubMatrix (r0 r1 c0 c1 : Z)
| OScalarAdd (x : F) | OScalarMultiply (x : F) | OAdd (n : RealMatrix) | OSubtract (n : RealMatrix)
| ORowMatrix (k : Z) | OColumnMatrix (k : Z).
Definition o_exec (m : RealMatrix) (o : mop) : res RealMatrix :=
  match o with
  | OEntry o => e_exec m o
  | OSetColumn k v => m_SetColumn m k v
  | OSetRowVector k v => m_SetRowVector m k (VArr v)
  | OSetColumnVector k v => m_SetColumnVector m k (VArr v)
  | OSetRowMatrix k n => m_SetRowMatrix m k n
  | OSetColumnMatrix k n => m_SetColumnMatrix m k n
  | OSetSub d row column => m_SetSubMatrix m (Some d) row column
  | OTranspose => m_Transpose m
  | OCopy => m_Copy m
  | OSubMatrix r0 r1 c0 c1 => m_SubMatrix m r0 r1 c0 c1
  | OScalarAdd x => m_ScalarAdd m x
  | OScalarMultiply x => m_ScalarMultiply m x
  | OAdd n => m_Add m n
  | OSubtract n => m_Subtract m n
  | ORowMatrix k => m_RowMatrixAt m k
  | OColumnMatrix k => m_ColumnMatrixAt m k
  end.
(** Argument matrices are well-formed, of any implementation. *)
Definition wf_op (o : mop) : Prop :=
  match o with
  | OSetRowMatrix _ n | OSetColumnMatrix _ n | OAdd n | OSubtract n => exists r c f, MatIs n r c f
  | _ => True
  end.
(** What can be read of an argument matrix. *)
Definition rows_of (n : RealMatrix) : Z := m_rows n.
Definition cols_of (n : RealMatrix) : Z := match m_cols n with Ok c => c | _ => 0 end.
Definition ent (n : RealMatrix) (i j : Z) : F := match m_At n i j with Ok x => x | _ => fzero end.
(** A table: rows, columns, entries. *)
Definition table : Type := (Z * Z * (Z -> Z -> F))%type.
(** The specification: [None] when the arguments do not fit. *)
Definition o_table (t : table) (o : mop) : option table :=
  let '(r, c, f) := t in
  match o with
  | OEntry o => let '((i, j), x) := e_val f o in if inb i r && inb j c then Some (r, c, tset f i j x) else None
  | OSetColumn k v | OSetColumnVector k v =>
      if inb k c && (len v =? r) then Some (r, c, colset f k (nthZ v)) else None
  | OSetRowVector k v => if inb k r && (len v =? c) then Some (r, c, rowset f k (nthZ v)) else None
  | OSetRowMatrix k n =>
      if inb k r && (rows_of n =? 1) && (cols_of n =? c) then Some (r, c, rowset f k (ent n 0)) else None
  | OSetColumnMatrix k n =>
      if inb k c && (rows_of n =? r) && (cols_of n =? 1) then Some (r, c, colset f k (fun i => ent n i 0)) else None
  | OSetSub d row column =>
      let h := len d in let w := len (nthZ d 0) in
      if (1 <=? h) && (1 <=? w) && forallb (fun l => len l =? w) d &&
         (0 <=? row) && (row + h <=? r) && (0 <=? column) && (column + w <=? c)
      then Some (r, c, fun i j => if (row <=? i) && (i <? row + h) && (column <=? j) && (j <? column + w)
                                  then nthZ (nthZ d (i - row)) (j - column) else f i j)
      else None
  | OTranspose => Some (c, r, fun i j => f j i)
  | OCopy => Some (r, c, f)
  | OSubMatrix r0 r1 c0 c1 =>
      if (0 <=? r0) && (r0 <=? r1) && (r1 <? r) && (0 <=? c0) && (c0 <=? c1) && (c1 <? c)
      then Some (r1 - r0 + 1, c1 - c0 + 1, fun i j => f (r0 + i) (c0 + j)) else None
  | OScalarAdd x => Some (r, c, fun i j => (f i j + x)%f)
  | OScalarMultiply x => Some (r, c, fun i j => (f i j * x)%f)
  | OAdd n => if (rows_of n =? r) && (cols_of n =? c) then Some (r, c, fun i j => (f i j + ent n i j)%f) else None
  | OSubtract n => if (rows_of n =? r) && (cols_of n =? c) then Some (r, c, fun i j => (f i j - ent n i j)%f) else None
  | ORowMatrix k => if inb k r then Some (1, c, fun _ j => f k j) else None
  | OColumnMatrix k => if inb k c then Some (r, 1, fun i _ => f i k) else None
  end.
(** Run a history; the first panic ends it. *)
Fixpoint o_run (m : RealMatrix) (os : list mop) : res RealMatrix :=
  match os with [] => Ok m | o :: os => let* m := o_exec m o in o_run m os end.
Fixpoint o_tables (t : table) (os : list mop) : option table :=
  match os with [] => Some t | o :: os => match o_table t o with Some t => o_tables t os | None => None end end.

(** ** Slices accepted by the constructors: at least one row, rows of the same
    non-zero length. *)
Definition rectb (d : mat) : bool := forallb (fun l => len l =? len (nthZ d 0)) d.
Definition good (d : mat) : Prop := 1 <= len d /\ 1 <= len (nthZ d 0) /\ rectb d = true.
(** ** Two implementations of the same table *)
Definition same (m n : RealMatrix) : Prop :=
  exists r c f, general m /\ general n /\ MatIs m r c f /\ MatIs n r c f.
Definition same_res (x y : res RealMatrix) : Prop :=
  (exists m n, x = Ok m /\ y = Ok n /\ same m n) \/ (panics x /\ panics y).
(** What a caller can read. *)
Definition same_reads (m n : RealMatrix) : Prop :=
  m_rows m = m_rows n /\ m_cols m = m_cols n /\ m_Data m = m_Data n /\
  (forall i j, m_At m i j = m_At n i j \/ (panics (m_At m i j) /\ panics (m_At n i j))) /\
  (forall i, m_RowAt m i = m_RowAt n i \/ (panics (m_RowAt m i) /\ panics (m_RowAt n i))) /\
  (forall j, m_ColumnAt m j = m_ColumnAt n j \/ (panics (m_ColumnAt m j) /\ panics (m_ColumnAt n j))) /\
  (m_Trace m = m_Trace n \/ (panics (m_Trace m) /\ panics (m_Trace n))) /\
  (forall p, (exists r c f, MatIs p r c f) -> m_Equals m false (Some p) = m_Equals n false (Some p)) /\
  (forall p, library p -> (exists r c f, MatIs p r c f) -> m_Equals p false (Some m) = m_Equals p false (Some n)).
(** The window of rows [row ..] and columns [column ..] lies in the table. *)
Definition fits (d : mat) (row column r c : Z) : Prop :=
  0 <= row /\ row + len d <= r /\ 0 <= column /\ column + len (nthZ d 0) <= c.
(** A visitor that only computes a new entry. *)
Definition pure_visitor (h : Z -> Z -> F -> F) : MatVisitor unit :=
  mkMatVisitor (fun _ _ _ _ _ _ st => st) (fun i j x st => Ok (h i j x, st)) (fun _ => fzero).
End Hist.

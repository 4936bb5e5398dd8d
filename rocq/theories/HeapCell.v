(** Goroutines that share decompositions whose accessors remember their result.
    A field such as cachedL is a cell: it holds nil or a matrix.  Looking at a cell
    and filling it are actions of their own, beside those of HeapCo.v.

    Simplification: a cell is read or written in one piece.  (In Go an interface
    value is two words.) *)
From Coq Require Import ZArith List Lia Bool.
From Verif Require Import Base Scalar Vector Matrix Heap HeapDec HeapCo HeapCoCode.
Import ListNotations.
Open Scope Z_scope.

Section Cell.
Context {O : Ops}.

(** A program with cells: finished; a program without cells, and what follows its
    end; looking at a cell; filling a cell. *)
Inductive cprog (A : Type) : Type :=
| Fin (r : res A)
| Sub (p : prog (list answer)) (k : res (list answer) -> cprog A)
| Look (c : nat) (k : option HMat -> cprog A)
| Keep (c : nat) (x : HMat) (k : unit -> cprog A).
Global Arguments Fin {A}. Global Arguments Sub {A}. Global Arguments Look {A}. Global Arguments Keep {A}.
Fixpoint cbind {A B} (p : cprog A) (f : A -> cprog B) : cprog B :=
  match p with
  | Fin (Ok a) => f a
  | Fin (Err e) => Fin (Err e)
  | Fin (Panic e) => Fin (Panic e)
  | Sub p k => Sub p (fun r => cbind (k r) f)
  | Look c k => Look c (fun v => cbind (k v) f)
  | Keep c x k => Keep c x (fun u => cbind (k u) f)
  end.
Fixpoint cup (n : nat) (i : Z) (body : Z -> cprog unit) : cprog unit :=
  match n with
  | 0%nat => Fin (Ok tt)
  | Datatypes.S n => cbind (body i) (fun _ => cup n (i + 1) body)
  end.
(** [for i := lo; i < hi; i++ { body }] *)
Definition cfor (lo hi : Z) (body : Z -> cprog unit) : cprog unit := cup (Z.to_nat (hi - lo)) lo body.
(** One action.  The end of a part without cells is an action too, one that does
    nothing. *)
Definition cell (cs : list (option HMat)) (c : nat) : option HMat := nth c cs None.
Definition cstep {A} (h : heap) (cs : list (option HMat)) (p : cprog A) : heap * list (option HMat) * cprog A :=
  match p with
  | Fin r => (h, cs, Fin r)
  | Sub (Done r) k => (h, cs, k r)
  | Sub p k => let (h, p) := step h p in (h, cs, Sub p k)
  | Look c k => (h, cs, k (cell cs c))
  | Keep c x k => (h, put cs c (Some x), k tt)
  end.
Record cworld (A : Type) := mkCW { cmem : heap; cells : list (option HMat); cthreads : list (cprog A) }.
Global Arguments mkCW {A}. Global Arguments cmem {A}. Global Arguments cells {A}. Global Arguments cthreads {A}.
Definition cmove {A} (w : cworld A) (i : nat) : cworld A :=
  match nth_error (cthreads w) i with
  | Some p => let '(h, cs, p) := cstep (cmem w) (cells w) p in mkCW h cs (put (cthreads w) i p)
  | None => w
  end.
Fixpoint cmoves {A} (w : cworld A) (order : list nat) : cworld A :=
  match order with [] => w | i :: order => cmoves (cmove w i) order end.

(** ** lu_decomposition.go, cholesky_decomposition.go *)
(** What a caller gets from a cell: the matrix, or nothing for nil. *)
Definition held (v : option HMat) : list answer := match v with Some x => [AMat x] | None => [] end.
(** [return lud.cachedL] and the like. *)
Definition give (c : nat) : cprog (list answer) := Look c (fun v => Fin (Ok (held v))).
(** [lud.cachedL, err = NewRealMatrixWithDimension(m, m)], with the panic on err:
    lu_decomposition.go:145-148, 169-172, 194-197. *)
Definition keep_new (c : nat) (m : Z) : cprog unit :=
  Sub (let$ x := p_h_NewRealMatrixWithDimension m m in pret [AMat x]) (fun r =>
    match r with
    | Ok [AMat x] => Keep c x (fun _ => Fin (Ok tt))
    | Ok _ => Fin (Panic ERuntime)
    | Err e => Fin (Panic e)
    | Panic e => Fin (Panic e)
    end).
(** [lud.cachedL.SetEntry(i, j, v)], where [v] is read when the statement is
    reached.  The cell is looked at every time, as in the code.  (In the code the
    row luI is found once per row; here the row is found again for every entry.) *)
Definition cell_set (c : nat) (i j : Z) (v : prog F) : cprog unit :=
  Look c (fun x => match x with
    | None => Fin (Panic ERuntime)
    | Some x => Sub (let$ y := v in let$ _ := p_hm_SetEntry x i j y in pret []) (fun r =>
        match r with Ok _ => Fin (Ok tt) | Err e => Fin (Panic e) | Panic e => Fin (Panic e) end)
    end).
(** L: lu_decomposition.go:141-158.  U: 165-181.  P: 190-203. *)
Definition c_luL (c : nat) (s : HLU) : cprog (list answer) :=
  Look c (fun v => cbind (match v with
    | Some _ => Fin (Ok tt)
    | None => if hlu_singular s then Fin (Ok tt) else
        let m := len (hlu_pivot s) in
        cbind (keep_new c m) (fun _ => cfor 0 m (fun i =>
          cbind (cfor 0 i (fun j => cell_set c i j (p_rd2 (hlu_lu s) i j))) (fun _ => cell_set c i i (pret fone))))
    end) (fun _ => give c)).
Definition c_luU (c : nat) (s : HLU) : cprog (list answer) :=
  Look c (fun v => cbind (match v with
    | Some _ => Fin (Ok tt)
    | None => if hlu_singular s then Fin (Ok tt) else
        let m := len (hlu_pivot s) in
        cbind (keep_new c m) (fun _ => cfor 0 m (fun i => cfor i m (fun j => cell_set c i j (p_rd2 (hlu_lu s) i j))))
    end) (fun _ => give c)).
Definition c_luP (c : nat) (s : HLU) : cprog (list answer) :=
  Look c (fun v => cbind (match v with
    | Some _ => Fin (Ok tt)
    | None => if hlu_singular s then Fin (Ok tt) else
        let m := len (hlu_pivot s) in
        cbind (keep_new c m) (fun _ => cfor 0 m (fun i =>
          match zget (hlu_pivot s) i with
          | Ok k => cell_set c i k (pret fone)
          | Err e => Fin (Panic e)
          | Panic e => Fin (Panic e)
          end))
    end) (fun _ => give c)).
(** One call without cells, as a part of a program with cells. *)
Definition one (q : call) : prog (list answer) := go [Make q None None] [].
(** [cell = call], with a panic if the call gives an error. *)
Definition fill (c : nat) (q : call) : cprog unit :=
  Sub (one q) (fun r =>
    match r with
    | Ok [AMat x] => Keep c x (fun _ => Fin (Ok tt))
    | Ok _ => Fin (Panic ERuntime)
    | Err e => Fin (Panic e)
    | Panic e => Fin (Panic e)
    end).
(** LT: cholesky_decomposition.go:135-144. *)
Definition c_chLT (c : nat) (lT : slice) : cprog (list answer) :=
  Look c (fun v => cbind (match v with Some _ => Fin (Ok tt) | None => fill c (CFromSlices lT) end) (fun _ => give c)).
(** L: cholesky_decomposition.go:125-130; [c] is cachedL and [c'] is cachedLT. *)
Definition c_chL (c c' : nat) (lT : slice) : cprog (list answer) :=
  Look c (fun v => cbind (match v with
    | Some _ => Fin (Ok tt)
    | None => cbind (c_chLT c' lT) (fun l => match l with [AMat x] => fill c (CTranspose x) | _ => Fin (Panic ERuntime) end)
    end) (fun _ => give c)).
(** A call of an accessor; the numbers are the cells. *)
Inductive accessor :=
| LuL (c : nat) (s : HLU) | LuU (c : nat) (s : HLU) | LuP (c : nat) (s : HLU) | ChLT (c : nat) (lT : slice) | ChL (c c' : nat) (lT : slice).
Definition access (q : accessor) : cprog (list answer) :=
  match q with
  | LuL c s => c_luL c s | LuU c s => c_luU c s | LuP c s => c_luP c s | ChLT c lT => c_chLT c lT | ChL c c' lT => c_chL c c' lT
  end.
(** A goroutine of HeapCoCode.v. *)
Definition plain (ts : list task) : cprog (list answer) := Sub (go ts []) Fin.
End Cell.

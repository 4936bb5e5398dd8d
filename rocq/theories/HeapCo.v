(** Several calls at the same time.  The computations of Heap.v are taken apart
    into single actions on the memory, and goroutines take turns in any order,
    one action at a time, all on the same memory.

    Simplifications: the built-in functions copy, append and make are one action;
    values that are not shared ([]int, the numbers held in local variables) are
    not in the memory.  A goroutine that panics stops and the others go on (in Go
    the whole program ends if nothing recovers).  That actions happen one after
    the other is what Go promises to programs without data races; C76 shows that
    there are none. *)
From Coq Require Import ZArith List Lia Bool.
From Verif Require Import Base Scalar Vector Matrix Heap.
Import ListNotations.
Open Scope Z_scope.

Section Prog.
Context {O : Ops}.

(** A program: finished, or an action and what follows it. *)
Inductive prog (A : Type) : Type :=
| Done (r : res A)
| RdF (s : slice) (i : Z) (k : F -> prog A)
| RdS (s : slice) (i : Z) (k : slice -> prog A)
| WrF (s : slice) (i : Z) (x : F) (k : unit -> prog A)
| WrS (s : slice) (i : Z) (x : slice) (k : unit -> prog A)
| NewF (l : list F) (k : slice -> prog A)
| NewS (l : list slice) (k : slice -> prog A)
| AppF (d : slice) (k : slice -> prog A)
| Copy (d s : slice) (k : unit -> prog A).
Global Arguments Done {A}. Global Arguments RdF {A}. Global Arguments RdS {A}. Global Arguments WrF {A}.
Global Arguments WrS {A}. Global Arguments NewF {A}. Global Arguments NewS {A}. Global Arguments AppF {A}.
Global Arguments Copy {A}.

(** One action; the actions are those of Heap.v. *)
Definition goon {A X} (r : res X * heap) (k : X -> prog A) : heap * prog A :=
  match r with
  | (Ok x, h) => (h, k x)
  | (Err e, h) => (h, Done (Err e))
  | (Panic e, h) => (h, Done (Panic e))
  end.
Definition step {A} (h : heap) (p : prog A) : heap * prog A :=
  match p with
  | Done r => (h, Done r)
  | RdF s i k => goon (rdF s i h) k
  | RdS s i k => goon (rdS s i h) k
  | WrF s i x k => goon (wrF s i x h) k
  | WrS s i x k => goon (wrS s i x h) k
  | NewF l k => goon (newF l h) k
  | NewS l k => goon (newS l h) k
  | AppF d k => goon (appendF d h) k
  | Copy d s k => goon (gocopy d s h) k
  end.

(** ** Goroutines *)
(** The memory, and what every goroutine has still to do. *)
Record world (A : Type) := mkWorld { memory : heap; threads : list (prog A) }.
Global Arguments mkWorld {A}. Global Arguments memory {A}. Global Arguments threads {A}.
Definition put {A} (l : list A) (i : nat) (x : A) : list A := firstn i l ++ x :: skipn (Datatypes.S i) l.
(** Goroutine [i] takes a turn; nothing happens if there is none or if it has
    finished. *)
Definition move {A} (w : world A) (i : nat) : world A :=
  match nth_error (threads w) i with
  | Some p => let (h, p) := step (memory w) p in mkWorld h (put (threads w) i p)
  | None => w
  end.
(** The turns in the order of a list. *)
Fixpoint moves {A} (w : world A) (order : list nat) : world A :=
  match order with [] => w | i :: order => moves (move w i) order end.
(** The next action of the program changes, or looks at or changes, the array of
    numbers (or of headers) number [a]. *)
Inductive kind := KF | KS.
Definition changes {A} (p : prog A) (q : kind) (a : Z) : Prop :=
  match p, q with
  | WrF s _ _ _, KF => sl_arr s = a
  | WrS s _ _ _, KS => sl_arr s = a
  | Copy d _ _, KF => sl_arr d = a
  | _, _ => False
  end.
Definition uses {A} (p : prog A) (q : kind) (a : Z) : Prop :=
  match p, q with
  | RdF s _ _, KF => sl_arr s = a
  | RdS s _ _, KS => sl_arr s = a
  | WrF s _ _ _, KF => sl_arr s = a
  | WrS s _ _ _, KS => sl_arr s = a
  | AppF s _, KF => sl_arr s = a
  | Copy d s _, KF => sl_arr d = a \/ sl_arr s = a
  | _, _ => False
  end.

(** ** Writing programs *)
Fixpoint pbind {A B} (p : prog A) (f : A -> prog B) : prog B :=
  match p with
  | Done (Ok a) => f a
  | Done (Err e) => Done (Err e)
  | Done (Panic e) => Done (Panic e)
  | RdF s i k => RdF s i (fun x => pbind (k x) f)
  | RdS s i k => RdS s i (fun x => pbind (k x) f)
  | WrF s i x k => WrF s i x (fun u => pbind (k u) f)
  | WrS s i x k => WrS s i x (fun u => pbind (k u) f)
  | NewF l k => NewF l (fun s => pbind (k s) f)
  | NewS l k => NewS l (fun s => pbind (k s) f)
  | AppF d k => AppF d (fun s => pbind (k s) f)
  | Copy d s k => Copy d s (fun u => pbind (k u) f)
  end.
(** [if err != nil { panic(err) }] *)
Fixpoint ppan {A} (p : prog A) : prog A :=
  match p with
  | Done (Err e) => Done (Panic e)
  | Done r => Done r
  | RdF s i k => RdF s i (fun x => ppan (k x))
  | RdS s i k => RdS s i (fun x => ppan (k x))
  | WrF s i x k => WrF s i x (fun u => ppan (k u))
  | WrS s i x k => WrS s i x (fun u => ppan (k u))
  | NewF l k => NewF l (fun s => ppan (k s))
  | NewS l k => NewS l (fun s => ppan (k s))
  | AppF d k => AppF d (fun s => ppan (k s))
  | Copy d s k => Copy d s (fun u => ppan (k u))
  end.
Definition pret {A} (x : A) : prog A := Done (Ok x).
Definition ppanic {A} (e : err) : prog A := Done (Panic e).
Definition perr {A} (e : err) : prog A := Done (Err e).
(** [for i := lo; i < hi; i++ { body }] *)
Fixpoint pup {T} (n : nat) (i : Z) (body : Z -> T -> prog T) (s : T) : prog T :=
  match n with
  | 0%nat => pret s
  | Datatypes.S n' => pbind (body i s) (pup n' (i + 1) body)
  end.
Definition pfor {T} (lo hi : Z) (body : Z -> T -> prog T) (s : T) : prog T :=
  pup (Z.to_nat (hi - lo)) lo body s.
(** [for i := hi; i >= lo; i-- { body }] *)
Definition pdown {T} (hi lo : Z) (body : Z -> T -> prog T) (s : T) : prog T :=
  pfor 0 (hi - lo + 1) (fun k => body (hi - k)) s.
(** A loop the body can leave: the flag says whether it did. *)
Fixpoint pup_brk {T} (n : nat) (i : Z) (body : Z -> T -> prog (bool * T)) (s : T) : prog (bool * T) :=
  match n with
  | 0%nat => pret (false, s)
  | Datatypes.S n' => pbind (body i s) (fun bs => if fst bs then pret bs else pup_brk n' (i + 1) body (snd bs))
  end.
Definition pfor_brk {T} (lo hi : Z) (body : Z -> T -> prog (bool * T)) (s : T) : prog (bool * T) :=
  pup_brk (Z.to_nat (hi - lo)) lo body s.
(** [for cond { body }], as in HeapBlkArith.v. *)
Fixpoint pwhile {T} (fuel : nat) (cond : T -> bool) (body : T -> prog T) (s : T) : prog T :=
  match fuel with
  | 0%nat => ppanic EFuel
  | Datatypes.S n => if cond s then pbind (body s) (pwhile n cond body) else pret s
  end.
(** The actions as programs; as in Heap.v. *)
Definition pnewF (l : list F) : prog slice := NewF l pret.
Definition pnewS (l : list slice) : prog slice := NewS l pret.
Definition pmakeF (n : Z) : prog slice := if n <? 0 then ppanic ERuntime else pnewF (repeat fzero (Z.to_nat n)).
Definition pmakeS (n : Z) : prog slice := if n <? 0 then ppanic ERuntime else pnewS (repeat nilsl (Z.to_nat n)).
Definition pappendF (d : slice) : prog slice := AppF d pret.
Definition prdF (s : slice) (i : Z) : prog F := RdF s i pret.
Definition prdS (s : slice) (i : Z) : prog slice := RdS s i pret.
Definition pwrF (s : slice) (i : Z) (x : F) : prog unit := WrF s i x pret.
Definition pwrS (s : slice) (i : Z) (x : slice) : prog unit := WrS s i x pret.
Definition preslice (s : slice) (lo hi : Z) : prog slice :=
  if (0 <=? lo) && (lo <=? hi) && (hi <=? sl_cap s)
  then pret (mkSl (sl_arr s) (sl_off s + lo) (hi - lo) (sl_cap s - lo))
  else ppanic ERuntime.
Definition pgocopy (dst src : slice) : prog unit := Copy dst src pret.
End Prog.
Arguments prog {O} A.
Arguments world {O} A.

Notation "'let$' x := m 'in' k" := (pbind m (fun x => k))
  (at level 200, x pattern, m at level 100, k at level 200, right associativity) : heap_scope.

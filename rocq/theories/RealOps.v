(** Exact arithmetic: the instance of [Ops] on the real numbers of the
    standard library.  Used for the properties stated "in exact arithmetic".
    There is no NaN and no infinity ([fnan] is never reached by the theorems
    using this instance); the one-ulp comparison becomes equality. *)
From Coq Require Import ZArith QArith Reals Qreals Lra Lia.
From Verif Require Import Base Scalar.
Open Scope Z_scope.

Definition Rltb (x y : R) : bool := if Rlt_dec x y then true else false.
Definition Rleb (x y : R) : bool := if Rle_dec x y then true else false.
Definition Reqb (x y : R) : bool := if Req_EM_T x y then true else false.

Definition ROps : Ops := {|
  F := R; fzero := 0%R; fone := 1%R;
  fadd := Rplus; fsub := Rminus; fmul := Rmult; fdiv := Rdiv;
  fneg := Ropp; fabs := Rabs; fsqrt := sqrt; fhypot := fun x y => sqrt (x * x + y * y);
  fmax := Rmax; fmin := Rmin;
  flt := Rltb; fle := Rleb; feq := Reqb;
  fnan := 0%R; fisnan := fun _ => false; fispinf := fun _ => false; fisninf := fun _ => false;
  fulp1 := Reqb;
  flit := Q2R |}.

Lemma Rltb_true x y : Rltb x y = true <-> (x < y)%R.
Proof. unfold Rltb. destruct (Rlt_dec x y); intuition (auto || discriminate). Qed.
Lemma Rltb_false x y : Rltb x y = false <-> (y <= x)%R.
Proof. unfold Rltb. destruct (Rlt_dec x y); split; intros; try discriminate; try lra; auto. Qed.
Lemma Rleb_true x y : Rleb x y = true <-> (x <= y)%R.
Proof. unfold Rleb. destruct (Rle_dec x y); intuition (auto || discriminate). Qed.
Lemma Rleb_false x y : Rleb x y = false <-> (y < x)%R.
Proof. unfold Rleb. destruct (Rle_dec x y); split; intros; try discriminate; try lra; auto. Qed.
Lemma Reqb_true x y : Reqb x y = true <-> x = y.
Proof. unfold Reqb. destruct (Req_EM_T x y); intuition (auto || discriminate). Qed.
Lemma Reqb_false x y : Reqb x y = false <-> x <> y.
Proof. unfold Reqb. destruct (Req_EM_T x y); intuition (auto || discriminate). Qed.

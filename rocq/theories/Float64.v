(** The instance of [Ops] that Go executes: IEEE binary64, given by the
    standard library's specification of floating-point arithmetic. *)
From Coq Require Import ZArith QArith Floats.SpecFloat Bool.
From Verif Require Import Base Scalar.
Open Scope Z_scope.

Definition sf := spec_float.
Definition prec64 := 53.
Definition emax64 := 1024.

(** A 64-bit pattern in range. *)
Definition sf_valid (x : sf) : bool := valid_binary prec64 emax64 x.

(** math.Float64bits.  Not a number is written as Go's math.NaN() pattern;
    equalsWithULP never lets a NaN through whatever its pattern. *)
Definition bits64 (x : sf) : Z :=
  match x with
  | S754_zero s => if s then 2 ^ 63 else 0
  | S754_infinity s => (if s then 2 ^ 63 else 0) + 2047 * 2 ^ 52
  | S754_nan => 2047 * 2 ^ 52 + 2 ^ 51 + 1
  | S754_finite s m e =>
      (if s then 2 ^ 63 else 0) +
      (if Zpos m <? 2 ^ 52 then Zpos m else (e + 1075) * 2 ^ 52 + (Zpos m - 2 ^ 52))
  end.

Definition sf_isnan (x : sf) : bool := match x with S754_nan => true | _ => false end.
Definition sf_ispinf (x : sf) : bool := match x with S754_infinity false => true | _ => false end.
Definition sf_isninf (x : sf) : bool := match x with S754_infinity true => true | _ => false end.
Definition sf_signbit (x : sf) : bool :=
  match x with S754_zero s | S754_infinity s | S754_finite s _ _ => s | S754_nan => false end.
Definition sf_of_Z (n : Z) : sf := binary_normalize prec64 emax64 n 0 false.
Definition sf_zero := S754_zero false.

(** math.Max, math.Min, math.Hypot (Go standard library). *)
Definition sf_max (x y : sf) : sf :=
  if sf_ispinf x || sf_ispinf y then S754_infinity false else
  if sf_isnan x || sf_isnan y then S754_nan else
  if SFeqb x sf_zero && SFeqb x y then (if sf_signbit x then y else x) else
  if SFltb y x then x else y.
Definition sf_min (x y : sf) : sf :=
  if sf_isninf x || sf_isninf y then S754_infinity true else
  if sf_isnan x || sf_isnan y then S754_nan else
  if SFeqb x sf_zero && SFeqb x y then (if sf_signbit x then x else y) else
  if SFltb x y then x else y.
Definition sf_add := SFadd prec64 emax64.
Definition sf_sub := SFsub prec64 emax64.
Definition sf_mul := SFmul prec64 emax64.
Definition sf_div := SFdiv prec64 emax64.
Definition sf_sqrt := SFsqrt prec64 emax64.
Definition sf_hypot (p q : sf) : sf :=
  if sf_ispinf p || sf_isninf p || sf_ispinf q || sf_isninf q then S754_infinity false else
  if sf_isnan p || sf_isnan q then S754_nan else
  let p := SFabs p in
  let q := SFabs q in
  let '(p, q) := if SFltb p q then (q, p) else (p, q) in
  if SFeqb p sf_zero then sf_zero else
  let q := sf_div q p in
  sf_mul p (sf_sqrt (sf_add (sf_of_Z 1) (sf_mul q q))).

(** [float64(n)] for a 64-bit unsigned [n], as a natural number: the nearest
    number with 53 significant bits, ties to even.  (It is at most 2^64.) *)
Definition round53 (n : Z) : Z :=
  if n <? 2 ^ 53 then n else
  let k := Z.log2 n - 52 in
  let q := n / 2 ^ k in
  let r := n mod 2 ^ k in
  let up := (2 ^ (k - 1) <? r) || ((r =? 2 ^ (k - 1)) && Z.odd q) in
  (if up then q + 1 else q) * 2 ^ k.

(** equalsWithULP: utils.go:82-112 on bit patterns.  [c] is what the
    platform's conversion uint64(2^64) gives (Go leaves it open). *)
Definition equalsWithULP_bits (c : Z) (xInt yInt maxUlps : Z) : bool :=
  if Z.land (Z.lxor xInt yInt) (2 ^ 31) =? 0 then
    let f := round53 ((xInt - yInt) mod 2 ^ 64) in
    (if f =? 2 ^ 64 then c else f) <=? maxUlps
  else
    let positive_zero := 0 in
    let negative_zero := 2 ^ 63 in
    let '(deltaPlus, deltaMinus) :=
      if xInt <? yInt then ((yInt - positive_zero) mod 2 ^ 64, (xInt - negative_zero) mod 2 ^ 64)
      else ((xInt - positive_zero) mod 2 ^ 64, (yInt - negative_zero) mod 2 ^ 64) in
    if maxUlps <? deltaPlus then false
    else deltaMinus <=? (maxUlps - deltaPlus) mod 2 ^ 64.
Definition equalsWithULP (c : Z) (x y : sf) (maxUlps : Z) : bool :=
  equalsWithULP_bits c (bits64 x) (bits64 y) maxUlps && negb (sf_isnan x) && negb (sf_isnan y).

(** A literal n/d with n and d below 2^53. *)
Definition sf_lit (q : Q) : sf := sf_div (sf_of_Z (Qnum q)) (sf_of_Z (Zpos (Qden q))).

Definition SFOps (c : Z) : Ops := {|
  F := sf; fzero := sf_zero; fone := sf_of_Z 1;
  fadd := sf_add; fsub := sf_sub; fmul := sf_mul; fdiv := sf_div;
  fneg := SFopp; fabs := SFabs; fsqrt := sf_sqrt; fhypot := sf_hypot;
  fmax := sf_max; fmin := sf_min;
  flt := SFltb; fle := SFleb; feq := SFeqb;
  fnan := S754_nan; fisnan := sf_isnan; fispinf := sf_ispinf; fisninf := sf_isninf;
  fulp1 := fun x y => equalsWithULP c x y 1;
  flit := sf_lit |}.

(** uint64(2^64) on amd64 and on arm64. *)
Definition c_amd64 : Z := 2 ^ 63.
Definition c_arm64 : Z := 2 ^ 64 - 1.

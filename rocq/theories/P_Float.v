(** Property C18: the float comparison used for zero tests
    (equalsWithULP(x, y, 1)).  [c] is the platform's value of uint64(2^64),
    2^63 on amd64 and 2^64-1 on arm64.  [next x y]: y is the smallest float
    above x; [near x y]: equal or adjacent. *)
From Coq Require Import ZArith List Lia Bool Floats.SpecFloat.
From Verif Require Import Base Scalar Float64 Float64Facts Float64Facts2.
Open Scope Z_scope.

(** The full claim would be: [equalsWithULP c x y 1 = true] exactly when
    neither is NaN and [near x y].  One half holds: whatever the comparison
    accepts is equal or adjacent, and never NaN. *)
Theorem C18_sound_partial : forall c x y, 1 < c -> sf_valid x = true -> sf_valid y = true ->
  equalsWithULP c x y 1 = true -> sf_isnan x = false /\ sf_isnan y = false /\ near x y.
Proof. exact ulp_near. Qed.
Print Assumptions C18_sound_partial.
Example C18_sound_ex : equalsWithULP c_amd64 (S754_finite false (2 ^ 52 + 1) 0) (S754_finite false (2 ^ 52) 0) 1 = true.
Proof. vm_compute. reflexivity. Qed.
(** Every float that is not NaN equals itself. *)
Theorem C18_reflexive : forall c x, 1 < c -> sf_valid x = true -> (equalsWithULP c x x 1 = true <-> sf_isnan x = false).
Proof. exact (fun c x Hc Hx => conj (fun H => proj1 (proj1 (equalsWithULP_1 c x x Hc Hx Hx) H)) (fun H => proj2 (equalsWithULP_1 c x x Hc Hx Hx) (conj H (conj H (or_introl eq_refl))))). Qed.
Print Assumptions C18_reflexive.
(** What it computes exactly: the bit patterns are equal, or the first is one
    more than the second with the same bit 31. *)
Theorem C18_exact : forall c x y, 1 < c -> sf_valid x = true -> sf_valid y = true ->
  (equalsWithULP c x y 1 = true <->
   sf_isnan x = false /\ sf_isnan y = false /\
   (x = y \/ (bits64 x = bits64 y + 1 /\ Z.testbit (bits64 x) 31 = Z.testbit (bits64 y) 31))).
Proof. exact equalsWithULP_1. Qed.
Print Assumptions C18_exact.
(** The other half fails in three ways: it is not symmetric, it tells +0 from
    -0, and it rejects some adjacent floats in both orders. *)
Theorem C18_symmetry_refuted : exists x y, sf_valid x = true /\ sf_valid y = true /\ next y x /\
  forall c, 1 < c -> equalsWithULP c x y 1 = true /\ equalsWithULP c y x 1 = false.
Proof. exact ulp_asymmetric. Qed.
Print Assumptions C18_symmetry_refuted.
Theorem C18_zeros_refuted : forall c, 1 < c ->
  SFeqb (S754_zero false) (S754_zero true) = true /\
  equalsWithULP c (S754_zero false) (S754_zero true) 1 = false /\ equalsWithULP c (S754_zero true) (S754_zero false) 1 = false.
Proof. exact ulp_zeros. Qed.
Print Assumptions C18_zeros_refuted.
Theorem C18_adjacent_refuted : exists x y, sf_valid x = true /\ sf_valid y = true /\ next x y /\
  forall c, 1 < c -> equalsWithULP c x y 1 = false /\ equalsWithULP c y x 1 = false.
Proof. exact ulp_bit31. Qed.
Print Assumptions C18_adjacent_refuted.

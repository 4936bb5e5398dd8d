(** The scalars used in the concrete cases beside the theorems: float64 on
    amd64.  Written as integers: [fl 3] is 3.0. *)
From Coq Require Import ZArith List Floats.SpecFloat.
From Verif Require Import Base Scalar Float64.
Import ListNotations.
Open Scope Z_scope.

Definition E64 : Ops := SFOps c_amd64.
Definition fl (n : Z) : @F E64 := sf_of_Z n.
Definition fls (l : list Z) : list (@F E64) := map fl l.
Definition flss (l : list (list Z)) : list (list (@F E64)) := map fls l.
Definition NaN64 : @F E64 := S754_nan.
Definition nzero64 : @F E64 := S754_zero true.

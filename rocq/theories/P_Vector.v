(** Properties C19, C20, C22, C23, C46: vectors. *)
From Coq Require Import ZArith List Lia Bool Floats.SpecFloat.
From Verif Require Import Base BaseLemmas Scalar Vector VecSpec VectorFacts Float64 Float64Facts VecProps ExampleOps.
Import ListNotations.
Open Scope Z_scope.

(** C19: the operations with a vector argument act entry by entry, for every
    dimension, contents, float64 arithmetic and implementation of the argument. *)
Theorem C19_entrywise_binary : forall (O : Ops) a v n f g ca cb,
  VecIs (VArr a) n f -> VecIs v n g ->
  wp (arv_Add a v) (fun w => VecIs (VArr w) n (fun i => (f i + g i)%f)) /\
  wp (arv_Subtract a v) (fun w => VecIs (VArr w) n (fun i => (f i - g i)%f)) /\
  wp (arv_EBEMultiply a v) (fun w => VecIs (VArr w) n (fun i => (f i * g i)%f)) /\
  wp (arv_EBEDivide a v) (fun w => VecIs (VArr w) n (fun i => (f i / g i)%f)) /\
  wp (arv_Combine a ca cb v) (fun w => VecIs (VArr w) n (fun i => (ca * f i + cb * g i)%f)) /\
  wp (arv_CopyFrom a v) (fun w => VecIs (VArr w) n g).
Proof.
  exact (fun O a v n f g ca cb Ha Hv => conj (arv_Add_spec a v n f g Ha Hv) (conj (arv_Subtract_spec a v n f g Ha Hv)
    (conj (arv_EBEMultiply_spec a v n f g Ha Hv) (conj (arv_EBEDivide_spec a v n f g Ha Hv)
    (conj (arv_Combine_spec a v n f g ca cb Ha Hv) (arv_CopyFrom_spec a v n f g Ha Hv)))))).
Qed.
Print Assumptions C19_entrywise_binary.

Theorem C19_entrywise_map : forall (O : Ops) a n f (g : F -> F) d,
  VecIs (VArr a) n f ->
  wp (arv_Map a g) (fun w => VecIs (VArr w) n (fun i => g (f i))) /\
  wp (arv_MapAdd a d) (fun w => VecIs (VArr w) n (fun i => (f i + d)%f)) /\
  wp (arv_MapSubtract a d) (fun w => VecIs (VArr w) n (fun i => (f i - d)%f)) /\
  wp (arv_MapMultiply a d) (fun w => VecIs (VArr w) n (fun i => (f i * d)%f)) /\
  wp (arv_MapDivide a d) (fun w => VecIs (VArr w) n (fun i => (f i / d)%f)) /\
  wp (arv_Set a d) (fun w => VecIs (VArr w) n (fun _ => d)).
Proof.
  exact (fun O a n f g d Ha => conj (arv_Map_spec a n f g Ha) (conj (arv_MapAdd_spec a n f d Ha)
    (conj (arv_MapSubtract_spec a n f d Ha) (conj (arv_MapMultiply_spec a n f d Ha)
    (conj (arv_MapDivide_spec a n f d Ha) (arv_Set_spec a n f d Ha)))))).
Qed.
Print Assumptions C19_entrywise_map.

(** C19: vectors of different dimensions are rejected by a panic. *)
Theorem C19_mismatch : forall (O : Ops) a v, len a <> v_Dimension v ->
  panics (arv_Add a v) /\ panics (arv_Subtract a v) /\ panics (arv_EBEMultiply a v) /\ panics (arv_EBEDivide a v) /\
  (forall x y, panics (arv_Combine a x y v)) /\ panics (arv_CopyFrom a v) /\ panics (VecDotProduct (VArr a) v) /\
  panics (VecDistance (VArr a) v) /\ panics (VecL1Distance (VArr a) v) /\ panics (VecLInfDistance (VArr a) v).
Proof. exact (@binop_mismatch_all). Qed.
Print Assumptions C19_mismatch.

(** C19: single entries. *)
Theorem C19_entries : forall (O : Ops) a n f i x, VecIs (VArr a) n f ->
  (0 <= i < n ->
   wp (arv_SetEntry a i x) (fun w => VecIs (VArr w) n (fun k => if k =? i then x else f k)) /\
   wp (arv_AddToEntry a i x) (fun w => VecIs (VArr w) n (fun k => if k =? i then (f k + x)%f else f k))) /\
  (~ (0 <= i < len a) -> panics (arv_SetEntry a i x) /\ panics (arv_AddToEntry a i x) /\ panics (arv_At a i)).
Proof.
  exact (fun O a n f i x H => conj (fun Hi => conj (arv_SetEntry_spec a n f i x H Hi) (arv_AddToEntry_spec a n f i x H Hi)) (SetEntry_bad a i x)).
Qed.
Print Assumptions C19_entries.

(** Every vector is a table, so the hypotheses above are met by any two
    vectors of the same length, here of length 2. *)
Example C19_ex : VecIs (O := E64) (VArr (fls [1; 2])) 2 (nthZ (fls [1; 2])) /\
  VecIs (O := E64) (VOther (fls [3; 5])) 2 (nthZ (fls [3; 5])) /\
  arv_Add (O := E64) (fls [1; 2]) (VOther (fls [3; 5])) = Ok (fls [4; 7]) /\
  arv_Combine (O := E64) (fls [1; 2]) (fl 2) (fl 10) (VArr (fls [3; 5])) = Ok (fls [32; 54]).
Proof.
  split; [exact (VecIs_self (O := E64) _)|]. split; [exact (VecIs_self (O := E64) _)|].
  vm_compute. auto.
Qed.
Example C19_ex_mismatch : len (fls [1; 2]) <> v_Dimension (VArr (O := E64) (fls [3])).
Proof. vm_compute. discriminate. Qed.

(** C20, partial: appending an *ArrayRealVector.  Missing: a foreign vector,
    for which the claim is false (next theorem). *)
Theorem C20_append_partial : forall (O : Ops) a b n m f g x,
  VecIs (VArr a) n f -> VecIs (VArr b) m g ->
  wp (arv_AppendVector a (VArr b)) (fun w => VecIs (VArr w) (n + m) (fun i => if i <? n then f i else g (i - n))) /\
  wp (arv_Append a x) (fun w => VecIs (VArr w) (n + 1) (fun i => if i <? n then f i else x)).
Proof. exact (fun O a b n m f g x Ha Hb => conj (arv_AppendVector_spec a b n m f g Ha Hb) (arv_Append_spec a n f x Ha)). Qed.
Print Assumptions C20_append_partial.
Example C20_append_ex : arv_AppendVector (O := E64) (fls [1; 2]) (VArr (fls [3])) = Ok (fls [1; 2; 3]).
Proof. reflexivity. Qed.

(** C20, refuted: appending the vector (2, 3) of another implementation to
    (1) does not give (1, 2, 3). *)
Theorem C20_append_foreign_refuted : exists (O : Ops) a b n m f g,
  VecIs (VArr a) n f /\ VecIs (VOther b) m g /\
  ~ wp (arv_AppendVector a (VOther b)) (fun w => VecIs (VArr w) (n + m) (fun i => if i <? n then f i else g (i - n))).
Proof. exact append_foreign_refuted. Qed.
Print Assumptions C20_append_foreign_refuted.

(** C20: sub-vectors.  An empty sub-vector can be taken anywhere but at 0. *)
Theorem C20_subvector : forall (O : Ops) a n f i k, VecIs (VArr a) n f ->
  (0 <= i -> 1 <= k -> i + k <= n -> wp (arv_SubVector a i k) (fun w => VecIs (VArr w) k (fun j => f (i + j)))) /\
  ((k < 0 \/ i < 0 \/ n < i + k \/ n <= i) -> panics (arv_SubVector a i k)) /\
  (k = 0 -> 1 <= i < n -> wp (arv_SubVector a i k) (fun w => w = [])) /\
  (k = 0 -> i = 0 -> panics (arv_SubVector a i k)).
Proof. exact (@SubVector_all). Qed.
Print Assumptions C20_subvector.
Theorem C20_set_subvector : forall (O : Ops) a n f i v m g, VecIs (VArr a) n f -> VecIs v m g ->
  (0 <= i -> 1 <= m -> i + m <= n ->
   wp (arv_SetSubVector a i v) (fun w => VecIs (VArr w) n (fun j => if (i <=? j) && (j <? i + m) then g (j - i) else f j))) /\
  ((i < 0 \/ n < i + m \/ n <= i) -> panics (arv_SetSubVector a i v)) /\
  (m = 0 -> i = 0 -> panics (arv_SetSubVector a i v)).
Proof. exact (@SetSubVector_all). Qed.
Print Assumptions C20_set_subvector.
Example C20_sub_ex : arv_SubVector (O := E64) (fls [1; 2; 3; 4]) 1 2 = Ok (fls [2; 3]) /\
  arv_SetSubVector (O := E64) (fls [1; 2; 3; 4]) 1 (VOther (fls [8; 9])) = Ok (fls [1; 8; 9; 4]).
Proof. vm_compute. auto. Qed.

(** C22: the smallest and largest entries, for every float64 vector (NaN and
    infinities included) on every platform. *)
Theorem C22_MinIndex : forall c (v : RealVector (O := SFOps c)) n f, VecIs v n f ->
  exists i, MinIndex v = Ok i /\
  ((i = -1 /\ forall j, 0 <= j < n -> sf_isnan (f j) = true) \/
   (0 <= i < n /\ sf_isnan (f i) = false /\
    (forall j, 0 <= j < n -> sf_isnan (f j) = false -> SFleb (f i) (f j) = true) /\
    (forall j, i < j < n -> SFleb (f j) (f i) = false))).
Proof. exact MinIndex_float. Qed.
Print Assumptions C22_MinIndex.
Theorem C22_MaxIndex : forall c (v : RealVector (O := SFOps c)) n f, VecIs v n f ->
  exists i, MaxIndex v = Ok i /\
  ((i = -1 /\ forall j, 0 <= j < n -> sf_isnan (f j) = true) \/
   (0 <= i < n /\ sf_isnan (f i) = false /\
    (forall j, 0 <= j < n -> sf_isnan (f j) = false -> SFleb (f j) (f i) = true) /\
    (forall j, i < j < n -> SFleb (f i) (f j) = false))).
Proof. exact MaxIndex_float. Qed.
Print Assumptions C22_MaxIndex.
Example C22_ex : MinIndex (O := E64) (VArr [NaN64; fl 3; fl (-1); fl (-1); NaN64; fl 2]) = Ok 3 /\
  MaxIndex (O := E64) (VArr [NaN64; NaN64]) = Ok (-1).
Proof. vm_compute. auto. Qed.

(** C23, vectors. *)
Theorem C23_vector_equals : forall c (a : list (@F (SFOps c))) v n m f g,
  VecIs (VArr a) n f -> VecIs v m g -> nan_free c (VArr a) -> nan_free c v ->
  (veq c a v <-> n = m /\ forall i, 0 <= i < n -> SFeqb (f i) (g i) = true) /\
  exists b, arv_Equals a false (Some v) = Ok b.
Proof. exact veq_iff. Qed.
Print Assumptions C23_vector_equals.
Theorem C23_vector_equivalence : forall c (a b : list (@F (SFOps c))) v,
  nan_free c (VArr a) -> nan_free c (VArr b) -> nan_free c v ->
  veq c a (VArr a) /\ (veq c a (VArr b) -> veq c b (VArr a)) /\ (veq c a (VArr b) -> veq c b v -> veq c a v).
Proof. exact (fun c a b v Ha Hb Hv => conj (veq_refl c a Ha) (conj (veq_sym c a b Ha Hb) (veq_trans c a b v Ha Hb Hv))). Qed.
Print Assumptions C23_vector_equivalence.
(** With NaN: a vector with a NaN equals exactly the vectors of its size with a
    NaN; the receiver itself is always equal and something that is not a vector
    never is. *)
Theorem C23_vector_nan : forall c (a : list (@F (SFOps c))) v n m f g, VecIs (VArr a) n f -> VecIs v m g ->
  (exists b, arv_Equals a false (Some v) = Ok b) /\
  (veq c a v <-> n = m /\ (((exists i, 0 <= i < n /\ sf_isnan (f i) = true) /\ exists i, 0 <= i < n /\ sf_isnan (g i) = true) \/
                          forall i, 0 <= i < n -> SFeqb (f i) (g i) = true)) /\
  (forall o, arv_Equals a true o = Ok true) /\ arv_Equals a false None = Ok false.
Proof. exact veq_all. Qed.
Print Assumptions C23_vector_nan.
Example C23_nan_ex : arv_Equals (O := E64) [NaN64; fl 1] false (Some (VArr [fl 2; NaN64])) = Ok true /\ arv_Equals (O := E64) [fl 2; fl 1] false (Some (VArr [fl 2; NaN64])) = Ok false.
Proof. vm_compute. auto. Qed.
Example C23_ex : veq c_amd64 (fls [1; 2]) (VOther (O := E64) (fls [1; 2])) /\
  veq c_amd64 [S754_zero false] (VArr (O := E64) [nzero64]) /\
  nan_free c_amd64 (VArr (O := E64) (fls [1; 2])).
Proof.
  split; [reflexivity|]. split; [reflexivity|]. intros i x H.
  apply (nth2_ok i (fl 1) (fl 2)) in H. destruct H as [-> | ->]; reflexivity.
Qed.

(** C46: walks over vectors. *)
Theorem C46_walks : forall (O : Ops) St a n f (v : VecVisitor St) st, VecIs (VArr a) n f ->
  arv_WalkInDefaultOrder a v st =
    Ok (let st' := vvisits v (range 0 n) f (vv_start v n 0 (n - 1) st) in (st', vv_end v st')) /\
  exists w, arv_WalkInUpdateDefaultOrder a v st =
    Ok (let st' := snd (vupdates v (range 0 n) f (vv_start v n 0 (n - 1) st)) in (w, st', vv_end v st')) /\
  VecIs (VArr w) n (fst (vupdates v (range 0 n) f (vv_start v n 0 (n - 1) st))).
Proof. exact (fun O St a n f v st H => conj (walk_ok a n f v st H) (walk_update_ok a n f v st H)). Qed.
Print Assumptions C46_walks.
Theorem C46_walks_bounded : forall (O : Ops) St a n f (v : VecVisitor St) s e st, VecIs (VArr a) n f -> 0 <= s <= e -> e < n ->
  arv_WalkInDefaultOrderBounded a v s e st =
    Ok (let st' := vvisits v (range s (e + 1)) f (vv_start v n s e st) in (st', vv_end v st')) /\
  exists w, arv_WalkInUpdateDefaultOrderBounded a v s e st =
    Ok (let st' := snd (vupdates v (range s (e + 1)) f (vv_start v n s e st)) in (w, st', vv_end v st')) /\
  VecIs (VArr w) n (fst (vupdates v (range s (e + 1)) f (vv_start v n s e st))).
Proof. exact (fun O St a n f v s e st H H1 H2 => conj (walk_bounded_ok a n f v s e st H H1 H2) (walk_update_bounded_ok a n f v s e st H H1 H2)). Qed.
Print Assumptions C46_walks_bounded.
Theorem C46_walks_bad : forall (O : Ops) St a (v : VecVisitor St) s e st, ~ (0 <= s <= e /\ e < len a) ->
  panics (arv_WalkInDefaultOrderBounded a v s e st) /\ panics (arv_WalkInUpdateDefaultOrderBounded a v s e st).
Proof. exact (@walk_bad). Qed.
Print Assumptions C46_walks_bad.
(** A visitor that adds up what it sees and doubles it. *)
Example C46_ex : arv_WalkInUpdateDefaultOrderBounded (O := E64) (fls [1; 2; 3])
  (mkVecVisitor (O := E64) (fun _ _ _ s => s) (fun _ x s => (sf_add x x, sf_add s x)) (fun s => s)) 1 2 (fl 0) =
  Ok (fls [1; 4; 6], fl 5, fl 5).
Proof. vm_compute. reflexivity. Qed.

(** The concrete cases beside C70. *)
From Coq Require Import ZArith List Reals Lia Lra Psatz Bool Floats.SpecFloat.
From Flocq Require Import Core.
From Verif Require Import Base BaseLemmas Scalar Vector VecSpec VectorFacts Matrix MatSpec Array2D BlockM Diagonal RealMatrixM MatFacts Array2DFacts MatrixOps Float64 RealOps ExampleOps RSum House RealVec QRSpec ExampleReal RndSpec FloatR RndSum RndEx RndTri RndLUEx RndHouse RndRefl RndApply RndQRSpec RndQR RndQR2 RndQREx SVDSpecR RndFrob Hess Tridiag Bidiag HessSpec BidiagFacts RndBidiagSpec RndBidiag3 QRProps.
Import ListNotations.
Open Scope Z_scope.

Lemma bd_bounds : forall m n, 1 <= m -> 1 <= n -> (10 * IZR (bd_steps m n) * (IZR (Z.max m n + 4) * ulp2) <= / 16)%R ->
  (0 <= bd_rel m n <= 11 * IZR (bd_steps m n) * (IZR (Z.max m n + 4) * ulp2))%R /\
  (0 <= bd_abs m n <= 2 * IZR (bd_steps m n) * (IZR (Z.max m n) * IZR (Z.max m n)) * powerRZ 2 (-537))%R.
Proof.
  intros m n Hm Hn H. assert (S : 1 <= bd_steps m n) by (unfold bd_steps; lia). destruct (qr_bounds (Z.max m n) (bd_steps m n) ltac:(lia) S H) as (B1 & B2). split; [exact B1|].
  assert (E : bd_abs m n = (IZR (Z.max m n) * qr_abs (Z.max m n) (bd_steps m n))%R) by (unfold bd_abs, qr_abs; ring). rewrite E.
  assert (0 <= IZR (Z.max m n))%R by (apply IZR_le; lia). split; [apply Rmult_le_pos; lra|].
  replace (2 * IZR (bd_steps m n) * (IZR (Z.max m n) * IZR (Z.max m n)) * powerRZ 2 (-537))%R with (IZR (Z.max m n) * (2 * IZR (bd_steps m n) * IZR (Z.max m n) * powerRZ 2 (-537)))%R by ring.
  apply Rmult_le_compat_l; lra.
Qed.

(** Above and below the two diagonals B is zero. *)
Lemma bd_shape_n (x : @RealMatrix E64) m n A d Bm d2 T : library x -> MatIs x m n A -> 1 <= m -> 1 <= n -> n <= m -> bd_of x d -> bd_B d = Ok (Bm, d2) -> MatIs Bm m n T ->
  forall i j, 0 <= i < m -> 0 <= j < n -> j <> i -> j <> i + 1 -> T i j = sf_zero.
Proof.
  intros Hl Hx Hm Hn Hnm Hd EB HB i j Hi Hj N1 N2. pose proof (bd_state x m n A d Hl Hx Hm Hn Hd) as K. destruct (bd_fin m n A) as [[M D] Sc].
  destruct (bd_B_ok _ _ _ _ _ _ Hm Hn K) as ([a2 e2] & E2 & _ & H2 & _). cbn [fst] in H2. rewrite EB in E2. injection E2 as <- <-.
  rewrite (MatIs_same _ _ _ _ _ HB H2) by lia. unfold bd_tabB, bu_tabB. destruct (Z.leb_spec n m); [|lia]. destruct (Z.eqb_spec i j); [lia|]. destruct (Z.eqb_spec j (i + 1)); [lia|]. reflexivity.
Qed.

(** ** [[1 1] [1 2] [1 4]] *)
Definition bd_t00 : sf := S754_finite true 7800463371553962 (-52).
Definition bd_run : bool :=
  match @NewBiDiagonalTransformer E64 (fmat exQ) with
  | Ok d => match @bd_U E64 d, @bd_B E64 d, @bd_V E64 d with
    | Ok (u, _), Ok (b, _), Ok (v, _) => ats numb u 3 3 && (ats numb b 3 2 && (ats numb v 2 2 && (at_p midb b 0 0 && (at_p midb b 0 1 && (at_p midb b 1 1 && at_p (sf_eqb bd_t00) b 0 0)))))
    | _, _, _ => false end
  | _ => false
  end.
Lemma bd_check : bd_run = true. Proof. vm_compute. reflexivity. Qed.
Lemma bd_ex : exists d Um Bm Vm (Uf T Vf : Z -> Z -> sf) d1 d2 d3 U V, @NewBiDiagonalTransformer E64 (fmat exQ) = Ok d /\
  bd_U d = Ok (Um, d1) /\ bd_B d = Ok (Bm, d2) /\ bd_V d = Ok (Vm, d3) /\ MatIs Um 3 3 Uf /\ MatIs Bm 3 2 T /\ MatIs Vm 2 2 Vf /\
  nums2 3 2 T /\ nums2 3 3 Uf /\ nums2 2 2 Vf /\ entry_range 3 2 T /\ bd_backward 3 2 (fent exQ) T U V /\
  q_close 3 2 Uf U /\ q_orthonormal 3 2 Uf /\ q_close 2 2 Vf V /\ q_orthonormal 2 2 Vf /\ bd_product 3 2 (fent exQ) Uf T Vf /\
  (fR (T 0%Z 0%Z) * fR (T 0%Z 0%Z) <> 3)%R /\ (bd_rel 3 2 + bd_abs 3 2 <= / 1000)%R.
Proof.
  pose proof bd_check as C. unfold bd_run in C. destruct (@NewBiDiagonalTransformer E64 (fmat exQ)) as [d|e|e] eqn:E; [|discriminate C|discriminate C].
  assert (Hd : bd_of (fmat exQ) d) by (exists d; split; [auto|constructor]). assert (Hl : library (fmat exQ)) by exact I.
  destruct (bd_sf_backward c_amd64 (fmat exQ) 3 2 (fent exQ) d Hl exQ_is ltac:(lia) ltac:(lia) size3 exQ_num Hd) as (Um & Bm & Vm & Uf & T & Vf & d1 & d2 & d3 & EU & EB & EV & HU & HB & HV & K).
  change (@bd_U (SFOps c_amd64) d) with (@bd_U E64 d) in EU. change (@bd_B (SFOps c_amd64) d) with (@bd_B E64 d) in EB. change (@bd_V (SFOps c_amd64) d) with (@bd_V E64 d) in EV. rewrite EU, EB, EV in C.
  apply andb_prop in C. destruct C as [C1 C]. apply andb_prop in C. destruct C as [C2 C]. apply andb_prop in C. destruct C as [C3 C]. apply andb_prop in C. destruct C as [C4 C]. apply andb_prop in C. destruct C as [C5 C]. apply andb_prop in C. destruct C as [C6 C7].
  assert (NU : nums2 3 3 Uf) by exact (ats_nums _ 3 3 _ C1 HU). assert (NT : nums2 3 2 T) by exact (ats_nums _ 3 2 _ C2 HB). assert (NV : nums2 2 2 Vf) by exact (ats_nums _ 2 2 _ C3 HV).
  rewrite (at_p_ok _ _ _ _ _ 0 0 HB ltac:(lia) ltac:(lia)) in C4. rewrite (at_p_ok _ _ _ _ _ 0 0 HB ltac:(lia) ltac:(lia)) in C7. rewrite (at_p_ok _ _ _ _ _ 0 1 HB ltac:(lia) ltac:(lia)) in C5. rewrite (at_p_ok _ _ _ _ _ 1 1 HB ltac:(lia) ltac:(lia)) in C6.
  pose proof (bd_shape_n _ 3 2 _ _ _ _ _ Hl exQ_is ltac:(lia) ltac:(lia) ltac:(lia) Hd EB HB) as Z0.
  assert (RT : entry_range 3 2 T).
  { intros i j Hi Hj. destruct (Z.eq_dec j i) as [->|N1]; [right; assert (i = 0 \/ i = 1) as [-> | ->] by lia; apply midb_ok; auto|].
    destruct (Z.eq_dec j (i + 1)) as [->|N2]; [right; assert (i = 0) as -> by lia; apply midb_ok; auto|]. left. rewrite Z0 by lia. reflexivity. }
  apply sf_eqb_ok in C7. destruct (K NT RT) as (U & V & KB & KU & KV & KP). destruct (KU NU) as (KU1 & KU2). destruct (KV NV) as (KV1 & KV2). specialize (KP NU NV).
  exists d, Um, Bm, Vm, Uf, T, Vf, d1, d2, d3, U, V. do 17 (split; [solve [auto]|]). split; [rewrite <- C7; apply t00_sq|].
  pose proof (bd_bounds 3 2 ltac:(lia) ltac:(lia)) as B. change (bd_steps 3 2) with 3 in B. change (Z.max 3 2) with 3 in B. change (IZR (3 + 4)) with 7%R in B. pose proof ulp2_le. pose proof small_537. specialize (B ltac:(lra)). lra.
Qed.

(** ** [2^-600]: its square underflows, and U divides by zero *)
Definition tiny_e : sf := S754_finite false 4503599627370496 (-652).
Definition tiny_l : list (list (@F E64)) := [[tiny_e]].
Definition tiny_x : @RealMatrix E64 := MArr (mkA2D (Some tiny_l)).
Definition tiny_t (i j : Z) : sf := @nthZ (@F E64) _ (nthZ tiny_l i) j.
Definition tiny_run : bool :=
  match @NewBiDiagonalTransformer E64 tiny_x with
  | Ok d => match @bd_U E64 d, @bd_B E64 d with
    | Ok (u, _), Ok (b, _) => at_p (fun x => negb (isfin x)) u 0 0 && at_p (fun x => match x with S754_zero _ => true | _ => false end) b 0 0
    | _, _ => false end
  | _ => false
  end.
Lemma tiny_check : tiny_run = true. Proof. vm_compute. reflexivity. Qed.
Lemma tiny_is : MatIs tiny_x 1 1 tiny_t.
Proof. unfold tiny_x. apply (MatIs_arr (O := E64)); try lia. split; [split; [reflexivity|]|intros; reflexivity]. intros i Hi. assert (i = 0) as -> by lia. reflexivity. Qed.
Lemma tiny_num : nums2 1 1 tiny_t.
Proof. intros i j Hi Hj. assert (i = 0) as -> by lia. assert (j = 0) as -> by lia. split; vm_compute; reflexivity. Qed.
Lemma bd_U_refuted : exists (x : @RealMatrix E64) (A : Z -> Z -> sf) d Um Bm (Uf T : Z -> Z -> sf) d1 d2, library x /\ MatIs x 1 1 A /\ qr_size 1 /\ nums2 1 1 A /\ bd_of x d /\
  bd_U d = Ok (Um, d1) /\ bd_B d = Ok (Bm, d2) /\ MatIs Um 1 1 Uf /\ MatIs Bm 1 1 T /\ nums2 1 1 T /\ entry_range 1 1 T /\ isfin (Uf 0 0) = false.
Proof.
  pose proof tiny_check as C. unfold tiny_run in C. destruct (@NewBiDiagonalTransformer E64 tiny_x) as [d|e|e] eqn:E; [|discriminate C|discriminate C].
  assert (Hd : bd_of tiny_x d) by (exists d; split; [auto|constructor]). assert (Hl : library tiny_x) by exact I.
  assert (Hs : qr_size 1) by (unfold qr_size; pose proof ulp2_le; change (IZR (1 + 4)) with 5%R; lra).
  destruct (bd_sf_backward c_amd64 tiny_x 1 1 tiny_t d Hl tiny_is ltac:(lia) ltac:(lia) Hs tiny_num Hd) as (Um & Bm & Vm & Uf & T & Vf & d1 & d2 & d3 & EU & EB & EV & HU & HB & HV & K).
  change (@bd_U (SFOps c_amd64) d) with (@bd_U E64 d) in EU. change (@bd_B (SFOps c_amd64) d) with (@bd_B E64 d) in EB. rewrite EU, EB in C. apply andb_prop in C. destruct C as [C1 C2].
  rewrite (at_p_ok _ _ _ _ _ 0 0 HU ltac:(lia) ltac:(lia)) in C1. rewrite (at_p_ok _ _ _ _ _ 0 0 HB ltac:(lia) ltac:(lia)) in C2.
  exists tiny_x, tiny_t, d, Um, Bm, Uf, T, d1, d2. split; [auto|]. split; [apply tiny_is|]. split; [auto|]. split; [apply tiny_num|]. do 5 (split; [auto|]).
  split; [|split].
  - intros i j Hi Hj. assert (i = 0) as -> by lia. assert (j = 0) as -> by lia. destruct (T 0 0); try discriminate C2. split; reflexivity.
  - intros i j Hi Hj. assert (i = 0) as -> by lia. assert (j = 0) as -> by lia. left. destruct (T 0 0); try discriminate C2. reflexivity.
  - destruct (isfin (Uf 0 0)); [discriminate C1|auto].
Qed.

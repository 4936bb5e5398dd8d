(** The concrete cases beside C72. *)
From Coq Require Import ZArith List Reals Lia Lra Psatz Bool Floats.SpecFloat.
From Flocq Require Import Core.
From Verif Require Import Base BaseLemmas Scalar Vector VecSpec VectorFacts Matrix MatSpec Array2D BlockM Diagonal RealMatrixM MatFacts Array2DFacts MatrixOps Float64 RealOps ExampleOps RSum House RealVec QRSpec ExampleReal RndSpec FloatR RndSum RndEx RndTri RndLUEx RndHouse RndRefl RndApply RndQRSpec RndQR RndQR2 RndQREx SVDSpecR RndFrob Hess HessSpec HessFacts RndHessSpec RndHess5.
Import ListNotations.
Open Scope Z_scope.

Lemma hs_bounds : forall n, 1 <= n -> (24 * IZR (hs_steps n) * (IZR (n + 4) * ulp2) <= / 16)%R ->
  (0 <= hs_rel n <= 27 * IZR (hs_steps n) * (IZR (n + 4) * ulp2))%R /\ (0 <= hs_abs n <= 4 * IZR (hs_steps n) * (IZR n * IZR n) * powerRZ 2 (-537))%R.
Proof.
  intros n Hn H. pose proof (kap_u n Hn) as Ku. pose proof ulp2_pos as Pu. unfold hs_rel, hs_abs, hs_grow. change (IZR (n + 4) * ulp2)%R with (kap n) in *. set (x := (12 * kap n)%R).
  assert (Hs : 0 <= hs_steps n) by (unfold hs_steps; lia). set (p := hs_steps n) in *. assert (Px : (0 <= x)%R) by (unfold x; lra). rewrite mult_IZR.
  assert (En : (INR (Z.to_nat (2 * p)) * x = 24 * IZR p * kap n)%R) by (rewrite INR_IZR_INZ, Z2Nat.id, mult_IZR by lia; unfold x; ring).
  pose proof (pow_small x (Z.to_nat (2 * p)) Px ltac:(lra)) as K. rewrite En in K. assert (Py : (0 <= 24 * IZR p * kap n)%R) by (rewrite <- En; apply Rmult_le_pos; [apply pos_INR|auto]). set (y := (24 * IZR p * kap n)%R) in *.
  assert (G1 : (1 <= (1 + x) ^ Z.to_nat (2 * p))%R) by (apply pow_R1_Rle; lra). set (g := ((1 + x) ^ Z.to_nat (2 * p))%R) in *.
  assert (G2 : (g <= 1 + 11 / 10 * y)%R) by nra. assert (G3 : (g <= 2)%R) by lra.
  assert (P0 : (0 <= IZR p)%R) by (apply (IZR_le 0); auto). assert (1 <= IZR n)%R by (apply (IZR_le 1); auto). pose proof (powerRZ_lt 2 (-537) ltac:(lra)) as P2. set (w := powerRZ 2 (-537)) in *.
  assert (W0 : (0 <= IZR n * (IZR n * w))%R) by (repeat apply Rmult_le_pos; lra). assert (W1 : (0 <= 2 * IZR p * (IZR n * (IZR n * w)))%R) by (repeat apply Rmult_le_pos; lra).
  assert (E : y = (24 * (IZR p * kap n))%R) by (unfold y; ring). assert (0 <= IZR p * kap n)%R by lra. split; [lra|]. split; [repeat apply Rmult_le_pos; lra|].
  replace (2 * IZR p * g * (IZR n * (IZR n * w)))%R with (g * (2 * IZR p * (IZR n * (IZR n * w))))%R by ring. replace (4 * IZR p * (IZR n * IZR n) * w)%R with (2 * (2 * IZR p * (IZR n * (IZR n * w))))%R by ring.
  apply Rmult_le_compat_r; lra.
Qed.

(** ** [[1 2 3] [4 5 6] [7 8 10]] *)
Definition exHe := [[1; 2; 3]; [4; 5; 6]; [7; 8; 10]].
Definition hs_t10 : sf := S754_finite true 4538647623875280 (-49).
Definition hs_run : bool :=
  match @NewHessenbergTransformer E64 (fmat exHe) with
  | Ok d => match @hs_H E64 d with
    | Ok (h, _) => ats numb h 3 3 && (at_p midb h 1 0 && at_p (sf_eqb hs_t10) h 1 0)
    | _ => false end
  | _ => false
  end.
Lemma hs_check : hs_run = true. Proof. vm_compute. reflexivity. Qed.
Lemma exHe_is : MatIs (fmat exHe) 3 3 (fent exHe).
Proof. apply fmat_is; try lia; try reflexivity. intros i Hi. assert (i = 0 \/ i = 1 \/ i = 2) as [-> | [-> | ->]] by lia; reflexivity. Qed.
Lemma exHe_num : nums2 3 3 (fent exHe).
Proof. intros i j Hi Hj. assert (i = 0 \/ i = 1 \/ i = 2) as [-> | [-> | ->]] by lia; assert (j = 0 \/ j = 1 \/ j = 2) as [-> | [-> | ->]] by lia; split; vm_compute; reflexivity. Qed.
Lemma t10_sq : (fR hs_t10 * fR hs_t10 <> 65)%R.
Proof.
  unfold hs_t10. cbn [fR]. change (powerRZ 2 (-49)) with (/ 2 ^ 49)%R. intros H. assert (P : (2 ^ 49 <> 0)%R) by (apply pow_nonzero; lra).
  assert (E : (IZR (-4538647623875280) * IZR (-4538647623875280) = 65 * (2 ^ 49 * 2 ^ 49))%R).
  { rewrite <- H. field. }
  rewrite pow_IZR, <- !mult_IZR in E. apply eq_IZR in E. vm_compute in E. discriminate E.
Qed.
Lemma hs_ex : exists d Hm Pm (T Pf : Z -> Z -> sf) d1 d2 Q, @NewHessenbergTransformer E64 (fmat exHe) = Ok d /\
  hs_H d = Ok (Hm, d1) /\ hs_P d = Ok (Pm, d2) /\ MatIs Hm 3 3 T /\ MatIs Pm 3 3 Pf /\ nums2 3 3 T /\ nums2 3 3 Pf /\ sub_range 3 T /\
  hs_backward 3 (fent exHe) T Q /\ q_close 3 1 Pf Q /\ q_orthonormal 3 1 Pf /\ hs_product 3 (fent exHe) Pf T /\
  (fR (T 1%Z 0%Z) * fR (T 1%Z 0%Z) <> 65)%R /\ (hs_rel 3 + hs_abs 3 <= / 1000)%R.
Proof.
  pose proof hs_check as C. unfold hs_run in C. destruct (@NewHessenbergTransformer E64 (fmat exHe)) as [d|e|e] eqn:E; [|discriminate C|discriminate C].
  assert (Hd : hs_of (fmat exHe) d) by (exists d; split; [auto|constructor]). assert (Hl : library (fmat exHe)) by exact I.
  destruct (hs_sf_backward c_amd64 (fmat exHe) 3 (fent exHe) d Hl exHe_is ltac:(lia) size3 exHe_num Hd) as (Hm & Pm & Pt & T & Pf & d1 & d2 & d3 & EH & EP & ET & HH & HP & HT & K).
  change (@hs_H (SFOps c_amd64) d) with (@hs_H E64 d) in EH. rewrite EH in C. apply andb_prop in C. destruct C as [C1 C]. apply andb_prop in C. destruct C as [C2 C3].
  assert (NT : nums2 3 3 T) by exact (ats_nums _ 3 3 _ C1 HH).
  rewrite (at_p_ok _ _ _ _ _ 1 0 HH ltac:(lia) ltac:(lia)) in C2. rewrite (at_p_ok _ _ _ _ _ 1 0 HH ltac:(lia) ltac:(lia)) in C3.
  assert (RT : sub_range 3 T) by (intros k Hk; assert (k = 1) as -> by lia; right; apply midb_ok; auto). apply sf_eqb_ok in C3.
  destruct (K NT RT) as (NP & Q & KB & KP). change (hs_steps 3) with 1 in *. pose proof ulp2_le. pose proof ulp2_pos. pose proof small_537. change (IZR (3 + 4)) with 7%R in NP. specialize (NP ltac:(lra)). destruct (KP NP) as (KP1 & KP2 & KP3).
  exists d, Hm, Pm, T, Pf, d1, d2, Q. do 12 (split; [solve [auto]|]). split; [rewrite <- C3; apply t10_sq|].
  pose proof (hs_bounds 3 ltac:(lia)) as B. change (hs_steps 3) with 1 in B. change (IZR (3 + 4)) with 7%R in B. specialize (B ltac:(lra)). lra.
Qed.

(** ** A subdiagonal entry 2^-1074: the step is skipped, and P divides zero by zero *)
Definition sub_e : sf := S754_finite false 1 (-1074).
Definition sub_l : list (list (@F E64)) := [[sf_zero; sf_zero; sf_zero]; [sub_e; sf_zero; sf_zero]; [sf_zero; sf_zero; sf_zero]].
Definition sub_x : @RealMatrix E64 := MArr (mkA2D (Some sub_l)).
Definition sub_t (i j : Z) : sf := @nthZ (@F E64) _ (nthZ sub_l i) j.
Definition sub_run : bool :=
  match @NewHessenbergTransformer E64 sub_x with
  | Ok d => match @hs_H E64 d, @hs_P E64 d with
    | Ok (h, _), Ok (p, _) => ats numb h 3 3 && at_p (fun x => negb (isfin x)) p 1 1
    | _, _ => false end
  | _ => false
  end.
Lemma sub_check : sub_run = true. Proof. vm_compute. reflexivity. Qed.
Lemma sub_is : MatIs sub_x 3 3 sub_t.
Proof. unfold sub_x. apply (MatIs_arr (O := E64)); try lia. split; [split; [reflexivity|]|intros; reflexivity]. intros i Hi. assert (i = 0 \/ i = 1 \/ i = 2) as [-> | [-> | ->]] by lia; reflexivity. Qed.
Lemma sub_num : nums2 3 3 sub_t.
Proof. intros i j Hi Hj. assert (i = 0 \/ i = 1 \/ i = 2) as [-> | [-> | ->]] by lia; assert (j = 0 \/ j = 1 \/ j = 2) as [-> | [-> | ->]] by lia; split; vm_compute; reflexivity. Qed.
Lemma hs_P_refuted : exists (x : @RealMatrix E64) (A : Z -> Z -> sf) d Hm Pm (T Pf : Z -> Z -> sf) d1 d2, library x /\ MatIs x 3 3 A /\ qr_size 3 /\ nums2 3 3 A /\ hs_of x d /\
  hs_H d = Ok (Hm, d1) /\ hs_P d = Ok (Pm, d2) /\ MatIs Hm 3 3 T /\ MatIs Pm 3 3 Pf /\ nums2 3 3 T /\ isfin (Pf 1 1) = false.
Proof.
  pose proof sub_check as C. unfold sub_run in C. destruct (@NewHessenbergTransformer E64 sub_x) as [d|e|e] eqn:E; [|discriminate C|discriminate C].
  assert (Hd : hs_of sub_x d) by (exists d; split; [auto|constructor]). assert (Hl : library sub_x) by exact I.
  destruct (hs_sf_backward c_amd64 sub_x 3 sub_t d Hl sub_is ltac:(lia) size3 sub_num Hd) as (Hm & Pm & Pt & T & Pf & d1 & d2 & d3 & EH & EP & ET & HH & HP & HT & K).
  change (@hs_H (SFOps c_amd64) d) with (@hs_H E64 d) in EH. change (@hs_P (SFOps c_amd64) d) with (@hs_P E64 d) in EP. rewrite EH, EP in C. apply andb_prop in C. destruct C as [C1 C2].
  rewrite (at_p_ok _ _ _ _ _ 1 1 HP ltac:(lia) ltac:(lia)) in C2.
  exists sub_x, sub_t, d, Hm, Pm, T, Pf, d1, d2. split; [auto|]. split; [apply sub_is|]. split; [apply size3|]. split; [apply sub_num|]. do 5 (split; [solve [auto]|]). split; [exact (ats_nums _ 3 3 _ C1 HH)|].
  destruct (isfin (Pf 1 1)); [discriminate C2|auto].
Qed.

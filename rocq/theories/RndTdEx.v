(** The concrete cases beside C73. *)
From Coq Require Import ZArith List Reals Lia Lra Psatz Bool Floats.SpecFloat.
From Flocq Require Import Core.
From Verif Require Import Base BaseLemmas Scalar Vector VecSpec VectorFacts Matrix MatSpec Array2D BlockM Diagonal RealMatrixM MatFacts Array2DFacts MatrixOps Float64 RealOps ExampleOps RSum House RealVec QRSpec ExampleReal RndSpec FloatR RndSum RndEx RndTri RndLUEx RndHouse RndRefl RndApply RndQRSpec RndQR RndQR2 RndQREx SVDSpecR RndFrob Tridiag HessSpec TridiagFacts RndTdSpec RndTd6.
Import ListNotations.
Open Scope Z_scope.

Lemma td_bounds : forall n, 1 <= n -> (60 * IZR (n - 1) * (IZR (n + 4) * ulp2) <= / 16)%R ->
  (0 <= td_rel n <= 66 * IZR (n - 1) * (IZR (n + 4) * ulp2))%R /\ (0 <= td_abs n <= 4 * IZR (n - 1) * IZR n * powerRZ 2 (-537))%R.
Proof.
  intros n Hn H. pose proof (kap_u n Hn) as Ku. pose proof ulp2_pos as Pu. unfold td_rel, td_abs, td_grow. change (IZR (n + 4) * ulp2)%R with (kap n) in *. set (x := (60 * kap n)%R).
  set (p := n - 1) in *. assert (Hs : 0 <= p) by lia. assert (Px : (0 <= x)%R) by (unfold x; lra).
  assert (En : (INR (Z.to_nat p) * x = 60 * IZR p * kap n)%R) by (rewrite INR_IZR_INZ, Z2Nat.id by lia; unfold x; ring).
  pose proof (pow_small x (Z.to_nat p) Px ltac:(lra)) as K. rewrite En in K. assert (Py : (0 <= 60 * IZR p * kap n)%R) by (rewrite <- En; apply Rmult_le_pos; [apply pos_INR|auto]). set (y := (60 * IZR p * kap n)%R) in *.
  assert (G1 : (1 <= (1 + x) ^ Z.to_nat p)%R) by (apply pow_R1_Rle; lra). set (g := ((1 + x) ^ Z.to_nat p)%R) in *.
  assert (G2 : (g <= 1 + 11 / 10 * y)%R) by nra. assert (G3 : (g <= 2)%R) by lra.
  assert (P0 : (0 <= IZR p)%R) by (apply (IZR_le 0); auto). assert (1 <= IZR n)%R by (apply (IZR_le 1); auto). pose proof (powerRZ_lt 2 (-537) ltac:(lra)) as P2. set (w := powerRZ 2 (-537)) in *.
  assert (W1 : (0 <= 2 * IZR p * (IZR n * w))%R) by (repeat apply Rmult_le_pos; lra).
  assert (E : y = (60 * (IZR p * kap n))%R) by (unfold y; ring). assert (0 <= IZR p * kap n)%R by lra. split; [lra|]. split; [repeat apply Rmult_le_pos; lra|].
  replace (IZR p * g * (2 * (IZR n * w)))%R with (g * (2 * IZR p * (IZR n * w)))%R by ring. replace (4 * IZR p * IZR n * w)%R with (2 * (2 * IZR p * (IZR n * w)))%R by ring.
  apply Rmult_le_compat_r; lra.
Qed.
Lemma midb_ok2 x : midb x = true -> (powerRZ 2 (-450) <= Rabs (fR x) <= powerRZ 2 500)%R.
Proof.
  destruct x as [s|s| |s m e]; try discriminate. cbn [midb fR]. intros H. apply andb_prop in H. destruct H as [H1 H]. apply andb_prop in H. destruct H as [H2 H3]. apply Z.leb_le in H1, H2. apply Z.ltb_lt in H3.
  rewrite !pz. assert (P : (0 < b2 e)%R) by apply bpow_gt_0. rewrite Rabs_mult, (Rabs_pos_eq (b2 e)) by lra.
  replace (Rabs (IZR (if s then Z.neg m else Z.pos m))) with (IZR (Zpos m)) by (destruct s; [rewrite <- Pos2Z.opp_pos, opp_IZR, Rabs_Ropp|]; rewrite Rabs_pos_eq by (apply IZR_le; lia); auto).
  assert (1 <= IZR (Zpos m))%R by (apply (IZR_le 1); lia). assert (IZR (Zpos m) <= b2 60)%R. { change (b2 60) with (IZR (2 ^ 60)). apply IZR_le. lia. }
  pose proof (bpow_le radix2 (-450) e H1). pose proof (bpow_le radix2 e 400 H2).
  split; [nra|]. apply Rle_trans with (b2 60 * b2 400)%R; [apply Rmult_le_compat; lra|]. rewrite <- bpow_plus. apply bpow_le. lia.
Qed.

(** ** [[2 1 2] [1 3 4] [2 4 5]] *)
Definition exTd := [[2; 1; 2]; [1; 3; 4]; [2; 4; 5]].
Definition td_t01 : sf := S754_finite true 5035177455121576 (-51).
Definition td_run : bool :=
  match @NewTriDiagonalTransformer E64 (fmat exTd) with
  | Ok d => match @td_T E64 d, @td_Q E64 d with
    | Ok (h, _), Ok (q, _) => ats numb h 3 3 && (ats numb q 3 3 && (at_p midb h 0 1 && (at_p midb h 1 2 && at_p (sf_eqb td_t01) h 0 1)))
    | _, _ => false end
  | _ => false
  end.
Lemma td_check : td_run = true. Proof. vm_compute. reflexivity. Qed.
Lemma exTd_is : MatIs (fmat exTd) 3 3 (fent exTd).
Proof. apply fmat_is; try lia; try reflexivity. intros i Hi. assert (i = 0 \/ i = 1 \/ i = 2) as [-> | [-> | ->]] by lia; reflexivity. Qed.
Lemma exTd_num : nums2 3 3 (fent exTd).
Proof. intros i j Hi Hj. assert (i = 0 \/ i = 1 \/ i = 2) as [-> | [-> | ->]] by lia; assert (j = 0 \/ j = 1 \/ j = 2) as [-> | [-> | ->]] by lia; split; vm_compute; reflexivity. Qed.
Lemma t01_sq : (fR td_t01 * fR td_t01 <> 5)%R.
Proof.
  unfold td_t01. cbn [fR]. change (powerRZ 2 (-51)) with (/ 2 ^ 51)%R. intros H. assert (P : (2 ^ 51 <> 0)%R) by (apply pow_nonzero; lra).
  assert (E : (IZR (-5035177455121576) * IZR (-5035177455121576) = 5 * (2 ^ 51 * 2 ^ 51))%R).
  { rewrite <- H. field. }
  rewrite pow_IZR, <- !mult_IZR in E. apply eq_IZR in E. vm_compute in E. discriminate E.
Qed.
Lemma td_ex : exists d Tm Qm (T Qf : Z -> Z -> sf) d1 d2 Q, @NewTriDiagonalTransformer E64 (fmat exTd) = Ok d /\
  td_T d = Ok (Tm, d1) /\ td_Q d = Ok (Qm, d2) /\ MatIs Tm 3 3 T /\ MatIs Qm 3 3 Qf /\ nums2 3 3 T /\ nums2 3 3 Qf /\ sec_range 3 T /\ tri_shape 3 T /\
  td_backward 3 (fent exTd) T Q /\ q_close 3 2 Qf Q /\ q_orthonormal 3 2 Qf /\ td_productQ 3 (fent exTd) Qf T /\
  (fR (T 0%Z 1%Z) * fR (T 0%Z 1%Z) <> 5)%R /\ (td_rel 3 + td_abs 3 <= / 1000)%R.
Proof.
  pose proof td_check as C. unfold td_run in C. destruct (@NewTriDiagonalTransformer E64 (fmat exTd)) as [d|e|e] eqn:E; [|discriminate C|discriminate C].
  assert (Hd : td_of (fmat exTd) d) by (exists d; split; [auto|constructor]). assert (Hl : library (fmat exTd)) by exact I.
  destruct (td_sf_backward c_amd64 (fmat exTd) 3 (fent exTd) d Hl exTd_is ltac:(lia) size3 exTd_num Hd) as (Tm & Qm & Qt & T & Qf & d1 & d2 & d3 & ET & EQ & EQt & HT & HQ & HQt & HS & K).
  change (@td_T (SFOps c_amd64) d) with (@td_T E64 d) in ET. change (@td_Q (SFOps c_amd64) d) with (@td_Q E64 d) in EQ. rewrite ET, EQ in C. apply andb_prop in C. destruct C as [C1 C]. apply andb_prop in C. destruct C as [C2 C]. apply andb_prop in C. destruct C as [C3 C]. apply andb_prop in C. destruct C as [C4 C5].
  assert (NT : nums2 3 3 T) by exact (ats_nums _ 3 3 _ C1 HT). assert (NQ : nums2 3 3 Qf) by exact (ats_nums _ 3 3 _ C2 HQ).
  rewrite (at_p_ok _ _ _ _ _ 0 1 HT ltac:(lia) ltac:(lia)) in C3. rewrite (at_p_ok _ _ _ _ _ 1 2 HT ltac:(lia) ltac:(lia)) in C4. rewrite (at_p_ok _ _ _ _ _ 0 1 HT ltac:(lia) ltac:(lia)) in C5.
  assert (RT : sec_range 3 T) by (intros k Hk; assert (k = 0 \/ k = 1) as [-> | ->] by lia; right; apply midb_ok2; auto). apply sf_eqb_ok in C5.
  destruct (K NT RT) as (_ & Q & KB & KP). change (3 - 1) with 2 in *. pose proof ulp2_le. pose proof ulp2_pos. pose proof small_537. destruct (KP NQ) as (KP1 & KP2 & KP3).
  exists d, Tm, Qm, T, Qf, d1, d2, Q. do 13 (split; [solve [auto]|]). split; [rewrite <- C5; apply t01_sq|].
  pose proof (td_bounds 3 ltac:(lia)) as B. change (IZR (3 + 4)) with 7%R in B. change (IZR (3 - 1)) with 2%R in B. specialize (B ltac:(lra)). lra.
Qed.

(** ** [[1 e] [e 1]] with e = 2^-600: e^2 underflows, and Q divides by zero *)
Definition ue : sf := S754_finite false (2 ^ 52) (-652).
Definition u_l : list (list (@F E64)) := [[sf_of_Z 1; ue]; [ue; sf_of_Z 1]].
Definition u_x : @RealMatrix E64 := MArr (mkA2D (Some u_l)).
Definition u_t (i j : Z) : sf := @nthZ (@F E64) _ (nthZ u_l i) j.
Definition u_run : bool :=
  match @NewTriDiagonalTransformer E64 u_x with
  | Ok d => match @td_T E64 d, @td_Q E64 d with
    | Ok (h, _), Ok (p, _) => ats numb h 2 2 && at_p (fun x => negb (isfin x)) p 1 1
    | _, _ => false end
  | _ => false
  end.
Lemma u_check : u_run = true. Proof. vm_compute. reflexivity. Qed.
Lemma u_is : MatIs u_x 2 2 u_t.
Proof. unfold u_x. apply (MatIs_arr (O := E64)); try lia. split; [split; [reflexivity|]|intros; reflexivity]. intros i Hi. assert (i = 0 \/ i = 1) as [-> | ->] by lia; reflexivity. Qed.
Lemma u_num : nums2 2 2 u_t.
Proof. intros i j Hi Hj. assert (i = 0 \/ i = 1) as [-> | ->] by lia; assert (j = 0 \/ j = 1) as [-> | ->] by lia; split; vm_compute; reflexivity. Qed.
Lemma td_Q_refuted : exists (x : @RealMatrix E64) (A : Z -> Z -> sf) d Tm Qm (T Qf : Z -> Z -> sf) d1 d2, library x /\ MatIs x 2 2 A /\ nums2 2 2 A /\ (forall i j, 0 <= i < 2 -> 0 <= j < 2 -> A i j = A j i) /\ td_of x d /\
  td_T d = Ok (Tm, d1) /\ td_Q d = Ok (Qm, d2) /\ MatIs Tm 2 2 T /\ MatIs Qm 2 2 Qf /\ nums2 2 2 T /\ isfin (Qf 1 1) = false.
Proof.
  pose proof u_check as C. unfold u_run in C. destruct (@NewTriDiagonalTransformer E64 u_x) as [d|e|e] eqn:E; [|discriminate C|discriminate C].
  assert (Hd : td_of u_x d) by (exists d; split; [auto|constructor]). assert (Hl : library u_x) by exact I.
  assert (Hs : qr_size 2). { unfold qr_size. pose proof ulp2_le. pose proof ulp2_pos. change (IZR (2 + 4)) with 6%R. lra. }
  destruct (td_sf_backward c_amd64 u_x 2 u_t d Hl u_is ltac:(lia) Hs u_num Hd) as (Tm & Qm & Qt & T & Qf & d1 & d2 & d3 & ET & EQ & EQt & HT & HQ & HQt & HS & K).
  change (@td_T (SFOps c_amd64) d) with (@td_T E64 d) in ET. change (@td_Q (SFOps c_amd64) d) with (@td_Q E64 d) in EQ. rewrite ET, EQ in C. apply andb_prop in C. destruct C as [C1 C2].
  rewrite (at_p_ok _ _ _ _ _ 1 1 HQ ltac:(lia) ltac:(lia)) in C2.
  exists u_x, u_t, d, Tm, Qm, T, Qf, d1, d2. split; [auto|]. split; [apply u_is|]. split; [apply u_num|]. split; [intros i j Hi Hj; assert (i = 0 \/ i = 1) as [-> | ->] by lia; assert (j = 0 \/ j = 1) as [-> | ->] by lia; reflexivity|]. do 5 (split; [solve [auto]|]). split; [exact (ats_nums _ 2 2 _ C1 HT)|].
  destruct (isfin (Qf 1 1)); [discriminate C2|auto].
Qed.

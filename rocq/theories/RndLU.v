(** Backward rounding errors of the LU decomposition and its solver. *)
From Coq Require Import ZArith QArith List Reals Lia Lra Bool Floats.SpecFloat.
From Verif Require Import Base BaseLemmas Scalar Vector VecSpec Matrix MatSpec Array2D BlockM Diagonal RealMatrixM MatFacts MatrixOps Float64 TabTac RSum RndSpec FloatR RndSum RndTri LU LUSpec LUFacts LUFacts2 LUProps.
Import ListNotations.
Open Scope Z_scope.

Section Tables.
Context (c : Z).
Let O := SFOps c.
Existing Instance O.
Context (n : Z) (A : Z -> Z -> sf) (thr : sf) (M : Z -> Z -> sf) (p : Z -> Z).
Let L : Z -> Z -> sf := @tabL O M.
Let U : Z -> Z -> sf := @tabU O M.
Context (Hn : 1 <= n) (HA : nums2 n n A) (Hp : forall i, 0 <= i < n -> 0 <= p i < n) (HL : nums2 n n L) (HU : nums2 n n U) (Inv : @lu_inv O n A thr n M p).

Lemma Mlow i j : 0 <= j < i -> L i j = M i j. Proof. intros. unfold L, tabL. zb. auto. Qed.
Lemma Mup i j : i <= j -> U i j = M i j. Proof. intros. unfold U, tabU. zb. auto. Qed.
Lemma L1 i : fR (L i i) = 1%R. Proof. unfold L, tabL. zb. apply fR_one. Qed.
Lemma L0 i j : i < j -> fR (L i j) = 0%R. Proof. intros. unfold L, tabL. zb. reflexivity. Qed.
Lemma U0 i j : j < i -> fR (U i j) = 0%R. Proof. intros. unfold U, tabU. zb. reflexivity. Qed.
Lemma Mnum i j : 0 <= i < n -> 0 <= j < n -> num (M i j).
Proof. intros. destruct (Z.le_gt_cases i j); [rewrite <- Mup by lia; apply HU; auto|rewrite <- Mlow by lia; apply HL; auto]. Qed.
Lemma mono_back k x S T y : 0 <= k <= n -> (0 <= T)%R -> (Rabs (x - S) <= gam k * T + y * grow k * tiny)%R -> (0 <= y)%R ->
  (Rabs (S - x) <= gam n * T + y * grow n * tiny)%R.
Proof.
  intros Hk HT H Hy. rewrite Rabs_minus_sym. eapply Rle_trans; [exact H|]. pose proof (grow_le k n ltac:(lia)). pose proof tiny_pos. unfold gam.
  apply Rplus_le_compat; [apply Rmult_le_compat_r; lra|]. apply Rmult_le_compat_r; [lra|]. apply Rmult_le_compat_l; lra.
Qed.

Lemma lu_factors_close : factors_close n (fun i j => A (p i) j) L U.
Proof.
  intros i j Hi Hj. pose proof (Hp i Hi) as Hpi. destruct (HA (p i) j Hpi Hj) as [VA _]. destruct Inv as (I1 & I2 & _). unfold mdot, msize.
  pose proof (Rabs_pos (fR (U j j))) as Pu. pose proof (IZR_le 0 n ltac:(lia)) as Pn. pose proof tiny_pos as Pt. pose proof (grow_ge1 n) as Pg.
  destruct (Z.le_gt_cases i j) as [Hij|Hij].
  - assert (E : M i j = @fsubs O (A (p i) j) i (fun t => sf_mul (L i t) (U t j))).
    { rewrite I1 by lia. apply (@fsubs_ext O). intros t Ht. rewrite Mlow, Mup by lia. reflexivity. }
    assert (F : isfin (M i j) = true) by (apply Mnum; auto). rewrite E in F.
    destruct (back_subs c _ i (fun t => L i t) (fun t => U t j) ltac:(lia) VA) as (_ & _ & K); auto.
    { intros t Ht. split; [apply HL; lia|apply HU; lia]. }
    change (@fsubs (SFOps c)) with (@fsubs O) in K. rewrite <- E in K. rewrite <- (Mup i j) in K by lia.
    rewrite !(Rs_trunc 0 (i + 1) n) by (try lia; intros; rewrite L0 by lia; rewrite ?Rabs_R0; ring). rewrite !Rs_last, L1, Rabs_R1, !Rmult_1_l by lia.
    rewrite (Rplus_comm (Rs 0 i (fun t => Rabs _ * Rabs _)%R)).
    eapply Rle_trans; [eapply (mono_back i _ _ _ (IZR i)); [lia| | |apply (IZR_le 0); lia]|].
    + apply Rplus_le_le_0_compat; [apply Rabs_pos|apply absprod_nonneg].
    + eapply Rle_trans; [|exact K]. right. f_equal. ring.
    + apply Rplus_le_compat_l. apply Rmult_le_compat_r; [lra|]. apply Rmult_le_compat_r; [lra|]. pose proof (IZR_le i n ltac:(lia)). lra.
  - destruct (I2 i j) as (d & Ed & Em & _); try lia.
    assert (E : d = @fsubs O (A (p i) j) j (fun t => sf_mul (L i t) (U t j))).
    { rewrite Ed. apply (@fsubs_ext O). intros t Ht. rewrite Mlow, Mup by lia. reflexivity. }
    assert (F : isfin (M i j) = true) by (apply Mnum; auto). rewrite Em in F. cbn [fdiv O SFOps] in Em, F.
    pose proof (sf_div_fin _ _ F) as Fd. rewrite E in Fd.
    pose proof (back_subs c _ j (fun t => L i t) (fun t => U t j) ltac:(lia) VA) as K.
    specialize (K ltac:(intros t Ht; split; [apply HL; lia|apply HU; lia]) Fd). change (@fsubs (SFOps c)) with (@fsubs O) in K. cbv beta in K. rewrite <- E in K.
    pose proof (back_div j _ _ _ _ (M j j) ltac:(lia) (absprod_nonneg _ _ _ _) K (Mnum j j Hj Hj) F) as D. rewrite <- Em in D.
    rewrite <- (Mlow i j), <- (Mup j j) in D by lia.
    rewrite !(Rs_trunc 0 (j + 1) n) by (try lia; intros; rewrite (U0 _ j) by lia; rewrite ?Rabs_R0; ring). rewrite !Rs_last by lia.
    eapply Rle_trans; [eapply (mono_back (j + 1) _ _ _ (IZR j + Rabs (fR (U j j)))); [lia| |exact D|]|].
    + apply Rplus_le_le_0_compat; [apply absprod_nonneg|apply Rmult_le_pos; apply Rabs_pos].
    + pose proof (IZR_le 0 j ltac:(lia)). lra.
    + apply Rplus_le_compat_l. apply Rmult_le_compat_r; [lra|]. apply Rmult_le_compat_r; [lra|]. pose proof (IZR_le j n ltac:(lia)). lra.
Qed.

Lemma lu_multipliers i j : 0 <= i < n -> 0 <= j < n -> (Rabs (fR (L i j)) <= 1)%R.
Proof.
  intros Hi Hj. destruct (Z.lt_total i j) as [H|[->|H]].
  - rewrite L0, Rabs_R0 by lia. lra.
  - rewrite L1, Rabs_R1. lra.
  - destruct Inv as (_ & I2 & _). destruct (I2 i j) as (d & Ed & Em & Hc); try lia. specialize (Hc (sf_order_laws c)). cbn [flt fabs fdiv O SFOps] in Hc, Em.
    pose proof (Mnum i j Hi Hj) as [_ F]. rewrite Em in F. pose proof (sf_div_fin _ _ F) as Fd. pose proof (Mnum j j Hj Hj) as Hu.
    assert (Vd : sf_valid d = true).
    { destruct (back_subs c (A (p i) j) j (fun t => M i t) (fun t => M t j)) as (V & _); try lia.
      - apply HA; auto.
      - intros t Ht. split; apply Mnum; lia.
      - change (@fsubs (SFOps c)) with (@fsubs O). cbn [fmul O SFOps] in Ed. rewrite <- Ed. exact Fd.
      - change (@fsubs (SFOps c)) with (@fsubs O) in V. cbn [fmul O SFOps] in Ed. rewrite <- Ed in V. exact V. }
    rewrite Mlow by lia. rewrite Em. apply div_le1; [split; auto|auto|eapply div_zero_fin; [exact F|apply Hu]|].
    apply Rnot_lt_le. intros K. rewrite <- !abs_ok in K. apply ltb_ok in K; try apply abs_num; auto; [congruence|split; auto].
Qed.

Lemma lu_solves_close b x : nums n b -> nums n x -> @lu_sol O n M b x -> solves_close n (fun i j => A (p i) j) L U x b.
Proof.
  intros Hb Hx (y & Hy & Hxy). pose proof tiny_pos as Pt. pose proof (grow_ge1 n) as Pg. pose proof (IZR_le 0 n ltac:(lia)) as Pn.
  assert (Vy : forall i, 0 <= i < n -> sf_valid (y i) = true).
  { intros i Hi0. refine (Z_lt_induction (fun i => 0 <= i < n -> sf_valid (y i) = true) _ i (proj1 Hi0) Hi0). clear i Hi0. intros i IH Hi. rewrite Hy by auto.
    apply (subs_valid c (b i) i y (M i)); [lia|apply Hb; auto|]. intros t Ht. split; [apply IH; lia|apply Mnum; lia]. }
  set (W := fun t => ((IZR n + Rabs (fR (U t t))) * grow n * tiny)%R).
  assert (PW : forall t, (0 <= W t)%R).
  { intros t. unfold W. pose proof (Rabs_pos (fR (U t t))). apply Rmult_le_pos; [|lra]. apply Rmult_le_pos; lra. }
  set (X := fun t => Rs 0 n (fun j => Rabs (fR (U t j)) * Rabs (fR (x j)))%R).
  (* the backward substitution *)
  assert (Sx : forall i, 0 <= i < n -> isfin (y i) = true /\
    (Rabs (fR (y i) - Rs 0 n (fun t => fR (U i t) * fR (x t))) <= gam n * X i + W i)%R).
  { intros i Hi. pose proof (Hxy i Hi) as E. cbn [fdiv fmul O SFOps] in E. destruct (Hx i Hi) as [_ F]. rewrite E in F. pose proof (sf_div_fin _ _ F) as Fc.
    pose proof (back_subd c (y i) n x (M i) (n - (i + 1)) (Vy i Hi) ltac:(lia)) as K. replace (n - (n - (i + 1))) with (i + 1) in K by lia.
    specialize (K ltac:(intros t Ht; split; [apply Hx; lia|apply Mnum; lia]) Fc). split; [apply K|].
    pose proof (back_div (n - (i + 1)) _ _ _ _ (M i i) ltac:(lia) (absprod_nonneg _ _ _ _) K (Mnum i i Hi Hi) F) as D. change (@fsubd (SFOps c)) with (@fsubd O) in D. rewrite <- E in D.
    rewrite <- (Mup i i) in D by lia. unfold X. rewrite !(Rs_low 0 i n) by (try lia; intros; rewrite (U0 i) by lia; rewrite ?Rabs_R0; ring).
    rewrite !(Rs_first i n) by lia. rewrite Rabs_minus_sym.
    rewrite (Rs_ext (i + 1) n (fun t => Rabs (fR (U i t)) * Rabs (fR (x t)))%R (fun t => Rabs (fR (x t)) * Rabs (fR (M i t)))%R) by (intros; rewrite Mup by lia; ring).
    rewrite (Rs_ext (i + 1) n (fun t => fR (U i t) * fR (x t))%R (fun t => fR (x t) * fR (M i t))%R) by (intros; rewrite Mup by lia; ring).
    rewrite !(Rplus_comm (_ * _)%R (Rs _ _ _)), (Rmult_comm (fR (U i i))), (Rmult_comm (Rabs (fR (U i i)))).
    eapply Rle_trans; [eapply (mono_back (n - (i + 1) + 1) _ _ _ (IZR (n - (i + 1)) + Rabs (fR (U i i)))); [lia| |exact D|]|].
    + apply Rplus_le_le_0_compat; [apply absprod_nonneg|apply Rmult_le_pos; apply Rabs_pos].
    + pose proof (IZR_le 0 (n - (i + 1)) ltac:(lia)). pose proof (Rabs_pos (fR (U i i))). lra.
    + apply Rplus_le_compat_l. unfold W. apply Rmult_le_compat_r; [lra|]. apply Rmult_le_compat_r; [lra|]. pose proof (IZR_le (n - (i + 1)) n ltac:(lia)). lra. }
  (* the forward substitution *)
  assert (Sy : forall i, 0 <= i < n -> (Rabs (fR (b i) - Rs 0 n (fun t => fR (L i t) * fR (y t))) <= gam n * Rs 0 n (fun t => Rabs (fR (L i t)) * Rabs (fR (y t))) + IZR n * grow n * tiny)%R).
  { intros i Hi. pose proof (Hy i Hi) as E. cbn [fmul O SFOps] in E. destruct (Sx i Hi) as [F _]. rewrite E in F.
    destruct (back_subs c (b i) i y (M i) ltac:(lia)) as (_ & _ & K); auto; [apply Hb; auto|intros t Ht; split; [apply Vy; lia|apply Mnum; lia]|].
    change (@fsubs (SFOps c)) with (@fsubs O) in K. rewrite <- E in K.
    rewrite !(Rs_trunc 0 (i + 1) n) by (try lia; intros; rewrite L0 by lia; rewrite ?Rabs_R0; ring). rewrite !Rs_last, L1, Rabs_R1, !Rmult_1_l by lia.
    rewrite (Rs_ext 0 i (fun t => Rabs (fR (L i t)) * Rabs (fR (y t)))%R (fun t => Rabs (fR (y t)) * Rabs (fR (M i t)))%R) by (intros; rewrite Mlow by lia; ring).
    rewrite (Rs_ext 0 i (fun t => fR (L i t) * fR (y t))%R (fun t => fR (y t) * fR (M i t))%R) by (intros; rewrite Mlow by lia; ring).
    rewrite (Rplus_comm (Rs 0 i (fun t => Rabs _ * Rabs _)%R)), Rabs_minus_sym.
    eapply Rle_trans; [eapply (mono_back i _ _ _ (IZR i)); [lia| | |apply (IZR_le 0); lia]|].
    + apply Rplus_le_le_0_compat; [apply Rabs_pos|apply absprod_nonneg].
    + eapply Rle_trans; [|exact K]. right. f_equal. ring.
    + apply Rplus_le_compat_l. apply Rmult_le_compat_r; [lra|]. apply Rmult_le_compat_r; [lra|]. apply IZR_le. lia. }
  intros i Hi. unfold residual.
  assert (PX : forall t, (0 <= X t)%R) by (intros; apply absprod_nonneg).
  assert (Pgam : (0 <= gam n)%R) by (unfold gam; lra).
  (* b - A x = (b - L y) + L (y - U x) + (L U - A) x *)
  assert (D : (fR (b i) - Rs 0 n (fun j => fR (A (p i) j) * fR (x j)) =
    (fR (b i) - Rs 0 n (fun t => fR (L i t) * fR (y t))) + (Rs 0 n (fun t => fR (L i t) * (fR (y t) - Rs 0 n (fun j => fR (U t j) * fR (x j)))) +
     Rs 0 n (fun j => (mdot n L U i j - fR (A (p i) j)) * fR (x j))))%R).
  { rewrite (Rs_ext 0 n (fun t => fR (L i t) * (fR (y t) - Rs 0 n (fun j => fR (U t j) * fR (x j))))%R
      (fun t => fR (L i t) * fR (y t) - Rs 0 n (fun j => fR (L i t) * fR (U t j) * fR (x j)))%R)
      by (intros; rewrite Rmult_minus_distr_l, <- Rs_scal_l; f_equal; apply Rs_ext; intros; ring).
    rewrite Rs_minus, (Rs_ext 0 n (fun j => (mdot n L U i j - fR (A (p i) j)) * fR (x j))%R
      (fun j => Rs 0 n (fun t => fR (L i t) * fR (U t j) * fR (x j)) - fR (A (p i) j) * fR (x j))%R)
      by (intros; unfold mdot; rewrite Rmult_minus_distr_r, Rs_scal_r; reflexivity).
    rewrite Rs_minus, Rs_swap. ring. }
  rewrite D. eapply Rle_trans; [apply Rabs_triang|].
  assert (B1 : (Rs 0 n (fun t => Rabs (fR (L i t)) * Rabs (fR (y t))) <= grow n * Rs 0 n (fun t => Rabs (fR (L i t)) * X t) + Rs 0 n (fun t => Rabs (fR (L i t)) * W t))%R).
  { rewrite <- Rs_scal_l, <- Rs_plus. apply Rs_le. intros t Ht. destruct (Sx t Ht) as [_ K].
    replace (grow n * (Rabs (fR (L i t)) * X t) + Rabs (fR (L i t)) * W t)%R with (Rabs (fR (L i t)) * (grow n * X t + W t))%R by ring.
    apply Rmult_le_compat_l; [apply Rabs_pos|].
    assert (K1 : (Rabs (Rs 0 n (fun j => fR (U t j) * fR (x j))) <= X t)%R).
    { eapply Rle_trans; [apply Rs_abs|]. right. apply Rs_ext. intros. apply Rabs_mult. }
    replace (fR (y t)) with ((fR (y t) - Rs 0 n (fun t0 => fR (U t t0) * fR (x t0))) + Rs 0 n (fun j => fR (U t j) * fR (x j)))%R by ring.
    eapply Rle_trans; [apply Rabs_triang|]. unfold gam in K. lra. }
  assert (B2 : (Rabs (Rs 0 n (fun t => fR (L i t) * (fR (y t) - Rs 0 n (fun j => fR (U t j) * fR (x j))))) <=
     gam n * Rs 0 n (fun t => Rabs (fR (L i t)) * X t) + Rs 0 n (fun t => Rabs (fR (L i t)) * W t))%R).
  { eapply Rle_trans; [apply Rs_abs|]. rewrite <- Rs_scal_l, <- Rs_plus. apply Rs_le. intros t Ht. destruct (Sx t Ht) as [_ K]. rewrite Rabs_mult.
    replace (gam n * (Rabs (fR (L i t)) * X t) + Rabs (fR (L i t)) * W t)%R with (Rabs (fR (L i t)) * (gam n * X t + W t))%R by ring.
    apply Rmult_le_compat_l; [apply Rabs_pos|exact K]. }
  assert (B3 : (Rabs (Rs 0 n (fun j => (mdot n L U i j - fR (A (p i) j)) * fR (x j))) <=
     gam n * Rs 0 n (fun t => Rabs (fR (L i t)) * X t) + Rs 0 n (fun j => W j * Rabs (fR (x j))))%R).
  { eapply Rle_trans; [apply Rs_abs|].
    assert (E : Rs 0 n (fun t => Rabs (fR (L i t)) * X t)%R = Rs 0 n (fun j => msize n L U i j * Rabs (fR (x j)))%R).
    { unfold X, msize. rewrite (Rs_ext 0 n _ (fun t => Rs 0 n (fun j => Rabs (fR (L i t)) * Rabs (fR (U t j)) * Rabs (fR (x j))))%R) by (intros; rewrite <- Rs_scal_l; apply Rs_ext; intros; ring).
      rewrite Rs_swap. apply Rs_ext. intros. rewrite Rs_scal_r. reflexivity. }
    rewrite E, <- Rs_scal_l, <- Rs_plus. apply Rs_le. intros j Hj. rewrite Rabs_mult.
    replace (gam n * (msize n L U i j * Rabs (fR (x j))) + W j * Rabs (fR (x j)))%R with ((gam n * msize n L U i j + W j) * Rabs (fR (x j)))%R by ring.
    apply Rmult_le_compat_r; [apply Rabs_pos|]. apply lu_factors_close; auto. }
  pose proof (Rabs_triang (Rs 0 n (fun t => fR (L i t) * (fR (y t) - Rs 0 n (fun j => fR (U t j) * fR (x j))))%R) (Rs 0 n (fun j => (mdot n L U i j - fR (A (p i) j)) * fR (x j))%R)) as B4.
  pose proof (Sy i Hi) as B5.
  assert (B6 : (gam n * Rs 0 n (fun t => Rabs (fR (L i t)) * Rabs (fR (y t))) <= gam n * (grow n * Rs 0 n (fun t => Rabs (fR (L i t)) * X t) + Rs 0 n (fun t => Rabs (fR (L i t)) * W t)))%R) by (apply Rmult_le_compat_l; auto).
  assert (EW : Rs 0 n (fun t => Rabs (fR (L i t)) * W t)%R = (grow n * tiny * Rs 0 n (fun t => Rabs (fR (L i t)) * (IZR n + Rabs (fR (U t t)))))%R).
  { rewrite <- Rs_scal_l. apply Rs_ext. intros. unfold W. ring. }
  assert (EV : Rs 0 n (fun j => W j * Rabs (fR (x j)))%R = (grow n * tiny * Rs 0 n (fun j => (IZR n + Rabs (fR (U j j))) * Rabs (fR (x j))))%R).
  { rewrite <- Rs_scal_l. apply Rs_ext. intros. unfold W. ring. }
  rewrite EW in *. rewrite EV in *. fold X. change (Rs 0 n (fun t => Rabs (fR (L i t)) * Rs 0 n (fun j => Rabs (fR (U t j)) * Rabs (fR (x j))))%R) with (Rs 0 n (fun t => Rabs (fR (L i t)) * X t)%R).
  set (Q := Rs 0 n (fun t => Rabs (fR (L i t)) * X t)%R) in *. set (R1 := Rs 0 n (fun t => Rabs (fR (L i t)) * (IZR n + Rabs (fR (U t t))))%R) in *.
  set (R2 := Rs 0 n (fun j => (IZR n + Rabs (fR (U j j))) * Rabs (fR (x j)))%R) in *. clearbody Q R1 R2. unfold gam in *. lra.
Qed.
End Tables.

(** ** No overflow *)
Definition dbl (k : Z) : R := ((2 * (1 + ulp2) ^ 2) ^ Z.to_nat k)%R.
Lemma dbl_S k : 0 <= k -> dbl (k + 1) = (2 * (1 + ulp2) ^ 2 * dbl k)%R.
Proof. intros. unfold dbl. replace (Z.to_nat (k + 1)) with (S (Z.to_nat k)) by lia. reflexivity. Qed.
Lemma dbl_le j k : j <= k -> (dbl j <= dbl k)%R.
Proof. intros. unfold dbl. apply Rle_pow; [|lia]. pose proof ulp2_pos. nra. Qed.
Lemma dbl_ge1 k : (1 <= dbl k)%R. Proof. unfold dbl. apply pow_R1_Rle. pose proof ulp2_pos. nra. Qed.
Lemma subs_bound c x k a l u : 0 <= k -> num x -> (Rabs (fR x) <= a)%R -> (dbl k * (a + tiny) <= huge)%R ->
  (forall t, 0 <= t < k -> num (l t) /\ (Rabs (fR (l t)) <= 1)%R /\ num (u t) /\ (Rabs (fR (u t)) + tiny <= dbl t * (a + tiny))%R) ->
  num (@fsubs (SFOps c) x k (fun t => sf_mul (l t) (u t))) /\ (Rabs (fR (@fsubs (SFOps c) x k (fun t => sf_mul (l t) (u t)))) + tiny <= dbl k * (a + tiny))%R.
Proof.
  intros Hk Hx Ha. revert k Hk. pose proof (Rabs_pos (fR x)) as Pa. pose proof tiny_pos as Pt. pose proof ulp2_pos as Pu.
  refine (natlike_ind _ _ _).
  - intros _ _. rewrite fsubs_0. split; [auto|]. unfold dbl. cbn [Z.to_nat pow]. lra.
  - intros k Hk IH R V. unfold Z.succ in *. rewrite fsubs_S by auto. cbn [fsub SFOps].
    pose proof (dbl_le k (k + 1) ltac:(lia)) as Hd. rewrite dbl_S in * by auto. pose proof (dbl_ge1 k) as D1.
    assert (R' : (dbl k * (a + tiny) <= huge)%R) by (eapply Rle_trans; [apply Rmult_le_compat_r; [lra|exact Hd]|exact R]).
    destruct (IH R' ltac:(intros; apply V; lia)) as [Ns Bs]. destruct (V k ltac:(lia)) as (Nl & Bl & Nu & Bu). clear IH V.
    set (s := @fsubs (SFOps c) x k (fun t => sf_mul (l t) (u t))) in *. clearbody s. set (B := (dbl k * (a + tiny))%R) in *.
    assert (Bp : (Rabs (fR (l k) * fR (u k)) <= Rabs (fR (u k)))%R).
    { rewrite Rabs_mult. rewrite <- (Rmult_1_l (Rabs (fR (u k)))) at 2. apply Rmult_le_compat_r; [apply Rabs_pos|auto]. }
    pose proof (mul_fin _ _ Nl Nu ltac:(lra)) as Np. destruct (mul_ok _ _ (proj1 Nl) (proj1 Nu) (proj2 Np)) as [Ep _].
    set (p := sf_mul (l k) (u k)) in *. clearbody p.
    assert (Bp' : (Rabs (fR p) <= (1 + ulp2) * (B - tiny) + tiny)%R).
    { replace (fR p) with (fR (l k) * fR (u k) + (fR p - fR (l k) * fR (u k)))%R by ring. eapply Rle_trans; [apply Rabs_triang|].
      assert (ulp2 * Rabs (fR (l k) * fR (u k)) <= ulp2 * (B - tiny))%R by (apply Rmult_le_compat_l; lra). lra. }
    assert (Be : (Rabs (fR s - fR p) <= (2 + ulp2) * (B - tiny) + tiny)%R).
    { unfold Rminus at 1. eapply Rle_trans; [apply Rabs_triang|]. rewrite Rabs_Ropp. lra. }
    assert (BB : (tiny <= B)%R) by (pose proof (Rabs_pos (fR s)); lra).
    assert (K1 : ((2 + ulp2) * (1 + ulp2) * B <= 2 * (1 + ulp2) ^ 2 * B)%R) by (apply Rmult_le_compat_r; [lra|nra]).
    assert (K2 : (2 * (1 + ulp2) ^ 2 * B <= huge)%R) by (unfold B; lra).
    assert (K3 : ((2 + ulp2) * B <= (2 + ulp2) * (1 + ulp2) * B)%R) by (apply Rmult_le_compat_r; nra).
    assert (K4 : ((2 + ulp2) * tiny >= tiny)%R) by nra.
    assert (Nr : num (sf_sub s p)) by (apply sub_fin; auto; lra). split; [exact Nr|].
    destruct (sub_ok _ _ (proj1 Ns) (proj1 Np) (proj2 Nr)) as [Er _].
    assert (Br : (Rabs (fR (sf_sub s p)) <= (1 + ulp2) * ((2 + ulp2) * (B - tiny) + tiny))%R).
    { replace (fR (sf_sub s p)) with ((fR s - fR p) + (fR (sf_sub s p) - (fR s - fR p)))%R by ring. eapply Rle_trans; [apply Rabs_triang|].
      assert (ulp2 * Rabs (fR s - fR p) <= ulp2 * ((2 + ulp2) * (B - tiny) + tiny))%R by (apply Rmult_le_compat_l; lra). lra. }
    replace (2 * (1 + ulp2) ^ 2 * dbl k * (a + tiny))%R with (2 * (1 + ulp2) ^ 2 * B)%R by (unfold B; ring).
    assert ((1 + ulp2) * ((2 + ulp2) * (B - tiny) + tiny) + tiny <= (2 + ulp2) * (1 + ulp2) * B)%R; [|lra].
    assert (0 <= ulp2 * (ulp2 * tiny) /\ 0 <= ulp2 * tiny)%R by (split; repeat apply Rmult_le_pos; lra). lra.
Qed.

Lemma lu_all_finite c n A thr M p : 1 <= n -> nums2 n n A -> lu_room n A -> num thr -> (0 < fR thr)%R -> (forall i, 0 <= i < n -> 0 <= p i < n) ->
  @lu_inv (SFOps c) n A thr n M p -> nums2 n n M.
Proof.
  intros Hn HA (a & Ha & Hr) Ht Ht0 Hp (I1 & I2 & I3 & _). pose proof tiny_pos as Pt.
  assert (Pa : (0 <= a)%R). { eapply Rle_trans; [apply Rabs_pos|]. apply (Ha 0 0); lia. }
  set (good := fun i j => num (M i j) /\ (i <= j -> (Rabs (fR (M i j)) + tiny <= dbl i * (a + tiny))%R) /\ (j < i -> (Rabs (fR (M i j)) <= 1)%R)).
  assert (G : forall j, 0 <= j < n -> forall i, 0 <= i < n -> good i j).
  { intros j Hj. refine (Z_lt_induction (fun j => 0 <= j < n -> forall i, 0 <= i < n -> good i j) _ j (proj1 Hj) Hj). clear j Hj. intros j IHj Hj i Hi.
    refine (Z_lt_induction (fun i => 0 <= i < n -> good i j) _ i (proj1 Hi) Hi). clear i Hi. intros i IHi Hi.
    assert (Room : forall k, k <= n - 1 -> (dbl k * (a + tiny) <= huge)%R).
    { intros k Hk. eapply Rle_trans; [|exact Hr]. apply Rmult_le_compat_r; [lra|]. apply dbl_le. lia. }
    assert (B : forall k, 0 <= k -> k <= i -> k <= j ->
      num (@fsubs (SFOps c) (A (p i) j) k (fun t => sf_mul (M i t) (M t j))) /\ (Rabs (fR (@fsubs (SFOps c) (A (p i) j) k (fun t => sf_mul (M i t) (M t j)))) + tiny <= dbl k * (a + tiny))%R).
    { intros k Hk Hki Hkj. apply subs_bound; auto; [apply Room; lia|]. intros t Ht'.
      destruct (IHj t ltac:(lia) ltac:(lia) i Hi) as (N1 & _ & B1). destruct (IHi t ltac:(lia) ltac:(lia)) as (N2 & B2 & _).
      split; [auto|]. split; [apply B1; lia|]. split; [auto|]. apply B2. lia. }
    destruct (Z.le_gt_cases i j) as [Hij|Hij].
    - destruct (B i ltac:(lia) ltac:(lia) Hij) as [N1 B1]. unfold good. rewrite I1 by lia. cbn [fmul SFOps]. split; [exact N1|]. split; [intros; exact B1|lia].
    - destruct (I2 i j) as (d & Ed & Em & Hc); try lia. specialize (Hc (sf_order_laws c)). cbn [flt fabs fdiv fmul SFOps] in Hc, Em, Ed.
      destruct (B j ltac:(lia) ltac:(lia) ltac:(lia)) as [N1 _]. rewrite <- Ed in N1. destruct (IHi j ltac:(lia) ltac:(lia)) as (Nu & _).
      assert (Nz : fR (M j j) <> 0%R).
      { intros E. pose proof (I3 j ltac:(lia)) as K. cbn [flt fabs SFOps] in K.
        assert (Kt : SFltb (SFabs (M j j)) thr = true) by (apply ltb_ok; [apply abs_num; auto|auto|rewrite abs_ok, E, Rabs_R0; auto]). congruence. }
      assert (Le : (Rabs (fR d) <= Rabs (fR (M j j)))%R).
      { apply Rnot_lt_le. intros K. rewrite <- !abs_ok in K. apply ltb_ok in K; try apply abs_num; auto. congruence. }
      destruct (div_le1 d (M j j) N1 Nu Nz Le) as [N2 B2]. unfold good. rewrite Em. split; [auto|]. split; [lia|auto]. }
  intros i j Hi Hj. apply G; auto.
Qed.

(** ** Through the accessors *)
Definition lu_sf (c : Z) (m : @RealMatrix (SFOps c)) (thr : sf) (d : @LUD (SFOps c)) : Prop :=
  exists d0, @NewLUDecompositionWithThreshold (SFOps c) m thr = Ok d0 /\ lu_calls d0 d.
Lemma lu_sf_state c m n A thr d : library m -> MatIs m n n A -> 1 <= n -> lu_sf c m thr d -> lus_IsNonSingular d = true ->
  exists M p e, @lu_ok (SFOps c) n M p e d /\ @lu_inv (SFOps c) n A thr n M (nthZ p) /\ permutes n (nthZ p).
Proof.
  intros Hl Hm Hn (d0 & E & Hc) Hs.
  destruct (lu_new_ok m n A thr Hl Hm ltac:(lia)) as (d0' & E0 & (M & HD) & C). rewrite E in E0. injection E0 as <-.
  destruct (calls_core d0 d Hc) as [Es Ep]. unfold lus_IsNonSingular in Hs. rewrite Es in Hs. destruct (lu_singular d0) eqn:Esd; [discriminate|].
  pose proof (done_ok n A thr d0 M HD Esd C) as Hd. pose proof (calls_ok _ _ _ _ _ _ Hn Hd Hc) as Hd'.
  pose proof HD as (_ & _ & Hsw & Hns & _). exists M, (lu_pivot d0), (lu_even d0). split; [auto|]. split; [auto|]. eapply swaps_permutes; eauto.
Qed.
Lemma lu_sf_tables c m n A thr d : library m -> MatIs m n n A -> 1 <= n -> lu_sf c m thr d -> lus_IsNonSingular d = true ->
  exists M p, @lu_inv (SFOps c) n A thr n M (nthZ p) /\ permutes n (nthZ p) /\ lu_Pivot d = p /\
  (exists Lm d1, lu_L d = Ok (Some Lm, d1) /\ MatIs Lm n n (tabL M)) /\ (exists Um d1, lu_U d = Ok (Some Um, d1) /\ MatIs Um n n (tabU M)) /\
  (forall v b r, VecIs v n b -> lus_SolveVector d v = Ok r -> exists x, VecIs r n x /\ lu_sol n M (fun i => b (nthZ p i)) x) /\
  (forall b k B r, 1 <= k -> MatIs b n k B -> lus_SolveMatrix d b = Ok r -> exists X, MatIs r n k X /\ forall q, 0 <= q < k -> lu_sol n M (fun i => B (nthZ p i) q) (fun i => X i q)) /\
  (forall r, lus_Inverse d = Ok r -> exists X, MatIs r n n X /\ forall q, 0 <= q < n -> lu_sol n M (fun i => if nthZ p i =? q then fone else fzero) (fun i => X i q)).
Proof.
  intros Hl Hm Hn Hof Hs. destruct (lu_sf_state c m n A thr d Hl Hm Hn Hof Hs) as (M & p & e & Hd & Hi & Hp).
  exists M, p. split; [auto|]. split; [auto|]. pose proof Hd as (_ & Ep & Elp & _). split; [unfold lu_Pivot; rewrite Ep; reflexivity|].
  destruct (lu_L_ok _ _ _ _ _ Hn Hd) as ([mL d1] & EL & (Lm & EL' & _ & HL) & _). cbn in EL'. subst mL.
  destruct (lu_U_ok _ _ _ _ _ Hn Hd) as ([mU d2] & EU & (Um & EU' & _ & HU) & _). cbn in EU'. subst mU.
  split; [eauto|]. split; [eauto|]. split; [|split].
  - intros v b r Hv E. destruct (lus_SolveVector_ok n M p e d v b Hd Hv) as (r' & E' & x & K). rewrite E in E'. injection E' as <-. eauto.
  - intros b k B r Hk Hb E. destruct (lus_SolveMatrix_ok n M p e d b k B Hn Hk Hd Hb) as (r' & E' & X & _ & K). rewrite E in E'. injection E' as <-. eauto.
  - intros r E. destruct (lus_Inverse_ok n M p e d Hn Hd) as (r' & E' & X & _ & K). rewrite E in E'. injection E' as <-. eauto.
Qed.

Lemma solves_ext n (B B' L U : Z -> Z -> sf) x b b' : (forall i, 0 <= i < n -> b i = b' i) -> (forall i j, 0 <= i < n -> 0 <= j < n -> B i j = B' i j) ->
  solves_close n B L U x b -> solves_close n B' L U x b'.
Proof.
  intros Hb HB H i Hi. specialize (H i Hi). unfold residual in *. rewrite <- Hb by auto.
  rewrite (Rs_ext 0 n _ (fun j => fR (B i j) * fR (x j))%R); [exact H|]. intros. rewrite HB; auto.
Qed.
Lemma lu_sf_back c (m : @RealMatrix (SFOps c)) n (A : Z -> Z -> sf) (thr : sf) (d : @LUD (SFOps c)) : library m -> MatIs m n n A -> 1 <= n -> nums2 n n A -> lu_sf c m thr d -> lus_IsNonSingular d = true ->
  exists Lm Um (L U : Z -> Z -> sf) d1 d2, lu_L d = Ok (Some Lm, d1) /\ lu_U d = Ok (Some Um, d2) /\ MatIs Lm n n L /\ MatIs Um n n U /\
    permutes n (nthZ (lu_Pivot d)) /\
    (num thr -> (0 < fR thr)%R -> lu_room n A -> nums2 n n L /\ nums2 n n U) /\
    (nums2 n n L -> nums2 n n U ->
      let PA i j := A (nthZ (lu_Pivot d) i) j in
      factors_close n PA L U /\ (forall i j, 0 <= i < n -> 0 <= j < n -> (Rabs (fR (L i j)) <= 1)%R) /\
      (forall (v : @RealVector (SFOps c)) (b : Z -> sf), VecIs v n b -> nums n b -> exists (r : @RealVector (SFOps c)) (x : Z -> sf), lus_SolveVector d v = Ok r /\ VecIs r n x /\
         (nums n x -> solves_close n PA L U x (fun i => b (nthZ (lu_Pivot d) i)))) /\
      (forall (bm : @RealMatrix (SFOps c)) k (B : Z -> Z -> sf), 1 <= k -> MatIs bm n k B -> nums2 n k B -> exists (r : @RealMatrix (SFOps c)) (X : Z -> Z -> sf), lus_SolveMatrix d bm = Ok r /\ MatIs r n k X /\
         (nums2 n k X -> forall q, 0 <= q < k -> solves_close n PA L U (fun i => X i q) (fun i => B (nthZ (lu_Pivot d) i) q))) /\
      (exists (r : @RealMatrix (SFOps c)) (X : Z -> Z -> sf), lus_Inverse d = Ok r /\ MatIs r n n X /\
         (nums2 n n X -> forall q, 0 <= q < n -> solves_close n PA L U (fun i => X i q) (fun i => if nthZ (lu_Pivot d) i =? q then sf_of_Z 1 else sf_zero)))).
Proof.
  intros Hl Hm Hn HA Hof Hs. destruct (lu_sf_state c m n A thr d Hl Hm Hn Hof Hs) as (M & p & e & Hd & Inv & Hp).
  pose proof Hd as (_ & Ep & Elp & _). assert (EP : lu_Pivot d = p) by (unfold lu_Pivot; rewrite Ep; reflexivity). rewrite EP. cbv zeta.
  destruct (lu_L_ok _ _ _ _ _ Hn Hd) as ([mL d1] & EL & (Lm & EL' & _ & HL) & _). cbn in EL'. subst mL.
  destruct (lu_U_ok _ _ _ _ _ Hn Hd) as ([mU d2] & EU & (Um & EU' & _ & HU) & _). cbn in EU'. subst mU.
  exists Lm, Um, (tabL M), (tabU M), d1, d2. split; [exact EL|]. split; [exact EU|]. split; [exact HL|]. split; [exact HU|]. split; [exact Hp|]. split.
  - intros Ht Ht0 Hr. pose proof (lu_all_finite c n A thr M (nthZ p) Hn HA Hr Ht Ht0 (proj1 Hp) Inv) as HM.
    split; intros i j Hi Hj; [unfold tabL|unfold tabU]; zb; try apply HM; auto; try apply num0; apply num_one.
  - intros NL NU. split; [apply (lu_factors_close c n A thr M (nthZ p)); auto; apply Hp|]. split; [intros; apply (lu_multipliers c n A thr M (nthZ p)); auto; apply Hp|].
    split; [|split].
    + intros v b Hv Nb. destruct (lus_SolveVector_ok n M p e d v b Hd Hv) as (r & E & x & Hx & Sx). exists r, x. split; [auto|]. split; [auto|]. intros Nx.
      apply (lu_solves_close c n A thr M (nthZ p)); auto; try apply Hp. intros i Hi. apply Nb. apply Hp. auto.
    + intros bm k B Hk Hb Nb. destruct (lus_SolveMatrix_ok n M p e d bm k B Hn Hk Hd Hb) as (r & E & X & _ & HX & SX). exists r, X. split; [auto|]. split; [auto|]. intros NX q Hq.
      apply (lu_solves_close c n A thr M (nthZ p)); auto; try apply Hp; [intros i Hi; apply Nb; [apply Hp|]; auto|intros i Hi; apply NX; auto].
    + destruct (lus_Inverse_ok n M p e d Hn Hd) as (r & E & X & _ & HX & SX). exists r, X. split; [auto|]. split; [auto|]. intros NX q Hq.
      apply (lu_solves_close c n A thr M (nthZ p)); auto; try apply Hp; [|intros i Hi; apply NX; auto].
      intros i Hi. destruct (nthZ p i =? q); [apply num_one|apply num0].
Qed.

Lemma lu_sf_factors : forall c (m : @RealMatrix (SFOps c)) n (A : Z -> Z -> sf) (thr : sf) (d0 d : @LUD (SFOps c)), library m -> MatIs m n n A -> 1 <= n -> nums2 n n A ->
  NewLUDecompositionWithThreshold m thr = Ok d0 -> lu_calls d0 d -> lus_IsNonSingular d = true ->
  exists Lm Um (L U : Z -> Z -> sf) d1 d2, lu_L d = Ok (Some Lm, d1) /\ lu_U d = Ok (Some Um, d2) /\ MatIs Lm n n L /\ MatIs Um n n U /\ permutes n (nthZ (lu_Pivot d)) /\
    (nums2 n n L -> nums2 n n U -> factors_close n (fun i j => A (nthZ (lu_Pivot d) i) j) L U /\
       forall i j, 0 <= i < n -> 0 <= j < n -> (Rabs (fR (L i j)) <= 1)%R).
Proof.
  intros c m n A thr d0 d Hl Hm Hn HA E Hc Hs. destruct (lu_sf_back c m n A thr d Hl Hm Hn HA (ex_intro _ d0 (Logic.conj E Hc)) Hs) as (Lm & Um & L & U & d1 & d2 & EL & EU & HL & HU & Hp & _ & K).
  exists Lm, Um, L, U, d1, d2. repeat (split; [solve [auto]|]). intros NL NU. destruct (K NL NU) as (K1 & K2 & _). auto.
Qed.
Lemma lu_sf_finite : forall c (m : @RealMatrix (SFOps c)) n (A : Z -> Z -> sf) (thr : sf) (d0 d : @LUD (SFOps c)), library m -> MatIs m n n A -> 1 <= n -> nums2 n n A ->
  NewLUDecompositionWithThreshold m thr = Ok d0 -> lu_calls d0 d -> lus_IsNonSingular d = true -> num thr -> (0 < fR thr)%R -> lu_room n A ->
  exists Lm Um (L U : Z -> Z -> sf) d1 d2, lu_L d = Ok (Some Lm, d1) /\ lu_U d = Ok (Some Um, d2) /\ MatIs Lm n n L /\ MatIs Um n n U /\ nums2 n n L /\ nums2 n n U.
Proof.
  intros c m n A thr d0 d Hl Hm Hn HA E Hc Hs Ht Ht0 Hr. destruct (lu_sf_back c m n A thr d Hl Hm Hn HA (ex_intro _ d0 (Logic.conj E Hc)) Hs) as (Lm & Um & L & U & d1 & d2 & EL & EU & HL & HU & Hp & K & _).
  exists Lm, Um, L, U, d1, d2. repeat (split; [solve [auto]|]). apply K; auto.
Qed.
Lemma lu_sf_solve : forall c (m : @RealMatrix (SFOps c)) n (A : Z -> Z -> sf) (thr : sf) (d0 d : @LUD (SFOps c)), library m -> MatIs m n n A -> 1 <= n -> nums2 n n A ->
  NewLUDecompositionWithThreshold m thr = Ok d0 -> lu_calls d0 d -> lus_IsNonSingular d = true ->
  exists Lm Um (L U : Z -> Z -> sf) d1 d2, lu_L d = Ok (Some Lm, d1) /\ lu_U d = Ok (Some Um, d2) /\ MatIs Lm n n L /\ MatIs Um n n U /\
    (nums2 n n L -> nums2 n n U -> let p := nthZ (lu_Pivot d) in let PA i j := A (p i) j in
      (forall (v : @RealVector (SFOps c)) (b : Z -> sf), VecIs v n b -> nums n b ->
         exists (r : @RealVector (SFOps c)) (x : Z -> sf), lus_SolveVector d v = Ok r /\ VecIs r n x /\
         (nums n x -> solves_close n PA L U x (fun i => b (p i)))) /\
      (forall (bm : @RealMatrix (SFOps c)) k (B : Z -> Z -> sf), 1 <= k -> MatIs bm n k B -> nums2 n k B ->
         exists (r : @RealMatrix (SFOps c)) (X : Z -> Z -> sf), lus_SolveMatrix d bm = Ok r /\ MatIs r n k X /\
         (nums2 n k X -> forall q, 0 <= q < k -> solves_close n PA L U (fun i => X i q) (fun i => B (p i) q))) /\
      (exists (r : @RealMatrix (SFOps c)) (X : Z -> Z -> sf), lus_Inverse d = Ok r /\ MatIs r n n X /\
         (nums2 n n X -> forall q, 0 <= q < n -> solves_close n PA L U (fun i => X i q) (fun i => if p i =? q then sf_of_Z 1 else sf_zero)))).
Proof.
  intros c m n A thr d0 d Hl Hm Hn HA E Hc Hs. destruct (lu_sf_back c m n A thr d Hl Hm Hn HA (ex_intro _ d0 (Logic.conj E Hc)) Hs) as (Lm & Um & L & U & d1 & d2 & EL & EU & HL & HU & Hp & _ & K).
  exists Lm, Um, L, U, d1, d2. repeat (split; [solve [auto]|]). intros NL NU. destruct (K NL NU) as (_ & _ & K'). exact K'.
Qed.

(** Backward rounding errors of the Cholesky decomposition and its solver. *)
From Coq Require Import ZArith QArith List Reals Lia Lra Bool Floats.SpecFloat.
From Flocq Require Import Core.
From Verif Require Import Base BaseLemmas Scalar Vector VecSpec Matrix MatSpec Array2D BlockM Diagonal RealMatrixM MatFacts MatrixOps Float64 TabTac RSum RndSpec FloatR RndSum RndTri LUFacts2 Cholesky CholSpec CholFacts CholProps.
Import ListNotations.
Open Scope Z_scope.

Lemma mono_back2 k n x S T y : k <= n -> (0 <= T)%R -> (Rabs (x - S) <= gam k * T + y * grow k * tiny)%R -> (0 <= y)%R ->
  (Rabs (S - x) <= gam n * T + y * grow n * tiny)%R.
Proof.
  intros Hk HT H Hy. rewrite Rabs_minus_sym. eapply Rle_trans; [exact H|]. pose proof (grow_le k n ltac:(lia)). pose proof tiny_pos. unfold gam.
  apply Rplus_le_compat; [apply Rmult_le_compat_r; lra|]. apply Rmult_le_compat_r; [lra|]. apply Rmult_le_compat_l; lra.
Qed.

Section Tables.
Context (c : Z).
Let O := SFOps c.
Existing Instance O.
Context (n : Z) (A : Z -> Z -> sf) (pos : sf) (M : Z -> Z -> sf).
Context (Hn : 1 <= n) (HA : nums2 n n A) (HM : nums2 n n M) (Inv : @ch_inv O n A pos n M).
Let L (i j : Z) : sf := M j i.

Lemma L0 i j : 0 <= i < j -> j < n -> fR (L i j) = 0%R.
Proof. intros. destruct Inv as (_ & _ & _ & I4). unfold L. rewrite I4 by lia. reflexivity. Qed.

Lemma entry_close i j : 0 <= j <= i -> i < n ->
  (Rabs (Rs 0 n (fun t => fR (L i t) * fR (L j t)) - fR (A j i)) <= gam (n + 1) * Rs 0 n (fun t => Rabs (fR (L i t)) * Rabs (fR (L j t))) + (IZR n + Rabs (fR (L j j))) * grow (n + 1) * tiny)%R.
Proof.
  intros Hj Hi. destruct (HA j i ltac:(lia) ltac:(lia)) as [VA _]. destruct Inv as (I1 & I2 & _).
  pose proof (Rabs_pos (fR (L j j))) as Pu. pose proof (IZR_le 0 n ltac:(lia)) as Pn. pose proof tiny_pos as Pt. pose proof (grow_ge1 (n + 1)) as Pg.
  pose proof (IZR_le 0 j ltac:(lia)) as Pj. pose proof (IZR_le j n ltac:(lia)) as Pjn.
  assert (G2 : ((1 + ulp2) * ((1 + ulp2) * grow j))%R = grow (j + 1 + 1)) by (rewrite !grow_S by lia; reflexivity).
  rewrite !(Rs_trunc 0 (j + 1) n) by (try lia; intros; rewrite (L0 j) by lia; rewrite ?Rabs_R0; ring). rewrite !Rs_last by lia.
  destruct (I1 j ltac:(lia)) as (x & Ex & _ & Ej). cbn [fsqrt O SFOps] in Ej.
  assert (Fx : isfin (sf_sqrt x) = true) by (rewrite <- Ej; apply HM; lia).
  assert (Vx : sf_valid x = true).
  { rewrite Ex. apply (subs_valid c (A j j) j (fun t => M t j) (fun t => M t j)); [lia|apply HA; lia|]. intros t Ht. split; apply HM; lia. }
  destruct (Z.eq_dec i j) as [->|Hne].
  - assert (Ff : isfin (@fsubs O (A j j) j (fun t => sf_mul (M t j) (M t j))) = true).
    { cbn [fmul O SFOps] in Ex. rewrite <- Ex. clear - Fx. destruct x as [[]|[]| |[] ? ?]; auto; discriminate. }
    destruct (back_subs c (A j j) j (fun t => M t j) (fun t => M t j) ltac:(lia) VA) as (_ & _ & K); auto.
    { intros t Ht. split; apply HM; lia. }
    change (@fsubs (SFOps c)) with (@fsubs O) in K. cbn [fmul O SFOps] in Ex. cbv beta in K. rewrite <- Ex in K.
    pose proof (sqrt_step _ _ _ _ _ x (grow_ge1 j) Pj (absprod_nonneg _ _ _ _) Vx Fx K) as D. rewrite <- Ej, G2 in D.
    eapply Rle_trans; [eapply (mono_back2 (j + 1 + 1) (n + 1)); [lia| |exact D|exact Pj]|].
    + apply Rplus_le_le_0_compat; [apply absprod_nonneg|apply Rmult_le_pos; apply Rabs_pos].
    + apply Rplus_le_compat_l. apply Rmult_le_compat_r; [lra|]. apply Rmult_le_compat_r; lra.
  - pose proof (I2 j i ltac:(lia) ltac:(lia)) as Em. cbn [fmul fdiv fone O SFOps] in Em.
    set (s := @fsubs O (A j i) j (fun t => sf_mul (M t j) (M t i))) in *.
    assert (F : isfin (M j i) = true) by (apply HM; lia). rewrite Em in F. destruct (sf_mul_fin _ _ F) as [Fs Fi].
    pose proof (HM j j ltac:(lia) ltac:(lia)) as Nj. pose proof (div_zero_fin _ _ Fi (proj2 Nj)) as Nz.
    pose proof (back_subs c (A j i) j (fun t => M t j) (fun t => M t i) ltac:(lia) VA) as K.
    specialize (K ltac:(intros t Ht; split; apply HM; lia) Fs). destruct K as (Vs & _ & K). cbv beta in K. change (@fsubs (SFOps c)) with (@fsubs O) in K, Vs. fold s in K, Vs.
    assert (Bj : (Rabs (fR (M j j)) <= bpow radix2 513)%R) by (rewrite Ej; apply sqrt_small; auto).
    pose proof (inv_step _ _ _ _ _ s (M j j) (grow_ge1 j) Pj (absprod_nonneg _ _ _ _) Vs Nj Nz Bj K F) as D. rewrite <- Em, G2 in D.
    rewrite (Rs_ext 0 j (fun t => fR (L i t) * fR (L j t))%R (fun t => fR (M t j) * fR (M t i))%R) by (intros; unfold L; ring).
    rewrite (Rs_ext 0 j (fun t => Rabs (fR (L i t)) * Rabs (fR (L j t)))%R (fun t => Rabs (fR (M t j)) * Rabs (fR (M t i)))%R) by (intros; unfold L; ring).
    eapply Rle_trans; [eapply (mono_back2 (j + 1 + 1) (n + 1)); [lia| |exact D|]|].
    + apply Rplus_le_le_0_compat; [apply absprod_nonneg|apply Rmult_le_pos; apply Rabs_pos].
    + pose proof (Rabs_pos (fR (M j j))). lra.
    + apply Rplus_le_compat_l. apply Rmult_le_compat_r; [lra|]. apply Rmult_le_compat_r; [lra|]. unfold L. lra.
Qed.
Lemma ch_close : chol_close n A L.
Proof.
  intros i j Hi Hj. unfold up. destruct (Z.le_gt_cases j i).
  - rewrite Z.min_r, Z.max_l by lia. apply entry_close; lia.
  - rewrite Z.min_l, Z.max_r by lia.
    rewrite (Rs_ext 0 n (fun t => fR (L i t) * fR (L j t))%R (fun t => fR (L j t) * fR (L i t))%R) by (intros; ring).
    rewrite (Rs_ext 0 n (fun t => Rabs (fR (L i t)) * Rabs (fR (L j t)))%R (fun t => Rabs (fR (L j t)) * Rabs (fR (L i t)))%R) by (intros; ring).
    apply entry_close; lia.
Qed.

Lemma ch_solves b x : nums n b -> nums n x -> @ch_sol O n M b x -> chol_solves n A L x b.
Proof.
  intros Hb Hx (y & Hy & Hxy). pose proof tiny_pos as Pt. pose proof (grow_ge1 n) as Pg. pose proof (IZR_le 0 n ltac:(lia)) as Pn.
  assert (Vy : forall i, 0 <= i < n -> sf_valid (y i) = true).
  { intros i Hi0. refine (Z_lt_induction (fun i => 0 <= i < n -> sf_valid (y i) = true) _ i (proj1 Hi0) Hi0). clear i Hi0. intros i IH Hi. rewrite Hy by auto.
    cbn [fdiv fmul O SFOps]. apply div_valid; [|apply HM; auto].
    apply (subs_valid c (b i) i y (fun t => M t i)); [lia|apply Hb; auto|]. intros t Ht. split; [apply IH; lia|apply HM; lia]. }
  set (W := fun t => ((IZR n + Rabs (fR (L t t))) * grow n * tiny)%R).
  assert (Sx : forall i, 0 <= i < n -> isfin (y i) = true /\
    (Rabs (fR (y i) - Rs 0 n (fun t => fR (L t i) * fR (x t))) <= gam n * Rs 0 n (fun t => Rabs (fR (L t i)) * Rabs (fR (x t))) + W i)%R).
  { intros i Hi. pose proof (Hxy i Hi) as E. cbn [fdiv fmul O SFOps] in E. destruct (Hx i Hi) as [_ F]. rewrite E in F. pose proof (sf_div_fin _ _ F) as Fc.
    pose proof (back_subd c (y i) n x (M i) (n - (i + 1)) (Vy i Hi) ltac:(lia)) as K. replace (n - (n - (i + 1))) with (i + 1) in K by lia.
    specialize (K ltac:(intros t Ht; split; [apply Hx; lia|apply HM; lia]) Fc). split; [apply K|].
    pose proof (back_div (n - (i + 1)) _ _ _ _ (M i i) ltac:(lia) (absprod_nonneg _ _ _ _) K (HM i i Hi Hi) F) as D. change (@fsubd (SFOps c)) with (@fsubd O) in D. rewrite <- E in D.
    rewrite !(Rs_low 0 i n) by (try lia; intros; rewrite L0 by lia; rewrite ?Rabs_R0; ring).
    rewrite !(Rs_first i n) by lia. rewrite Rabs_minus_sym.
    rewrite (Rs_ext (i + 1) n (fun t => Rabs (fR (L t i)) * Rabs (fR (x t)))%R (fun t => Rabs (fR (x t)) * Rabs (fR (M i t)))%R) by (intros; unfold L; ring).
    rewrite (Rs_ext (i + 1) n (fun t => fR (L t i) * fR (x t))%R (fun t => fR (x t) * fR (M i t))%R) by (intros; unfold L; ring).
    rewrite !(Rplus_comm (_ * _)%R (Rs _ _ _)), (Rmult_comm (fR (L i i))), (Rmult_comm (Rabs (fR (L i i)))).
    pose proof (Rabs_pos (fR (L i i))).
    eapply Rle_trans; [eapply (mono_back2 (n - (i + 1) + 1) n _ _ _ (IZR (n - (i + 1)) + Rabs (fR (L i i)))); [lia| |exact D|]|].
    + apply Rplus_le_le_0_compat; [apply absprod_nonneg|apply Rmult_le_pos; apply Rabs_pos].
    + pose proof (IZR_le 0 (n - (i + 1)) ltac:(lia)). lra.
    + apply Rplus_le_compat_l. unfold W. apply Rmult_le_compat_r; [lra|]. apply Rmult_le_compat_r; [lra|]. pose proof (IZR_le (n - (i + 1)) n ltac:(lia)). lra. }
  assert (Sy : forall i, 0 <= i < n -> (Rabs (fR (b i) - Rs 0 n (fun t => fR (L i t) * fR (y t))) <= gam n * Rs 0 n (fun t => Rabs (fR (L i t)) * Rabs (fR (y t))) + W i)%R).
  { intros i Hi. pose proof (Hy i Hi) as E. cbn [fdiv fmul O SFOps] in E. destruct (Sx i Hi) as [F _]. rewrite E in F. pose proof (sf_div_fin _ _ F) as Fc.
    pose proof (back_subs c (b i) i y (fun t => M t i) ltac:(lia) (proj1 (Hb i Hi))) as K.
    specialize (K ltac:(intros t Ht; split; [apply Vy; lia|apply HM; lia]) Fc).
    pose proof (back_div i _ _ _ _ (M i i) ltac:(lia) (absprod_nonneg _ _ _ _) K (HM i i Hi Hi) F) as D. change (@fsubs (SFOps c)) with (@fsubs O) in D. cbv beta in D. rewrite <- E in D.
    rewrite !(Rs_trunc 0 (i + 1) n) by (try lia; intros; rewrite L0 by lia; rewrite ?Rabs_R0; ring). rewrite !Rs_last by lia.
    rewrite (Rs_ext 0 i (fun t => Rabs (fR (L i t)) * Rabs (fR (y t)))%R (fun t => Rabs (fR (y t)) * Rabs (fR (M t i)))%R) by (intros; unfold L; ring).
    rewrite (Rs_ext 0 i (fun t => fR (L i t) * fR (y t))%R (fun t => fR (y t) * fR (M t i))%R) by (intros; unfold L; ring).
    rewrite (Rmult_comm (fR (L i i))), (Rmult_comm (Rabs (fR (L i i)))), Rabs_minus_sym. pose proof (Rabs_pos (fR (L i i))).
    eapply Rle_trans; [eapply (mono_back2 (i + 1) n _ _ _ (IZR i + Rabs (fR (L i i)))); [lia| |exact D|]|].
    + apply Rplus_le_le_0_compat; [apply absprod_nonneg|apply Rmult_le_pos; apply Rabs_pos].
    + pose proof (IZR_le 0 i ltac:(lia)). lra.
    + apply Rplus_le_compat_l. unfold W. apply Rmult_le_compat_r; [lra|]. apply Rmult_le_compat_r; [lra|]. pose proof (IZR_le i n ltac:(lia)). lra. }
  intros i Hi. unfold residual.
  assert (Pgam : (0 <= gam n)%R) by (unfold gam; lra).
  pose proof (residual3 n (fun i t => fR (L i t)) (fun t j => fR (L j t)) (fun j => fR (up A i j)) (fun j => ((IZR n + Rabs (fR (L (Z.min i j) (Z.min i j)))) * grow (n + 1) * tiny)%R)
    (fR (b i)) (fun t => fR (y t)) (fun j => fR (x j)) W (gam n) (gam (n + 1)) (W i) i Pgam (fun t Ht => proj2 (Sx t Ht)) (Sy i Hi) (fun j Hj => ch_close i j Hi Hj)) as R.
  cbv beta in R. eapply Rle_trans; [exact R|]. clear R.
  assert (EW : Rs 0 n (fun t => Rabs (fR (L i t)) * W t)%R = (grow n * tiny * Rs 0 n (fun t => Rabs (fR (L i t)) * (IZR n + Rabs (fR (L t t)))))%R).
  { rewrite <- Rs_scal_l. apply Rs_ext. intros. unfold W. ring. }
  rewrite EW. rewrite (Rs_ext 0 n (fun j => (IZR n + Rabs (fR (L (Z.min i j) (Z.min i j)))) * grow (n + 1) * tiny * Rabs (fR (x j)))%R
    (fun j => grow (n + 1) * tiny * ((IZR n + Rabs (fR (L (Z.min i j) (Z.min i j)))) * Rabs (fR (x j))))%R) by (intros; ring). rewrite Rs_scal_l.
  unfold W. set (Q := Rs 0 n (fun t => Rabs (fR (L i t)) * Rs 0 n (fun j => Rabs (fR (L j t)) * Rabs (fR (x j))))%R).
  set (R1 := Rs 0 n (fun t => Rabs (fR (L i t)) * (IZR n + Rabs (fR (L t t))))%R). set (R2 := Rs 0 n (fun j => (IZR n + Rabs (fR (L (Z.min i j) (Z.min i j)))) * Rabs (fR (x j)))%R).
  assert (PQ : (0 <= Q)%R) by (apply Rs_nonneg; intros; apply Rmult_le_pos; [apply Rabs_pos|apply absprod_nonneg]).
  assert (P1 : (0 <= R1)%R) by (apply Rs_nonneg; intros; pose proof (Rabs_pos (fR (L k k))); apply Rmult_le_pos; [apply Rabs_pos|lra]).
  clearbody Q R1 R2. pose proof (grow_le n (n + 1) ltac:(lia)) as GG. unfold gam in *. set (g := grow n) in *. set (g' := grow (n + 1)) in *. clearbody g g'.
  pose proof (Rabs_pos (fR (L i i))) as Pl. set (l := Rabs (fR (L i i))) in *. clearbody l.
  assert (C1 : ((g - 1) * (2 + (g - 1)) + (g' - 1) <= (g' - 1) * (3 + (g' - 1)))%R) by nra.
  assert (C2 : (((g - 1) * (2 + (g - 1)) + (g' - 1)) * Q <= (g' - 1) * (3 + (g' - 1)) * Q)%R) by (apply Rmult_le_compat_r; auto).
  assert (C3 : ((IZR n + l) * g * tiny <= (IZR n + l) * g' * tiny)%R) by (apply Rmult_le_compat_r; [lra|]; apply Rmult_le_compat_l; lra).
  assert (C4 : (g * (g * (tiny * R1)) <= g' * (g' * (tiny * R1)))%R).
  { assert (0 <= tiny * R1)%R by (apply Rmult_le_pos; lra). apply Rmult_le_compat; [lra|apply Rmult_le_pos; lra|auto|]. apply Rmult_le_compat_r; auto. }
  lra.
Qed.
End Tables.

Lemma ch_sf_back : forall c (m : @RealMatrix (SFOps c)) n (A : Z -> Z -> sf) (rel pos : sf) (d0 d : @ChD (SFOps c)), library m -> MatIs m n n A -> 1 <= n -> nums2 n n A ->
  NewCholeskyDecomposition m rel pos = Ok d0 -> ch_calls d0 d ->
  exists Lm (L : Z -> Z -> sf) d1, ch_L d = Ok (Lm, d1) /\ MatIs Lm n n L /\
    (nums2 n n L -> chol_close n A L /\
      (forall (v : @RealVector (SFOps c)) (b : Z -> sf), VecIs v n b -> nums n b ->
         exists (r : @RealVector (SFOps c)) (x : Z -> sf), chs_SolveVector d v = Ok r /\ VecIs r n x /\ (nums n x -> chol_solves n A L x b)) /\
      (forall (bm : @RealMatrix (SFOps c)) k (B : Z -> Z -> sf), 1 <= k -> library bm -> MatIs bm n k B -> nums2 n k B ->
         exists (r : @RealMatrix (SFOps c)) (X : Z -> Z -> sf), chs_SolveMatrix d bm = Ok r /\ MatIs r n k X /\
         (nums2 n k X -> forall q, 0 <= q < k -> chol_solves n A L (fun i => X i q) (fun i => B i q))) /\
      (exists (r : @RealMatrix (SFOps c)) (X : Z -> Z -> sf), chs_Inverse d = Ok r /\ MatIs r n n X /\
         (nums2 n n X -> forall q, 0 <= q < n -> chol_solves n A L (fun i => X i q) (fun i => if i =? q then sf_of_Z 1 else sf_zero)))).
Proof.
  intros c m n A rel pos d0 d Hl Hm Hn HA E Hc. destruct (ch_state m n A rel pos d0 d Hl Hm Hn E Hc) as (M & (_ & Inv) & Hok).
  destruct (ch_L_ok n M d Hn Hok) as ([Lm d1] & EL & _ & HL & _). cbn [fst snd] in *.
  exists Lm, (fun i j => M j i), d1. split; [exact EL|]. split; [exact HL|]. intros NL.
  assert (NM : nums2 n n M) by (intros i j Hi Hj; apply NL; auto).
  split; [apply (ch_close c n A pos M); auto|]. split; [|split].
  - intros v b Hv Nb. destruct (chs_SolveVector_ok n M d v b Hok Hv ltac:(lia)) as (r & E1 & x & Hx & Sx). exists r, x. split; [auto|]. split; [auto|]. intros Nx.
    apply (ch_solves c n A pos M); auto.
  - intros bm k B Hk Hlb Hb Nb. destruct (chs_SolveMatrix_ok n M d bm k B Hn Hk Hok Hlb Hb) as (r & E1 & X & _ & HX & SX). exists r, X. split; [auto|]. split; [auto|]. intros NX q Hq.
    apply (ch_solves c n A pos M); auto; [intros i Hi; apply Nb; auto|intros i Hi; apply NX; auto].
  - destruct (chs_Inverse_ok n M d Hn Hok) as (r & E1 & X & _ & HX & SX). exists r, X. split; [auto|]. split; [auto|]. intros NX q Hq.
    apply (ch_solves c n A pos M); auto; [|intros i Hi; apply NX; auto]. intros i Hi. destruct (i =? q); [apply num_one|apply num0].
Qed.

(** ** Definiteness up to rounding *)
From Verif Require Import CholReal.
Lemma close_definite n A L : chol_close n A L -> forall x : Z -> R,
  (- Rs 0 n (fun i => Rs 0 n (fun j => Rabs (x i) * chol_err n L i j * Rabs (x j))) <= quad n (fun i j => fR (up A i j)) x)%R.
Proof.
  intros H x.
  assert (P : (0 <= quad n (fun i j => Rs 0 n (fun t => fR (L i t) * fR (L j t))) x)%R).
  { rewrite (quad_gram n n (fun t i => fR (L i t)) x). apply Rs_nonneg. intros. apply Rle_0_sqr. }
  unfold quad, dot, mvec in *.
  assert (D : (Rs 0 n (fun i => x i * Rs 0 n (fun j => Rs 0 n (fun t => fR (L i t) * fR (L j t)) * x j)) - Rs 0 n (fun i => x i * Rs 0 n (fun j => fR (up A i j) * x j)) <=
    Rs 0 n (fun i => Rs 0 n (fun j => Rabs (x i) * chol_err n L i j * Rabs (x j))))%R); [|lra].
  rewrite <- Rs_minus. apply Rs_le. intros i Hi. rewrite <- Rmult_minus_distr_l, <- Rs_minus, <- Rs_scal_l. apply Rs_le. intros j Hj.
  rewrite <- Rmult_minus_distr_r, <- Rmult_assoc. eapply Rle_trans; [apply Rle_abs|]. rewrite !Rabs_mult.
  apply Rmult_le_compat_r; [apply Rabs_pos|]. apply Rmult_le_compat_l; [apply Rabs_pos|]. apply H; auto.
Qed.
Lemma ch_sf_definite : forall c (m : @RealMatrix (SFOps c)) n (A : Z -> Z -> sf) (rel pos : sf) (d0 d : @ChD (SFOps c)), library m -> MatIs m n n A -> 1 <= n -> nums2 n n A ->
  NewCholeskyDecomposition m rel pos = Ok d0 -> ch_calls d0 d ->
  exists Lm (L : Z -> Z -> sf) d1, ch_L d = Ok (Lm, d1) /\ MatIs Lm n n L /\ (nums2 n n L -> forall x : Z -> R,
    (- Rs 0 n (fun i => Rs 0 n (fun j => Rabs (x i) * chol_err n L i j * Rabs (x j))) <= quad n (fun i j => fR (up A i j)) x)%R).
Proof.
  intros c m n A rel pos d0 d Hl Hm Hn HA E Hc. destruct (ch_sf_back c m n A rel pos d0 d Hl Hm Hn HA E Hc) as (Lm & L & d1 & EL & HL & K).
  exists Lm, L, d1. split; [auto|]. split; [auto|]. intros NL. apply close_definite. apply K. auto.
Qed.

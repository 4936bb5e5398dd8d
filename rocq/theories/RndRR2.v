(** The rounding theorems on the rank-revealing QR decomposition, on the Go types. *)
From Coq Require Import ZArith List Reals Lia Lra Psatz Bool Floats.SpecFloat.
From Verif Require Import Base BaseLemmas Scalar Vector VecSpec Matrix MatSpec Array2D BlockM Diagonal DiagSpec RealMatrixM MatFacts MatrixOps BlockMul Float64 RealOps RSum RealMat RealMat2 House RealVec TabTac FSum LUSpec QR QRSpec QRFacts QRFacts2 QRFacts3 QRProps QRReal QRProps2 RRPerm RndSpec FloatR RndSum RndTri RndHouse RndRefl RndApply RndQRSpec RndQR RndQR2 RndRR.
Open Scope Z_scope.

(** ** The solutions are 64-bit numbers *)
Section Valid.
Variables (c m n : Z) (M : Z -> Z -> sf) (D : Z -> sf).
Notation SO := (SFOps c).
Hypothesis VM : forall j r, 0 <= j < n -> 0 <= r < m -> sf_valid (M j r) = true.
Hypothesis VD : forall k, 0 <= k < Z.min m n -> sf_valid (D k) = true.
Lemma fsubd_valid y lo hi (g : Z -> sf) : sf_valid y = true -> (forall i, lo <= i < hi -> sf_valid (g i) = true) -> sf_valid (fsubd (O := SO) (y : @F SO) lo hi g) = true.
Proof.
  intros Hy H. unfold fsubd. enough (G : forall t, (t <= Z.to_nat (hi - lo))%nat -> sf_valid (accum (fun k s => sf_sub s (g (hi - 1 - k))) t y) = true) by (apply G; lia).
  induction t as [|t IH]; intros Ht; cbn [accum]; auto. apply sub_valid; [apply IH; lia|]. apply H. lia.
Qed.
Lemma steps_valid (al : Z -> (Z -> sf) -> sf) b : (forall k y, 0 <= k < Z.min m n -> (forall r, 0 <= r < m -> sf_valid (y r) = true) -> sf_valid (al k y) = true) ->
  (forall r, 0 <= r < m -> sf_valid (b r) = true) -> forall k, 0 <= k <= Z.min m n ->
  forall r, 0 <= r < m -> sf_valid (accum (fun k y i => if k <=? i then sf_add (y i) (sf_mul (al k y) (M k i)) else y i) (Z.to_nat k) b r) = true.
Proof.
  intros Ha Hb k [Hk Hkp]. revert Hkp. pattern k. apply natlike_ind; auto; clear k Hk.
  intros k Hk IH Hkp r Hr. change (Z.succ k) with (k + 1) in *. rewrite accum_S by lia. specialize (IH ltac:(lia)). destruct (k <=? r); [|auto].
  apply add_valid; [auto|]. apply mul_valid; [apply Ha; auto; lia|apply VM; lia].
Qed.
Lemma back_valid (x y : Z -> sf) : (forall i, 0 <= i < Z.min m n -> sf_valid (y i) = true) ->
  (forall i, 0 <= i < Z.min m n -> (forall t, i < t < Z.min m n -> sf_valid (x t) = true) -> sf_valid (fsubd (O := SO) (y i : @F SO) (i + 1) (Z.min m n) (fun t => sf_mul (x t) (M t i))) = true -> sf_valid (x i) = true) ->
  forall i, 0 <= i < Z.min m n -> sf_valid (x i) = true.
Proof.
  intros Hy H. enough (G : forall t, 0 <= t -> forall i, Z.min m n - t <= i < Z.min m n -> 0 <= i -> sf_valid (x i) = true) by (intros i Hi; apply (G (Z.min m n)); lia).
  intros t Ht. pattern t. apply natlike_ind; auto; clear t Ht; [intros; lia|]. intros t Ht IH i Hi Hi0. change (Z.succ t) with (t + 1) in *.
  destruct (Z_lt_le_dec i (Z.min m n - t)) as [Hlt|Hge]; [|apply IH; lia]. apply H; [lia|intros; apply IH; lia|].
  apply fsubd_valid; [apply Hy; lia|]. intros k Hk. apply mul_valid; [apply IH; lia|apply VM; lia].
Qed.
Lemma sv_valid b x : (forall r, 0 <= r < m -> sf_valid (b r) = true) -> sv_sol (O := SO) m n M D b x -> forall i, 0 <= i < n -> sf_valid (x i) = true.
Proof.
  intros Hb [H1 H2] i Hi. destruct (Z_lt_le_dec i (Z.min m n)) as [Hlt|Hge]; [|rewrite H2 by lia; reflexivity].
  apply (back_valid x (sv_y (O := SO) m n M D b)); auto; try lia.
  - intros k Hk. apply (steps_valid (fun k y => sv_dot (O := SO) m M D k y) b); auto; try lia. intros k' y Hk' Hy. unfold sv_dot.
    apply div_valid; [apply (fadds_valid c m n); intros r Hr; apply mul_valid; [apply Hy; lia|apply VM; lia]|]. apply mul_valid; [apply VD; lia|apply VM; lia].
  - intros k Hk Hx Hs. rewrite H1 by lia. apply div_valid; [exact Hs|apply VD; lia].
Qed.
Lemma sm_valid b x : (forall r, 0 <= r < m -> sf_valid (b r) = true) -> sm_sol (O := SO) m n M D b x -> forall i, 0 <= i < n -> sf_valid (x i) = true.
Proof.
  intros Hb [H1 H2] i Hi. destruct (Z_lt_le_dec i (Z.min m n)) as [Hlt|Hge]; [|rewrite H2 by lia; reflexivity].
  apply (back_valid x (sm_y (O := SO) m n M D b)); auto; try lia.
  - intros k Hk. apply (steps_valid (fun k y => sm_dot (O := SO) m M D k y) b); auto; try lia. intros k' y Hk' Hy. unfold sm_dot.
    apply mul_valid; [apply (fadds_valid c m n); intros r Hr; apply mul_valid; [apply VM; lia|apply Hy; lia]|]. apply div_valid; [apply num_one|]. apply mul_valid; [apply VD; lia|apply VM; lia].
  - intros k Hk Hx Hs. rewrite H1 by lia. apply mul_valid; [exact Hs|]. apply div_valid; [apply num_one|apply VD; lia].
Qed.
End Valid.

(** ** The decomposition and the solver *)
Lemma rr_sf_backward : forall c (x : @RealMatrix (SFOps c)) m n (A : Z -> Z -> sf) (thr : sf) d, transposable x -> MatIs x m n A -> 1 <= m -> 1 <= n -> qr_size m -> nums2 m n A ->
  rr_of x thr d ->
  exists p Pm Rm Qm (T Qf : Z -> Z -> sf) d1 d2 d3, rr_P d = Ok (Pm, d1) /\ rr_lift qr_R d = Ok (Rm, d2) /\ rr_lift qr_Q d = Ok (Qm, d3) /\
    MatIs Pm n n (fun i j => if i =? p j then sf_of_Z 1 else sf_zero) /\ permutes n p /\ MatIs Rm m n T /\ MatIs Qm m m Qf /\
    (nums2 m n T -> diag_range (Z.min m n) T -> exists Q, qr_backward m n (fun i j => A i (p j)) T Q /\
       (nums2 m m Qf -> q_close m (Z.min m n) Qf Q /\ q_orthonormal m (Z.min m n) Qf /\ qr_product m n (fun i j => A i (p j)) Qf T)).
Proof.
  intros c x m n A thr d Ht Hx Hm Hn Hk HA Hd. pose proof (rr_state2 x m n A thr d Ht Hx Hm Hn Hd) as K. cbv zeta in K.
  destruct (rr_P_ok _ _ _ _ _ _ d Hn K) as ([P d1] & E1 & [_ H1] & _).
  destruct (rr_lift3 _ _ _ _ _ _ d qr_R _ _ _ K (qr_R_ok _ _ _ _ _ _ Hm Hn (proj1 K))) as ([Rm d2] & E2 & H2 & _).
  destruct (rr_lift3 _ _ _ _ _ _ d qr_Q _ _ _ K (qr_Q_ok _ _ _ _ _ _ Hm Hn (proj1 K))) as ([Qm d3] & E3 & H3 & _). cbn [fst] in *.
  exists (rrq (O := SFOps c) m n A), P, Rm, Qm. eexists. eexists. exists d1, d2, d3. do 3 (split; [eassumption|]). split; [exact H1|]. split; [apply K|]. split; [exact H2|]. split; [exact H3|].
  apply (qr_tab c m n (pcols (O := SFOps c) m n A)); auto. intros i j Hi Hj. apply HA; auto. destruct K as (_ & _ & _ & (P1 & _) & _). apply P1; auto.
Qed.
Lemma moved_m c (Pm X : @RealMatrix (SFOps c)) : general Pm -> general X ->
  msum Pm X = fsum (O := SFOps c) \/ msum Pm X = bsum (O := SFOps c) (fsum (O := SFOps c)) \/ msum Pm X = bsum (O := SFOps c) (sum4 (O := SFOps c)).
Proof. intros HP HX. destruct Pm as [a|b|dd|? ? ?]; try contradiction; destruct X as [a'|b'|dd|? ? ?]; try contradiction; cbn [msum]; auto. Qed.
Lemma rr_sf_solve : forall c (x : @RealMatrix (SFOps c)) m n (A : Z -> Z -> sf) (thr : sf) d, transposable x -> MatIs x m n A -> 1 <= m -> 1 <= n -> qr_size m -> nums2 m n A ->
  rr_of x thr d -> rrs_IsNonSingular d = Ok true ->
  exists Rm (T : Z -> Z -> sf) d1, rr_lift qr_R d = Ok (Rm, d1) /\ MatIs Rm m n T /\
    (nums2 m n T -> diag_range (Z.min m n) T ->
      (forall (v : @RealVector (SFOps c)) (b : Z -> sf), VecIs v m b -> nums m b ->
         exists (r : @RealVector (SFOps c)) (y : Z -> sf) d', rrs_SolveVector d v = Ok (r, d') /\ VecIs r n y /\ (nums n y -> ls_backward m n A b y)) /\
      (forall (bm : @RealMatrix (SFOps c)) k (B : Z -> Z -> sf), 1 <= k -> MatIs bm m k B -> nums2 m k B ->
         exists (r : @RealMatrix (SFOps c)) (X : Z -> Z -> sf) d', rrs_SolveMatrix d bm = Ok (r, d') /\ MatIs r n k X /\
         forall q, 0 <= q < k -> nums n (fun i => X i q) -> ls_backward m n A (fun i => B i q) (fun i => X i q)) /\
      (m = n -> exists (r : @RealMatrix (SFOps c)) (X : Z -> Z -> sf) d', rrs_Inverse d = Ok (r, d') /\ MatIs r n n X /\
         forall q, 0 <= q < n -> nums n (fun i => X i q) -> ls_backward n n A (fun i => if i =? q then sf_of_Z 1 else sf_zero) (fun i => X i q))).
Proof.
  intros c x m n A thr d Ht Hx Hm Hn Hk HA Hd Hs. pose proof (rr_state2 x m n A thr d Ht Hx Hm Hn Hd) as K. cbv zeta in K.
  destruct (rr_lift3 _ _ _ _ _ _ d qr_R _ _ _ K (qr_R_ok _ _ _ _ _ _ Hm Hn (proj1 K))) as ([Rm d1] & E1 & H1 & _). cbn [fst] in *.
  exists Rm. eexists. exists d1. split; [exact E1|]. split; [exact H1|]. intros NT RT.
  assert (Hq : permutes n (rrq (O := SFOps c) m n A)) by apply K. pose proof Hq as (P1 & P2 & P3).
  assert (VA : forall r j, 0 <= r < m -> 0 <= j < n -> sf_valid (pcols (O := SFOps c) m n A r j) = true) by (intros; apply HA; auto).
  set (M := fst (hh_iter (O := SFOps c) m (pcols (O := SFOps c) m n A) (Z.min m n))) in *. set (D := snd (hh_iter (O := SFOps c) m (pcols (O := SFOps c) m n A) (Z.min m n))) in *.
  assert (VM : forall j r, 0 <= j < n -> 0 <= r < m -> sf_valid (M j r) = true) by (intros; apply (M_valid c m n (pcols (O := SFOps c) m n A)); auto; lia).
  assert (VD : forall k, 0 <= k < Z.min m n -> sf_valid (D k) = true).
  { intros k Hk'. pose proof (NT k k ltac:(lia) ltac:(lia)) as [V _]. unfold tabR in V. rewrite Z.eqb_refl in V. destruct (Z.ltb_spec k (Z.min m n)); [|lia]. exact V. }
  assert (SM : forall d, rr_ok (O := SFOps c) m n M D (rrq (O := SFOps c) m n A) thr d -> (forall i, 0 <= i < Z.min m n -> @fle (SFOps c) (@fabs (SFOps c) (D i)) thr = false) -> forall (bm : @RealMatrix (SFOps c)) k (B : Z -> Z -> sf), 1 <= k -> MatIs bm m k B -> nums2 m k B ->
         exists (r : @RealMatrix (SFOps c)) (X : Z -> Z -> sf) d', rrs_SolveMatrix d bm = Ok (r, d') /\ MatIs r n k X /\
         forall q, 0 <= q < k -> nums n (fun i => X i q) -> ls_backward m n A (fun i => B i q) (fun i => X i q)).
  { clear d Hd Hs K E1. intros d K Hz bm k B Hk1 Hb NB. unfold rrs_SolveMatrix. destruct (rr_P_ok _ _ _ _ _ _ d Hn K) as ([P d2] & -> & [HgP HP] & K1). cbn [bind fst snd] in *.
    destruct (qrs_SolveMatrix_ok _ _ _ _ _ _ bm k B Hm Hn Hk1 (proj1 K1) Hb Hz) as (r & Er & X & HgX & HX & HS). rewrite Er. cbn [bind].
    destruct (m_Multiply_ok P r n n k _ X HgP HP HX Hk1) as (w & Ew & _ & Hw). rewrite Ew. cbn [bind]. exists w. eexists. exists d2. split; [reflexivity|]. split; [exact Hw|]. cbn beta.
    intros q Hq' Ny. assert (Vx : forall i, 0 <= i < n -> sf_valid (X i q) = true) by (apply (sm_valid c m n M D VM VD (fun i => B i q) (fun i => X i q)); [intros; apply NB; auto|apply HS; auto]).
    destruct (moved_ok c n (rrq (O := SFOps c) m n A) Hn Hq (msum P r) (fun i => X i q) (moved_m c P r HgP HgX) Vx) as [Nx Hmv]. { exists 0. split; [lia|]. apply (Ny 0). lia. }
    eapply (ls_perm n (rrq (O := SFOps c) m n A)); eauto.
    - apply (sm_back c m n Hm Hn Hk (pcols (O := SFOps c) m n A) VA NT RT (fun i => B i q) (fun i => X i q)); auto. intros i Hi. apply NB; auto.
    - intros j Hj. apply Hmv. auto. }
  assert (Hz : forall i, 0 <= i < Z.min m n -> @fle (SFOps c) (@fabs (SFOps c) (D i)) thr = false).
  { destruct (qrs_IsNonSingular_ok _ _ _ _ _ _ Hm Hn (proj1 K)) as (s & Es & Hs'). unfold rrs_IsNonSingular in Hs. rewrite Hs in Es. injection Es as <-. apply Hs'. auto. }
  split; [|split].
  - intros v b Hv Nb. unfold rrs_SolveVector. destruct (rr_P_ok _ _ _ _ _ _ d Hn K) as ([P d2] & -> & [HgP HP] & K1). cbn [bind fst snd] in *.
    destruct (qrs_SolveVector_ok _ _ _ _ _ _ v b Hm Hn (proj1 K1) Hv Hz) as (r & Er & y & Hy & HS). rewrite Er. cbn [bind]. destruct (qrs_SolveVector_arr _ _ _ Er) as (yl & ->).
    destruct (m_Operate_ok P n n _ yl y HgP HP Hy) as (w & Ew & Hw).
    assert (EO : m_OperateVector P (VArr yl) = Ok (VArr w)).
    { destruct P as [a|bb|?|? ? ?]; try contradiction; cbn [m_OperateVector m_Operate] in *; unfold a2_OperateVector, b_OperateVector; rewrite Ew; auto. }
    rewrite EO. cbn [bind]. exists (VArr w). eexists. exists d2. split; [reflexivity|]. split; [exact Hw|]. cbn beta. intros Ny.
    assert (Vx : forall i, 0 <= i < n -> sf_valid (y i) = true) by (apply (sv_valid c m n M D VM VD b y); [intros; apply Nb; auto|auto]).
    set (sum := match P with MArr _ => fsum (O := SFOps c) | _ => bsum (O := SFOps c) (sum4 (O := SFOps c)) end).
    assert (Es : sum = fsum (O := SFOps c) \/ sum = bsum (O := SFOps c) (fsum (O := SFOps c)) \/ sum = bsum (O := SFOps c) (sum4 (O := SFOps c))) by (unfold sum; destruct P; auto).
    assert (Ey : forall i, match P with MArr _ => fsum (O := SFOps c) n (fun k => sf_mul (tabPt (O := SFOps c) (rrq (O := SFOps c) m n A) i k) (y k)) | _ => bsum (O := SFOps c) (sum4 (O := SFOps c)) n (fun k => sf_mul (tabPt (O := SFOps c) (rrq (O := SFOps c) m n A) i k) (y k)) end = moved c n (rrq (O := SFOps c) m n A) sum y i) by (intros i; unfold sum, moved; destruct P; auto).
    destruct (moved_ok c n (rrq (O := SFOps c) m n A) Hn Hq sum y Es Vx) as [Nx Hmv]. { exists 0. split; [lia|]. rewrite <- Ey. apply (Ny 0). lia. }
    eapply (ls_perm n (rrq (O := SFOps c) m n A)); eauto.
    + apply (sv_back c m n Hm Hn Hk (pcols (O := SFOps c) m n A) VA NT RT b y); auto.
    + intros j Hj. rewrite Ey. apply Hmv. auto.
  - intros. apply SM; auto.
  - intros ->. unfold rrs_Inverse. destruct (rr_P_ok _ _ _ _ _ _ d Hn K) as ([P d2] & EP & [HgP HP] & K1). rewrite EP. cbn [bind fst snd] in *. rewrite (MatIs_rows _ _ _ _ HP).
    destruct (identity_ok (O := SFOps c) n Hn) as (im & -> & _ & Hi). cbn [orpanic bind].
    destruct (SM d2 K1 Hz im n (@diagonal (SFOps c) (fun _ => sf_of_Z 1)) Hn Hi) as (r & X & d3 & Er & HX & HL).
    { intros i j Hi' Hj. unfold diagonal. destruct (i =? j); [apply num_one|split; reflexivity]. }
    exists r, X, d3. split; [auto|]. split; [auto|]. exact HL.
Qed.

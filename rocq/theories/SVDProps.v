(** The statements about the singular value decomposition, assembled. *)
From Coq Require Import Reals ZArith QArith List Lia Lra Bool Floats.SpecFloat.
From Verif Require Import Base BaseLemmas Wpe Scalar Vector VecSpec VectorFacts Matrix MatSpec MatFacts Array2D BlockM Diagonal DiagSpec DiagFacts RealMatrixM Array2DFacts MatrixOps RealMat TabTac FSum RealOps RSum Tri House QR QRSpec QRFacts QRReal QRReal2 CholFacts HessReal Frob Schur EigenFacts SchurReal SVD SVDSpec SVDSpecR SVDFacts SVDFacts2 SVDFacts3 SVDFacts4 SVDReal SVDReal2 SVDReal3 SVDReal4 SVDReal5 SVDOrder SVDReal6 SVDPinv SVDTerm BidiagFacts Float64 FloatOrder.
Import ListNotations.
Open Scope Z_scope.

Section Any.
Context {O : Ops}.
Lemma sv_ok_tables r c S U V tol d : 1 <= r -> 1 <= c -> sv_ok r c S U V tol d -> svd_tables r c d U S V.
Proof.
  intros Hr Hc H. pose proof H as (H1 & H2 & H3 & H4 & H5 & _). unfold svd_tables. split; [exact (proj2 H4)|]. split; [exact (proj2 H5)|]. split; [apply VTab_VecIs; exact H1|].
  destruct (sv_UT_ok r c S U V tol d H) as ([m d1] & E1 & _ & M1 & _). destruct (sv_VT_ok r c S U V tol d H) as ([m2 d2] & E2 & _ & M2 & _). destruct (sv_S_ok r c S U V tol d H) as ([m3 d3] & E3 & _ & M3 & _).
  split; [|split]; eauto.
Qed.
Lemma sv_stable x r c A d d' : library x -> MatIs x r c A -> 1 <= r -> 1 <= c -> svd_of x d -> svd_of x d' ->
  exists U S V, svd_tables r c d U S V /\ svd_tables r c d' U S V.
Proof.
  intros Hl Hx Hr Hc H H'. destruct (svd_of_two x r c A d d' Hl Hx Hr Hc H H') as (S & U & V & tol & K & K'). exists U, S, V. split; eapply sv_ok_tables; eauto.
Qed.
Lemma sv_total x r c A fuel : library x -> MatIs x r c A -> 1 <= r -> 1 <= c ->
  (exists d, NewSingularValueDecomposition fuel x = Ok d /\ forall more, (fuel <= more)%nat -> NewSingularValueDecomposition more x = Ok d) \/ NewSingularValueDecomposition fuel x = Panic EFuel.
Proof.
  intros Hl Hx Hr Hc. pose proof (sv_new_ok fuel x r c A Hl Hx Hr Hc) as W. destruct (NewSingularValueDecomposition fuel x) as [d|e|e] eqn:E; cbn in W.
  - left. exists d. split; auto. intros more Hm. apply (sv_new_more _ _ _ _ E). auto.
  - tauto.
  - right. subst. auto.
Qed.

(** Rank. *)
Lemma count_filter (q : F -> bool) (l : vec) : Z.of_nat (length (filter q l)) = sv_count (fun i => q (nthZ l i)) (len l).
Proof.
  unfold sv_count, len. rewrite Nat2Z.id. induction l as [|x l IH] using rev_ind; auto.
  rewrite filter_app, !app_length, Nat.add_1_r. cbn [filter length accum]. rewrite Nat2Z.inj_add, IH.
  assert (E : accum (fun i t => if q (nthZ l i) then t + 1 else t) (length l) 0 = accum (fun i t => if q (nthZ (l ++ [x]) i) then t + 1 else t) (length l) 0).
  { rewrite <- (Nat2Z.id (length l)) at 1 2. apply TabTac.accum_ext. intros k t Hk. rewrite nthZ_app by lia. unfold len. zbq; auto. }
  rewrite E. replace (nthZ (l ++ [x]) (Z.of_nat (length l))) with x by (rewrite nthZ_app by lia; unfold len; rewrite Z.ltb_irrefl, Z.sub_diag; reflexivity). destruct (q x); cbn; lia.
Qed.

Lemma count_bound p n : 0 <= n -> 0 <= sv_count p n <= n.
Proof.
  intros Hn. pattern n. apply natlike_ind; auto; [cbn; lia|]. intros k Hk IH. unfold sv_count in *. rewrite <- Z.add_1_r, accum_S by lia. destruct (p k); lia.
Qed.
Lemma count_all p n : 0 <= n -> sv_count p n = n <-> forall i, 0 <= i < n -> p i = true.
Proof.
  intros Hn. pattern n. apply natlike_ind; auto; [cbn; split; [intros; lia|auto]|]. intros k Hk IH. pose proof (count_bound p k Hk) as B. unfold sv_count in *. rewrite <- Z.add_1_r, accum_S by lia. destruct (p k) eqn:E.
  - split.
    + intros H i Hi. destruct (Z.eq_dec i k) as [->|]; auto. apply IH; lia.
    + intros H. enough (accum (fun i t => if p i then t + 1 else t) (Z.to_nat k) 0 = k) by lia. apply IH. intros. apply H. lia.
  - split; [intros; lia|]. intros H. rewrite H in E by lia. discriminate.
Qed.
Lemma sv_rank x r c A d : library x -> MatIs x r c A -> 1 <= r -> 1 <= c -> svd_of x d ->
  exists s1, sv_Norm d = Ok s1 /\ sv_Rank d = Ok (Z.of_nat (length (filter (fun s => fgt s (svd_threshold (Z.max r c) s1)) (sv_SingularValues d)))).
Proof.
  intros Hl Hx Hr Hc H. destruct (svd_of_ok x r c A d Hl Hx Hr Hc H) as (y & _ & _ & K). exists (t_S y 0). destruct (sv_Norm_ok r c _ _ _ _ Hr Hc d K) as [-> _]. split; auto.
  rewrite (sv_Rank_ok r c _ _ _ _ Hr Hc d K). f_equal. rewrite count_filter. unfold sv_SingularValues. pose proof K as (H1 & _). rewrite (VTab_len _ _ _ H1). unfold sv_count.
  apply TabTac.accum_ext. intros k t Hk. destruct H1 as [_ H1]. rewrite H1 by auto. reflexivity.
Qed.
Lemma sv_nonsing x r c A d : library x -> MatIs x r c A -> 1 <= r -> 1 <= c -> svd_of x d ->
  exists s1 b, sv_Norm d = Ok s1 /\ svs_IsNonSingular d = Ok b /\
    (b = true <-> r = c /\ forall s, In s (sv_SingularValues d) -> fgt s (svd_threshold (Z.max r c) s1) = true).
Proof.
  intros Hl Hx Hr Hc H. destruct (svd_of_ok x r c A d Hl Hx Hr Hc H) as (y & _ & _ & K). exists (t_S y 0). destruct (sv_Norm_ok r c _ _ _ _ Hr Hc d K) as [-> _]. 
  unfold svs_IsNonSingular. rewrite (sv_Rank_ok r c _ _ _ _ Hr Hc d K). cbn [bind]. eexists. split; [reflexivity|]. split; [reflexivity|].
  pose proof K as (H1 & -> & _). set (p := fun i => fgt (t_S y i) _). change (fgt ?s (svd_threshold (Z.max r c) (t_S y 0))) with (fgt s (fmax (flit (inject_Z (Z.max r c)) * t_S y 0 * eps_svd)%f (fsqrt doubleeps))) in *.
  pose proof (count_bound p (Z.min r c) ltac:(lia)) as B. pose proof (count_all p (Z.min r c) ltac:(lia)) as C.
  assert (Ep : (forall i, 0 <= i < Z.min r c -> p i = true) <-> (forall s, In s (sv_SingularValues d) -> fgt s (svd_threshold (Z.max r c) (t_S y 0)) = true)).
  { destruct H1 as [L1 L2]. unfold sv_SingularValues. split.
    - intros G s Hs. apply (In_nth _ _ fzero) in Hs. destruct Hs as (k & Hk & <-). specialize (L2 (Z.of_nat k) ltac:(unfold len in L1; lia)). specialize (G (Z.of_nat k) ltac:(unfold len in L1; lia)). unfold p in G. rewrite <- L2 in G. unfold nthZ in G. rewrite Nat2Z.id in G. exact G.
    - intros G i Hi. unfold p. rewrite <- L2 by auto. apply G. unfold nthZ. apply nth_In. unfold len in L1. lia. }
  rewrite <- Ep, <- C. split; [intros E; apply Z.eqb_eq in E; lia|]. intros [-> E]. apply Z.eqb_eq. rewrite Z.max_id, Z.min_id in *. exact E.
Qed.

(** Covariance. *)
Lemma sv_cov_total x r c A d min : library x -> MatIs x r c A -> 1 <= r -> 1 <= c -> svd_of x d ->
  exists U S V k, svd_tables r c d U S V /\ 0 <= k <= Z.min r c /\ (forall i, 0 <= i < k -> fge (S i) min = true) /\ (k < Z.min r c -> fge (S k) min = false) /\
    (k = 0 -> sv_Covariance d min = Panic ETooLarge) /\
    (1 <= k -> exists m d', sv_Covariance d min = Ok (m, d') /\ MatIs m (Z.min r c) (Z.min r c) (fun i j => fsum k (fun t => V i t / S t * (V j t / S t))%f)).
Proof.
  intros Hl Hx Hr Hc H. destruct (svd_of_ok x r c A d Hl Hx Hr Hc H) as (y & _ & _ & K). destruct (sv_Covariance_ok r c _ _ _ _ Hr Hc d min K) as (k & (K1 & K2 & K3) & K0 & K4).
  do 3 eexists. exists k. split; [eapply sv_ok_tables; eauto|]. split; [auto|]. split; [exact K2|]. split; [exact K3|]. split; [exact K0|]. intros Hk. destruct (K4 Hk) as ([m d'] & E & _ & M & _). cbn [fst snd] in *. eauto.
Qed.
End Any.

(** ** float64: the order of the singular values *)
Lemma SFcompare_swap x y : SFcompare y x = option_map CompOpp (SFcompare x y).
Proof.
  destruct x as [sx|sx| |sx mx ex], y as [sy|sy| |sy my ey]; try destruct sx; try destruct sy; cbn; auto.
  - rewrite (Z.compare_antisym ex ey). destruct (Z.compare_spec ex ey); cbn; auto. change (Pcompare mx my Eq) with (Pos.compare mx my). change (Pcompare my mx Eq) with (Pos.compare my mx). rewrite (Pos.compare_antisym mx my). auto.
  - rewrite (Z.compare_antisym ex ey). destruct (Z.compare_spec ex ey); cbn; auto. change (Pcompare mx my Eq) with (Pos.compare mx my). change (Pcompare my mx Eq) with (Pos.compare my mx). rewrite (Pos.compare_antisym mx my). auto.
Qed.
Lemma SFcompare_nan x y : sf_isnan x = false -> sf_isnan y = false -> SFcompare x y <> None.
Proof. destruct x as [sx|sx| |sx mx ex], y as [sy|sy| |sy my ey]; try destruct sx; try destruct sy; cbn; intros; try discriminate. Qed.
Lemma SFleb_ltb x y : sf_isnan x = false -> sf_isnan y = false -> SFleb x y = negb (SFltb y x).
Proof.
  intros Hx Hy. unfold SFleb, SFltb. rewrite (SFcompare_swap x y). pose proof (SFcompare_nan x y Hx Hy). destruct (SFcompare x y) as [[]|]; cbn; auto.
Qed.
Lemma SFleb_trans x y z : sf_isnan x = false -> sf_isnan y = false -> sf_isnan z = false -> SFleb x y = true -> SFleb y z = true -> SFleb x z = true.
Proof.
  intros Hx Hy Hz. rewrite !SFleb_ltb by auto. intros H1 H2. apply negb_true_iff in H1, H2. apply negb_true_iff. eapply SFltb_negtrans; [| | | |]; [..|exact H2|exact H1] || idtac; auto.
Qed.
Lemma sv_float_order cf (x : @RealMatrix (SFOps cf)) r c A d : library x -> MatIs x r c A -> 1 <= r -> 1 <= c -> svd_of x d ->
  (forall s, In s (sv_SingularValues d) -> sf_isnan s = false) ->
  exists S, VecIs (VArr (sv_SingularValues d)) (Z.min r c) S /\ (forall i, 0 <= i < Z.min r c -> SFleb (S754_zero false) (S i) = true) /\
    (forall i j, 0 <= i <= j -> j < Z.min r c -> SFleb (S j) (S i) = true).
Proof.
  intros Hl Hx Hr Hc H Hn. destruct (svd_of_ok x r c A d Hl Hx Hr Hc H) as (y & R & Ep & K). pose proof K as (H1 & _). set (n := Z.min r c) in *.
  assert (Nn : forall i, 0 <= i < n -> sf_isnan (t_S y i) = false).
  { intros i Hi. destruct H1 as [L1 L2]. rewrite <- (L2 i Hi). apply Hn. unfold nthZ. apply nth_In. unfold len in L1. unfold sv_SingularValues, n in *. lia. }
  assert (O1 : s_sorted n y).
  { apply (s_order (O := SFOps cf) (fun s => sf_isnan s = false)) with (m := Z.max r c) (x := sv0 (Z.max r c) n (wide r c A)); auto.
    - intros a b Ha Hb. cbn [fle SFOps]. rewrite !SFleb_ltb by auto. intros G. apply negb_false_iff in G. apply negb_true_iff. apply SFltb_asym. auto.
    - intros a. cbn [flt fle fzero fneg SFOps]. destruct a as [[]|[]| |[] ? ?]; cbn; auto.
    - intros i Hi. apply Nn. rewrite Ep in Hi. auto. }
  destruct O1 as [O1 O2]. rewrite Ep in *. exists (t_S y). split; [apply VTab_VecIs; exact H1|]. split; [exact O1|].
  intros i j Hij Hj. replace j with (i + (j - i)) by lia. assert (Hd : 0 <= j - i) by lia. assert (Hb : i + (j - i) < n) by lia. revert Hb. revert Hd. generalize (j - i).
  refine (natlike_ind _ _ _).
  - intros _. rewrite Z.add_0_r. rewrite SFleb_ltb by (apply Nn; lia). rewrite SFltb_irr. auto.
  - intros t Ht IH Hb. apply (SFleb_trans _ (t_S y (i + t))); try (apply Nn; lia); [|apply IH; lia]. replace (i + Z.succ t) with (i + t + 1) by lia. apply (O2 (i + t)); lia.
Qed.

(** When the orthogonal factors of the QR decomposition and of the bidiagonal
    transform are finite: if no reflection is skipped. *)
From Coq Require Import ZArith List Reals Lia Lra Psatz Bool Floats.SpecFloat FunctionalExtensionality.
From Flocq Require Import Core.
From Verif Require Import Base BaseLemmas Scalar Vector VecSpec Matrix MatSpec Array2D BlockM Diagonal RealMatrixM MatFacts MatrixOps Float64 RealOps RSum House RealVec TabTac FSum CholFacts QR QRSpec QRFacts QRFacts2 QRFacts3 QRProps QRReal RndSpec FloatR RndSum RndTri RndHouse RndRefl RndApply RndQRSpec RndQR RndQR2 RndQREx SVDSpecR RndFrob Hess Tridiag Bidiag HessSpec TridiagFacts BidiagFacts BidiagReal RndBidiag RndBidiagU RndBidiag2 RndBidiagSpec RndBidiag3 RndFin.
Open Scope Z_scope.

Lemma unit_len n j : 0 <= j < n -> vlen n (idm j) = 1%R.
Proof. intros Hj. unfold vlen, dot. rewrite (Rs_pick 0 n j) by (try lia; intros; unfold idm; rewrite (proj2 (Z.eqb_neq _ _)) by auto; ring). rewrite idm_same, Rmult_1_l. apply sqrt_1. Qed.

Section QR.
Variables (pf m n : Z).
Notation SO := (SFOps pf).
Hypothesis Hm : 1 <= m.
Hypothesis Hn : 1 <= n.
Hypothesis Hkap : (kap m <= / 1024)%R.
Variable A : Z -> Z -> sf.
Hypothesis VA : forall r j, 0 <= r < m -> 0 <= j < n -> sf_valid (A r j) = true.
Notation p := (Z.min m n).
Notation it k := (hh_iter (O := SO) m A k).
Notation M k := (fst (it k)).
Notation Df := (snd (it p)).
Notation Mf := (fst (it p)).
Notation ak k := (hh_a (O := SO) m (M k k) k).
Notation vk k := (hh_v (O := SO) m (M k k) k).
Notation T := (tabR (O := SO) m n Mf Df).
Notation QT := (tabQT (O := SO) m n Mf Df).
Notation qi k := (qt_iter (O := SO) m n Mf Df k).
Hypothesis NT : nums2 m n T.
Hypothesis RT : diag_range p T.
Hypothesis NZ : forall k, 0 <= k < p -> fR (T k k) <> 0%R.
Hypothesis Hsz : (10 * IZR p * kap m <= / 16)%R.
Lemma Tkk k : 0 <= k < p -> T k k = Df k.
Proof. intros Hk. unfold tabR. rewrite (proj2 (Z.ltb_lt k p)), Z.eqb_refl by lia. auto. Qed.
Lemma Q_finite : nums2 m m QT.
Proof.
  assert (F1 : fin_q pf m n A 0).
  { apply (fin_down m p (Pq pf m n A) (uq pf m n A) (fin_q pf m n A) Hm Hkap ltac:(lia) Hsz (Pq_orth pf m n A)).
    - intros i r Hi Hr. rewrite qi_p by auto. unfold qt_init. destruct (_ && _); reflexivity.
    - intros j Hj. rewrite (vlen_ext m _ (idm j)); [rewrite unit_len by auto; lra|]. intros r Hr. unfold uq. destruct (Z.ltb_spec j p); auto. rewrite qi_p. unfold qt_init, idm. rewrite (proj2 (Z.leb_le n j)) by lia. rewrite andb_true_r. destruct (j =? r); [apply fR_one|reflexivity].
    - intros k Hk F Lz i r Hi Hr. rewrite qi_S by auto. unfold qt_step.
      assert (Fu : isfin (qt_unit (O := SO) (qi (k + 1)) k i r) = true) by (unfold qt_unit; destruct (_ && _); [reflexivity|apply F; auto]).
      destruct (@feq SO (Mf k k) (@fzero SO)); auto. destruct (Z.leb_spec k i) as [Li|Li]; [|apply F; auto]. destruct (Z.leb_spec k r) as [Lr|Lr]; [|apply F; auto]. cbn [andb].
      assert (E0 : fR (ak k) <> 0%R) by (pose proof (NZ k Hk) as E; rewrite Tkk, (Df_a pf m n) in E by auto; auto).
      pose proof (vk_good pf m n Hm Hn Hkap A VA NT RT k Hk E0) as G.
      pose proof (fin_neg pf m k Hm Hkap ltac:(lia) (vk k) _ (qt_unit (O := SO) (qi (k + 1)) k i) (uq pf m n A i (k + 1)) G) as K.
      assert (Nu : forall r, k <= r < m -> num (qt_unit (O := SO) (qi (k + 1)) k i r)).
      { intros t Ht. unfold qt_unit. destruct (_ && _); [apply num_one|]. split; [apply (qi_valid pf m n Hm Hn Hkap A VA NT RT (k + 1)); lia|apply F; lia]. }
      assert (Hu : forall r, k <= r < m -> uq pf m n A i (k + 1) r = fR (qt_unit (O := SO) (qi (k + 1)) k i r)) by (intros; symmetry; apply unit_row; lia).
      specialize (K Nu Hu (Lz i Hi) r ltac:(lia)).
      change (@fadd SO) with sf_add. change (@fmul SO) with sf_mul. change (@fneg SO) with SFopp. rewrite (Mf_v pf m n) by auto.
      assert (Ea : qt_alpha (O := SO) m Mf Df k (qt_unit (O := SO) (qi (k + 1)) k i) = al_sub pf m k (qt_unit (O := SO) (qi (k + 1)) k i) (vk k) (sf_mul (ak k) (vk k k))).
      { unfold qt_alpha, al_sub. rewrite (Df_a pf m n), (Mf_v pf m n) by auto. change (@fdiv SO) with sf_div. change (@fmul SO) with sf_mul. f_equal. apply fsubl_ext. intros t Ht. rewrite (Mf_v pf m n) by auto. auto. }
      rewrite Ea. exact K.
    - intros k j Hk Hj F. apply uq_step; auto. }
  intros i r Hi Hr. split; [|apply F1; auto]. apply (qi_valid pf m n Hm Hn Hkap A VA NT RT 0); lia.
Qed.
End QR.

Section Acc.
Variables (pf N p off : Z).
Notation SO := (SFOps pf).
Hypothesis HN : 1 <= N.
Hypothesis Hkap : (kap N <= / 1024)%R.
Hypothesis Ho : 0 <= off <= 1.
Hypothesis Hp : 1 <= p <= N.
Variables (W : Z -> Z -> sf) (D : Z -> sf) (x : Z -> Z -> sf).
Notation a q := (hh_a (O := SO) N (x q) (q + off)).
Notation v q := (hh_v (O := SO) N (x q) (q + off)).
Hypothesis HW : forall q r, 0 <= q < p - off -> W q r = v q r.
Hypothesis HD : forall q, 0 <= q < p - off -> D q = a q.
Hypothesis Vx : forall q r, 0 <= q < p - off -> q + off <= r < N -> sf_valid (x q r) = true.
Hypothesis FD : forall q, 0 <= q < p - off -> isfin (D q) = true.
Hypothesis RD : forall q, 0 <= q < p - off -> fR (D q) <> 0%R -> (b2 (-450) <= Rabs (fR (D q)) <= b2 511)%R.
Notation T k := (ba_iter (O := SO) N p off W D k).
Notation U := (ba_tab (O := SO) N p off W D).
Lemma U_finite : (forall q, 0 <= q < p - off -> fR (D q) <> 0%R) -> (10 * IZR (p - off) * kap N <= / 16)%R -> nums2 N N U.
Proof.
  intros NZ Hsz. pose proof (T_valid pf N p off HN Hkap Ho Hp W D x HW HD Vx FD RD) as TV.
  assert (F1 : fin_at pf N p off W D off).
  { apply (fin_down N (p - off) (Pu pf N off x) (uu pf N p off W D) (fun q => fin_at pf N p off W D (q + off)) HN Hkap ltac:(lia) Hsz (fun q => Pa_orth pf N (q + off) (x q))).
    - replace (p - off + off) with p by lia. intros i j Hi Hj. rewrite T_p. unfold ba_init. destruct (_ && _); reflexivity.
    - intros j Hj. rewrite (vlen_ext N _ (idm j)); [rewrite unit_len by auto; lra|]. intros r Hr. unfold uu. replace (p - off + off) with p by lia. destruct (Z.ltb_spec j p); auto. rewrite T_p. unfold ba_init, idm. rewrite (Z.eqb_sym j r). destruct (Z.eqb_spec r j); [|reflexivity]. subst. rewrite (proj2 (Z.leb_le p j)) by lia. apply fR_one.
    - intros q Hq F Lz i j Hi Hj. set (k := q + off) in *. assert (Ek : q + 1 + off = k + 1) by lia. rewrite Ek in F. rewrite ba_iter_S by lia. unfold ba_step. assert (Eq : k - off = q) by lia. rewrite Eq.
      assert (Fu : isfin (tq_unit (O := SO) (T (k + 1)) k i j) = true) by (unfold tq_unit; destruct (_ && _); [reflexivity|apply F; auto]).
      destruct (@feq SO (W q k) (@fzero SO)); auto. destruct (Z.leb_spec k i) as [Li|Li]; [|apply F; auto]. destruct (Z.leb_spec k j) as [Lj|Lj]; [|apply F; auto]. cbn [andb].
      assert (E0 : fR (a q) <> 0%R) by (rewrite <- HD by auto; auto).
      pose proof (u_good pf N p off HN Hkap Ho Hp D x HD Vx FD RD q Hq E0) as G. fold k in G.
      pose proof (fin_neg pf N k HN Hkap ltac:(lia) (v q) _ (fun r => tq_unit (O := SO) (T (k + 1)) k r j) (uu pf N p off W D j (q + 1)) G) as K.
      assert (Nu : forall r, k <= r < N -> num (tq_unit (O := SO) (T (k + 1)) k r j)).
      { intros t Ht. unfold tq_unit. destruct (_ && _); [apply num_one|]. split; [apply TV; lia|apply F; lia]. }
      assert (Hu : forall r, k <= r < N -> uu pf N p off W D j (q + 1) r = fR (tq_unit (O := SO) (T (k + 1)) k r j)) by (intros; symmetry; apply unit_col; lia).
      specialize (K Nu Hu (Lz j Hj) i ltac:(lia)).
      change (@fadd SO) with sf_add. change (@fmul SO) with sf_mul. change (@fneg SO) with SFopp. rewrite HW by auto.
      assert (Ea : ba_alpha (O := SO) N off W D k (fun r => tq_unit (O := SO) (T (k + 1)) k r j) = al_sub pf N k (fun r => tq_unit (O := SO) (T (k + 1)) k r j) (v q) (sf_mul (a q) (v q k))).
      { unfold ba_alpha, al_sub. rewrite Eq. rewrite HD, HW by auto. change (@fdiv SO) with sf_div. change (@fmul SO) with sf_mul. f_equal. apply fsubl_ext. intros t Ht. rewrite HW by auto. auto. }
      rewrite Ea. exact K.
    - intros q j Hq Hj F. apply uu_step; auto. }
  intros i j Hi Hj. unfold ba_tab. assert (NT : num (T off i j)) by (split; [apply TV; lia|apply F1; auto]).
  destruct (0 <? off); [unfold tq_unit; destruct (_ && _); [apply num_one|auto]|auto].
Qed.
End Acc.

Lemma qr_sf_finite : forall c (x : @RealMatrix (SFOps c)) m n (A : Z -> Z -> sf) (thr : sf) d, transposable x -> MatIs x m n A -> 1 <= m -> 1 <= n -> qr_size m -> nums2 m n A ->
  (10 * IZR (Z.min m n) * (IZR (m + 4) * ulp2) <= / 16)%R -> qr_of x thr d ->
  exists Rm Qm (T Qf : Z -> Z -> sf) d1 d2, qr_R d = Ok (Rm, d1) /\ qr_Q d = Ok (Qm, d2) /\ MatIs Rm m n T /\ MatIs Qm m m Qf /\
    (nums2 m n T -> diag_range (Z.min m n) T -> (forall k, 0 <= k < Z.min m n -> fR (T k k) <> 0%R) ->
       nums2 m m Qf /\ exists Q, qr_backward m n A T Q /\ q_close m (Z.min m n) Qf Q /\ q_orthonormal m (Z.min m n) Qf /\ qr_product m n A Qf T).
Proof.
  intros c x m n A thr d Ht Hx Hm Hn Hk HA Hsz Hd. pose proof (qr_state x m n A thr d Ht Hx Hm Hn Hd) as K.
  destruct (qr_R_ok _ _ _ _ _ _ Hm Hn K) as ([Rm d1] & E1 & _ & H1 & _). destruct (qr_Q_ok _ _ _ _ _ _ Hm Hn K) as ([Qm d2] & E2 & _ & H2 & _). cbn [fst snd] in *.
  exists Rm, Qm. eexists. eexists. exists d1, d2. split; [exact E1|]. split; [exact E2|]. split; [exact H1|]. split; [exact H2|].
  intros NT RT NZ. assert (VA : forall r j, 0 <= r < m -> 0 <= j < n -> sf_valid (A r j) = true) by (intros; apply HA; auto).
  pose proof (Q_finite c m n Hm Hn Hk A VA NT RT NZ Hsz) as FQ. split; [intros i j Hi Hj; apply FQ; auto|].
  destruct (qr_tab c m n A Hm Hn Hk HA NT RT) as (Q & B & C). exists Q. split; [exact B|]. apply C. intros i j Hi Hj. apply FQ; auto.
Qed.

Lemma kap_le a b : 0 <= a <= b -> (kap a <= kap b)%R.
Proof. intros H. unfold kap. apply Rmult_le_compat_r; [apply Rlt_le, ulp2_pos|]. apply IZR_le. lia. Qed.
Lemma bd_upper_finite pf m n (A : Z -> Z -> sf) : 1 <= n <= m -> qr_size m -> nums2 m n A -> (10 * IZR n * kap m <= / 16)%R -> let '(M, D, Sc) := bu_iter (O := SFOps pf) m n A n in
  nums2 m n (bu_tabB (O := SFOps pf) D Sc) -> entry_range m n (bu_tabB (O := SFOps pf) D Sc) ->
  (forall k, 0 <= k < n -> fR (bu_tabB (O := SFOps pf) D Sc k k) <> 0%R) -> (forall k, 0 <= k < n - 1 -> fR (bu_tabB (O := SFOps pf) D Sc k (k + 1)) <> 0%R) ->
  nums2 m m (ba_tab (O := SFOps pf) m n 0 (flip (O := SFOps pf) M) D) /\ nums2 n n (ba_tab (O := SFOps pf) n n 1 M Sc).
Proof.
  intros Hmn Hk NA Hsz. assert (VA : forall r j, 0 <= r < m -> 0 <= j < n -> sf_valid (A r j) = true) by (intros; apply NA; auto).
  pose proof (Mf_col pf m n Hmn A VA) as MC. pose proof (Df_eq pf m n Hmn A VA) as DE. pose proof (xD_valid pf m n Hmn A VA) as XD.
  pose proof (Mf_row pf m n Hmn A VA) as MR. pose proof (Sf_eq pf m n Hmn A VA) as SE. pose proof (xS_valid pf m n Hmn A VA) as XS.
  set (xD := fun k r => fst (fst (bu_iter (O := SFOps pf) m n A k)) r k) in *. set (xS := fun k => bc_M (O := SFOps pf) m k k (fst (fst (bu_iter (O := SFOps pf) m n A k))) k) in *.
  destruct (bu_iter (O := SFOps pf) m n A n) as [[M D] Sc]. cbn [fst snd] in *. intros NT RT ND NS.
  assert (TD : forall k, 0 <= k < n -> bu_tabB (O := SFOps pf) D Sc k k = D k) by (intros; unfold bu_tabB; rewrite Z.eqb_refl; auto).
  assert (TS : forall k, 0 <= k < n - 1 -> bu_tabB (O := SFOps pf) D Sc k (k + 1) = Sc k) by (intros; unfold bu_tabB; zbq; auto; lia).
  pose proof (kap_le n m ltac:(lia)) as Kn. pose proof (kap_u n ltac:(lia)) as Ku. pose proof ulp2_pos as U0. split.
  - apply (U_finite pf m n 0 ltac:(lia) Hk ltac:(lia) ltac:(lia) (flip (O := SFOps pf) M) D xD).
    + intros q r Hq. rewrite Z.add_0_r. unfold flip. apply MC; lia.
    + intros q Hq. rewrite Z.add_0_r. apply DE; lia.
    + intros q r Hq Hr. apply XD; lia.
    + intros q Hq. rewrite <- TD by lia. apply NT; lia.
    + intros q Hq. rewrite <- TD by lia. apply range_b2, RT; lia.
    + intros q Hq. rewrite <- TD by lia. apply ND; lia.
    + rewrite Z.sub_0_r. auto.
  - apply (U_finite pf n n 1 ltac:(lia) ltac:(eapply Rle_trans; [apply Kn|apply Hk]) ltac:(lia) ltac:(lia) M Sc xS).
    + intros q r Hq. apply MR; lia.
    + intros q Hq. apply SE; lia.
    + intros q r Hq Hr. apply XS; lia.
    + intros q Hq. rewrite <- TS by lia. apply NT; lia.
    + intros q Hq. rewrite <- TS by lia. apply range_b2, RT; lia.
    + intros q Hq. rewrite <- TS by lia. apply NS; lia.
    + eapply Rle_trans; [|exact Hsz]. apply Rmult_le_compat; [assert (0 <= IZR (n - 1))%R by (apply IZR_le; lia); lra|lra| |lra]. apply Rmult_le_compat_l; [lra|]. apply IZR_le. lia.
Qed.
Section Tab.
Variables (pf m n : Z).
Notation SO := (SFOps pf).
Hypothesis Hm : 1 <= m.
Hypothesis Hn : 1 <= n.
Hypothesis Hk : qr_size (Z.max m n).
Hypothesis Hsz : (10 * IZR (Z.min m n) * kap (Z.max m n) <= / 16)%R.
Variable A : Z -> Z -> sf.
Hypothesis NA : nums2 m n A.
Lemma bd_tab_finite : let '(M, D, Sc) := bd_fin (O := SO) m n A in let T := bd_tabB (O := SO) m n D Sc in let Uf := bd_tabU (O := SO) m n M D Sc in let Vf := bd_tabV (O := SO) m n M D Sc in
  nums2 m n T -> entry_range m n T -> bd_full m n T -> nums2 m m Uf /\ nums2 n n Vf.
Proof.
  unfold bd_fin, bd_tabB, bd_tabU, bd_tabV. destruct (Z.leb_spec n m) as [Hmn|Hmn].
  - pose proof (bd_upper_finite pf m n A) as K. rewrite (Z.max_l m n) in * by lia. rewrite (Z.min_r m n) in * by lia.
    specialize (K ltac:(lia) Hk NA Hsz). destruct (bu_iter (O := SO) m n A n) as [[M D] Sc]. cbn zeta. intros NT RT B. apply K; auto; intros k Hk'; apply B; lia.
  - pose proof (bd_upper_finite pf n m (flip (O := SO) A)) as K. rewrite (Z.max_r m n) in * by lia. rewrite (Z.min_l m n) in * by lia.
    assert (NF : nums2 n m (flip (O := SO) A)) by (intros i j Hi Hj; apply NA; auto).
    specialize (K ltac:(lia) Hk NF Hsz). destruct (bu_iter (O := SO) n m (flip (O := SO) A) m) as [[M D] Sc]. cbn zeta. intros NT RT B.
    apply and_comm. apply K.
    + intros i j Hi Hj. apply (NT j i); auto.
    + intros i j Hi Hj. apply (RT j i); auto.
    + intros k Hk'. apply (B k k); lia.
    + intros k Hk'. apply (B (k + 1) k); lia.
Qed.
End Tab.
Lemma bd_sf_finite : forall c (x : @RealMatrix (SFOps c)) m n (A : Z -> Z -> sf) d, library x -> MatIs x m n A -> 1 <= m -> 1 <= n -> qr_size (Z.max m n) -> nums2 m n A ->
  (10 * IZR (Z.min m n) * (IZR (Z.max m n + 4) * ulp2) <= / 16)%R -> bd_of x d ->
  exists Um Bm Vm (Uf T Vf : Z -> Z -> sf) d1 d2 d3, bd_U d = Ok (Um, d1) /\ bd_B d = Ok (Bm, d2) /\ bd_V d = Ok (Vm, d3) /\
    MatIs Um m m Uf /\ MatIs Bm m n T /\ MatIs Vm n n Vf /\
    (nums2 m n T -> entry_range m n T -> bd_full m n T -> nums2 m m Uf /\ nums2 n n Vf /\ exists U V, bd_backward m n A T U V /\
       q_close m (Z.min m n) Uf U /\ q_orthonormal m (Z.min m n) Uf /\ q_close n (Z.min m n) Vf V /\ q_orthonormal n (Z.min m n) Vf /\ bd_product m n A Uf T Vf).
Proof.
  intros c x m n A d Hl Hx Hm Hn Hk NA Hsz Hd. pose proof (bd_state x m n A d Hl Hx Hm Hn Hd) as K. pose proof (bd_tab c m n Hm Hn Hk A NA) as I. pose proof (bd_tab_finite c m n Hm Hn Hk Hsz A NA) as J. destruct (bd_fin (O := SFOps c) m n A) as [[M D] Sc].
  destruct (bd_U_ok _ _ _ _ _ _ Hm Hn K) as ([a1 d1] & E1 & _ & H1 & _). destruct (bd_B_ok _ _ _ _ _ _ Hm Hn K) as ([a2 d2] & E2 & _ & H2 & _). destruct (bd_V_ok _ _ _ _ _ _ Hm Hn K) as ([a3 d3] & E3 & _ & H3 & _).
  cbn [fst snd] in *. exists a1, a2, a3. eexists. eexists. eexists. exists d1, d2, d3. split; [exact E1|]. split; [exact E2|]. split; [exact E3|]. split; [exact H1|]. split; [exact H2|]. split; [exact H3|].
  intros NT RT B. destruct (J NT RT B) as [J1 J2]. split; [exact J1|]. split; [exact J2|]. destruct (I NT RT) as (U & V & I1 & I2 & I3 & I4). exists U, V. destruct (I2 J1). destruct (I3 J2). auto 8.
Qed.

(** The rounding theorems on the QR decomposition, on the Go types. *)
From Coq Require Import ZArith List Reals Lia Lra Psatz Bool Floats.SpecFloat.
From Flocq Require Import Core.
From Verif Require Import Base BaseLemmas Scalar Vector VecSpec Matrix MatSpec Array2D BlockM Diagonal RealMatrixM MatFacts MatrixOps Float64 RealOps RSum House RealVec TabTac FSum QR QRSpec QRFacts QRFacts2 QRFacts3 QRProps QRReal RndSpec FloatR RndSum RndTri RndHouse RndRefl RndApply RndQRSpec RndQR.
Open Scope Z_scope.

Lemma vlen_lin m p (D : Z -> Z -> R) y : 0 <= p -> (vlen m (fun r => Rs 0 p (fun t => D r t * y t)) <= Rs 0 p (fun t => Rabs (y t) * vlen m (fun r => D r t)))%R.
Proof.
  revert p. refine (natlike_ind _ _ _).
  - rewrite (Rs_nil 0 0) by lia. rewrite vlen_zero; [lra|]. intros. apply Rs_nil. lia.
  - intros p Hp IH. change (Z.succ p) with (p + 1). rewrite Rs_last by auto.
    rewrite (vlen_ext m _ (fun r => Rs 0 p (fun t => D r t * y t) + y p * D r p)%R) by (intros; rewrite Rs_last by auto; ring).
    eapply Rle_trans; [apply vlen_tri|]. rewrite vlen_scal. lra.
Qed.
Lemma close_orthonormal m p Qf Q : orthogonal m Q -> q_close m p Qf Q -> q_orthonormal m p Qf.
Proof.
  intros HQ H. unfold q_orthonormal, q_close in *. set (e := (qr_rel m p + qr_abs m p)%R) in *. intros i j Hi Hj. change (len2 m) with (vlen m) in H.
  assert (L1 : forall i, 0 <= i < m -> vlen m (fun t => Q t i) = 1%R).
  { intros k Hk. destruct HQ as [HQ _]. specialize (HQ k k Hk Hk). unfold mmul, trm in HQ. rewrite idm_same in HQ. unfold vlen, dot. rewrite HQ. apply sqrt_1. }
  destruct HQ as [HQ _]. pose proof (HQ i j Hi Hj) as E. unfold mmul, trm in E.
  set (di t := (fR (Qf t i) - Q t i)%R). set (dj t := (fR (Qf t j) - Q t j)%R).
  replace (Rs 0 m (fun t => fR (Qf t i) * fR (Qf t j)) - idm i j)%R with (dot m (fun t => Q t i) dj + dot m di (fun t => Q t j) + dot m di dj)%R.
  2:{ rewrite <- E. unfold dot. rewrite <- !Rs_plus. unfold Rminus. rewrite <- Rs_opp, <- Rs_plus. apply Rs_ext. intros. unfold di, dj. ring. }
  pose proof (H i Hi) as Ei. pose proof (H j Hj) as Ej. fold di in Ei. fold dj in Ej.
  pose proof (vlen_dot m (fun t => Q t i) dj) as A1. pose proof (vlen_dot m di (fun t => Q t j)) as A2. pose proof (vlen_dot m di dj) as A3. rewrite L1 in A1, A2 by auto.
  change (fun t => (fR (Qf t i) - Q t i)%R) with di in Ei. change (fun t => (fR (Qf t j) - Q t j)%R) with dj in Ej.
  pose proof (vlen_pos m di). pose proof (vlen_pos m dj). eapply Rle_trans; [apply Rabs_triang|]. eapply Rle_trans; [apply Rplus_le_compat_r, Rabs_triang|].
  assert (vlen m di * vlen m dj <= e * e)%R by (apply Rmult_le_compat; lra). lra.
Qed.
Lemma close_product m n A T Qf Q : 0 <= m -> qr_backward m n A T Q -> q_close m (Z.min m n) Qf Q -> qr_product m n A Qf T.
Proof.
  intros Hm [HQ H1] H2 j Hj. specialize (H1 j Hj). unfold q_close in H2. change (len2 m) with (vlen m) in *. set (e := (qr_rel m (Z.min m n) + qr_abs m (Z.min m n))%R) in *.
  rewrite (vlen_ext m _ (fun i => (fR (A i j) - Rs 0 m (fun t => Q i t * fR (T t j))) + - 1 * Rs 0 m (fun t => (fR (Qf i t) - Q i t) * fR (T t j)))%R).
  2:{ intros i Hi. rewrite <- Rs_scal_l. rewrite (Rs_ext 0 m (fun t => fR (Qf i t) * fR (T t j))%R (fun t => Q i t * fR (T t j) + (fR (Qf i t) - Q i t) * fR (T t j))%R) by (intros; ring).
      rewrite Rs_plus, Rs_scal_l. ring. }
  eapply Rle_trans; [apply vlen_tri|]. apply Rplus_le_compat; [exact H1|]. rewrite vlen_scal. replace (Rabs (-1)) with 1%R by (rewrite Rabs_left; lra). rewrite Rmult_1_l.
  eapply Rle_trans; [apply (vlen_lin m m (fun i t => fR (Qf i t) - Q i t)%R (fun t => fR (T t j)) Hm)|]. rewrite <- Rs_scal_l. apply Rs_le. intros t Ht. rewrite (Rmult_comm e). apply Rmult_le_compat_l; [apply Rabs_pos|]. apply H2. auto.
Qed.

Lemma qr_tab c m n (A : Z -> Z -> sf) : 1 <= m -> 1 <= n -> qr_size m -> nums2 m n A ->
  let H := hh_iter (O := SFOps c) m A (Z.min m n) in let T := tabR (O := SFOps c) m n (fst H) (snd H) in let Qf i j := tabQT (O := SFOps c) m n (fst H) (snd H) j i in
  nums2 m n T -> diag_range (Z.min m n) T -> exists Q, qr_backward m n A T Q /\
    (nums2 m m Qf -> q_close m (Z.min m n) Qf Q /\ q_orthonormal m (Z.min m n) Qf /\ qr_product m n A Qf T).
Proof.
  intros Hm Hn Hk HA. cbv zeta. intros NT RT.
  assert (VA : forall r j, 0 <= r < m -> 0 <= j < n -> sf_valid (A r j) = true) by (intros; apply HA; auto).
  set (Q := Qp m (Pq c m n A) (Z.min m n)). exists Q.
  assert (HB : qr_backward m n A (tabR m n (fst (hh_iter (O := SFOps c) m A (Z.min m n))) (snd (hh_iter (O := SFOps c) m A (Z.min m n)))) Q).
  { split; [apply Qp_orth, Pq_orth|]. intros j Hj. pose proof (qr_columns c m n Hm Hn Hk A VA NT RT j Hj) as B. rewrite om_abs in B. exact B. }
  split; [exact HB|]. intros NQ.
  assert (HC : q_close m (Z.min m n) (fun i j => tabQT m n (fst (hh_iter (O := SFOps c) m A (Z.min m n))) (snd (hh_iter (O := SFOps c) m A (Z.min m n))) j i) Q).
  { intros j Hj. pose proof (q_columns c m n Hm Hn Hk A VA NT RT) as B. specialize (B ltac:(intros i k Hi' Hk'; apply (NQ k i); auto) j Hj). rewrite om_abs in B. exact B. }
  split; [exact HC|]. split; [apply (close_orthonormal m _ _ Q); auto; apply HB|]. apply (close_product m n A _ _ Q); auto. lia.
Qed.
Lemma qr_sf_backward : forall c (x : @RealMatrix (SFOps c)) m n (A : Z -> Z -> sf) (thr : sf) d, transposable x -> MatIs x m n A -> 1 <= m -> 1 <= n -> qr_size m -> nums2 m n A ->
  qr_of x thr d ->
  exists Rm Qm (T Qf : Z -> Z -> sf) d1 d2, qr_R d = Ok (Rm, d1) /\ qr_Q d = Ok (Qm, d2) /\ MatIs Rm m n T /\ MatIs Qm m m Qf /\
    (nums2 m n T -> diag_range (Z.min m n) T -> exists Q, qr_backward m n A T Q /\
       (nums2 m m Qf -> q_close m (Z.min m n) Qf Q /\ q_orthonormal m (Z.min m n) Qf /\ qr_product m n A Qf T)).
Proof.
  intros c x m n A thr d Ht Hx Hm Hn Hk HA Hd. pose proof (qr_state x m n A thr d Ht Hx Hm Hn Hd) as K.
  destruct (qr_R_ok _ _ _ _ _ _ Hm Hn K) as ([Rm d1] & E1 & _ & H1 & _). destruct (qr_Q_ok _ _ _ _ _ _ Hm Hn K) as ([Qm d2] & E2 & _ & H2 & _). cbn [fst snd] in *.
  exists Rm, Qm. eexists. eexists. exists d1, d2. split; [exact E1|]. split; [exact E2|]. split; [exact H1|]. split; [exact H2|]. apply qr_tab; auto.
Qed.
Lemma qr_sf_solve : forall c (x : @RealMatrix (SFOps c)) m n (A : Z -> Z -> sf) (thr : sf) d, transposable x -> MatIs x m n A -> 1 <= m -> 1 <= n -> qr_size m -> nums2 m n A ->
  qr_of x thr d -> qrs_IsNonSingular d = Ok true ->
  exists Rm (T : Z -> Z -> sf) d1, qr_R d = Ok (Rm, d1) /\ MatIs Rm m n T /\
    (nums2 m n T -> diag_range (Z.min m n) T ->
      (forall (v : @RealVector (SFOps c)) (b : Z -> sf), VecIs v m b -> nums m b ->
         exists (r : @RealVector (SFOps c)) (y : Z -> sf), qrs_SolveVector d v = Ok r /\ VecIs r n y /\ (nums n y -> ls_backward m n A b y)) /\
      (forall (bm : @RealMatrix (SFOps c)) k (B : Z -> Z -> sf), 1 <= k -> MatIs bm m k B -> nums2 m k B ->
         exists (r : @RealMatrix (SFOps c)) (X : Z -> Z -> sf), qrs_SolveMatrix d bm = Ok r /\ MatIs r n k X /\
         forall q, 0 <= q < k -> nums n (fun i => X i q) -> ls_backward m n A (fun i => B i q) (fun i => X i q)) /\
      (exists (r : @RealMatrix (SFOps c)) (X : Z -> Z -> sf), qrs_Inverse d = Ok r /\ MatIs r n m X /\
         forall q, 0 <= q < m -> nums n (fun i => X i q) -> ls_backward m n A (fun i => if i =? q then sf_of_Z 1 else sf_zero) (fun i => X i q))).
Proof.
  intros c x m n A thr d Ht Hx Hm Hn Hk HA Hd Hs. pose proof (qr_state x m n A thr d Ht Hx Hm Hn Hd) as K.
  destruct (qr_R_ok _ _ _ _ _ _ Hm Hn K) as ([Rm d1] & E1 & _ & H1 & _). cbn [fst snd] in *. exists Rm. eexists. exists d1. split; [exact E1|]. split; [exact H1|]. intros NT RT.
  assert (VA : forall r j, 0 <= r < m -> 0 <= j < n -> sf_valid (A r j) = true) by (intros; apply HA; auto).
  destruct (qrs_IsNonSingular_ok _ _ _ _ _ _ Hm Hn K) as (s & Es & Hs'). rewrite Hs in Es. injection Es as <-. pose proof (proj1 Hs' eq_refl) as Hz.
  destruct (qrs_Inverse_eq _ _ _ _ _ _ Hm Hn K) as (im & _ & Hi & Ei). split; [|split].
  - intros v b Hv Nb. destruct (qrs_SolveVector_ok _ _ _ _ _ _ v b Hm Hn K Hv Hz) as (r & Er & y & Hy & HS). exists r, y. split; [auto|]. split; [auto|]. intros Ny. eapply (sv_back c m n); eauto.
  - intros bm k B Hk' Hb NB. destruct (qrs_SolveMatrix_ok _ _ _ _ _ _ bm k B Hm Hn Hk' K Hb Hz) as (r & Er & X & _ & HX & HS). exists r, X. split; [auto|]. split; [auto|].
    intros q Hq Ny. eapply (sm_back c m n); eauto. intros i Hi'. apply NB; auto.
  - rewrite Ei. destruct (qrs_SolveMatrix_ok _ _ _ _ _ _ im m _ Hm Hn Hm K Hi Hz) as (r & Er & X & _ & HX & HS). exists r, X. split; [auto|]. split; [auto|].
    intros q Hq Ny. eapply (sm_back c m n); eauto.
    intros i Hi'. destruct (i =? q); [apply num_one|split; reflexivity].
Qed.

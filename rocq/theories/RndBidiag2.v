(** The bidiagonal transform in float64, tables with at least as many rows as
    columns. *)
From Coq Require Import ZArith List Reals Lia Lra Psatz Bool Floats.SpecFloat FunctionalExtensionality.
From Flocq Require Import Core.
From Verif Require Import Base BaseLemmas Scalar Float64 VecSpec RealOps RSum House RealVec TabTac FSum QRSpec QRFacts QRReal RndSpec FloatR RndSum RndTri RndHouse RndRefl RndApply RndQRSpec RndQR SVDSpecR RndFrob CholFacts TridiagFacts BidiagFacts BidiagReal RndBidiag RndBidiagU.
Open Scope Z_scope.

Section Keep.
Context {O : Ops}.
Lemma bc_keep m i0 j0 (M : Z -> Z -> F) i j : i < i0 \/ j < j0 -> bc_M m i0 j0 M i j = M i j.
Proof. intros H. unfold bc_M, bh_v. destruct (feq _ _); auto. zbq; subst; auto; lia. Qed.
Lemma br_keep n i0 j0 (M : Z -> Z -> F) i j : i < i0 \/ j < j0 -> br_M n i0 j0 M i j = M i j.
Proof. intros H. unfold br_M, flip. rewrite bc_keep by lia. auto. Qed.
Lemma bc_own m i0 j0 (M : Z -> Z -> F) i : bc_M m i0 j0 M i j0 = bh_v m (fun r => M r j0) i0 i.
Proof. unfold bc_M, bh_v. rewrite Z.eqb_refl. destruct (feq _ _); auto. Qed.
End Keep.

Section Upper.
Variables (pf m n : Z).
Notation SO := (SFOps pf).
Hypothesis Hmn : 1 <= n <= m.
Hypothesis Hkap : (kap m <= / 1024)%R.
Variable A : Z -> Z -> sf.
Hypothesis VA : forall r j, 0 <= r < m -> 0 <= j < n -> sf_valid (A r j) = true.
Notation it k := (bu_iter (O := SO) m n A k).
Notation M k := (fst (fst (it k))).
Notation Df := (snd (fst (it n))).
Notation Sf := (snd (it n)).
Notation Mf := (M n).
Notation C k := (bc_M (O := SO) m k k (M k)).
Notation xD k := (fun r => M k r k).
Notation xS k := (C k k).
Notation aD k := (hh_a (O := SO) m (xD k) k).
Notation aS k := (hh_a (O := SO) n (xS k) (k + 1)).
Lemma bi_S k : 0 <= k -> it (k + 1) = bu_step (O := SO) m n k (it k). Proof. intros. unfold bu_iter. rewrite accum_S by lia. auto. Qed.
Lemma bM_S k : 0 <= k -> M (k + 1) = if k <? n - 1 then br_M (O := SO) n k (k + 1) (C k) else C k.
Proof. intros. rewrite bi_S by auto. unfold bu_step. destruct (it k) as [[M D] Sc]. cbn [fst snd]. destruct (k <? n - 1); auto. Qed.
Lemma bM_keep k i j : 0 <= k -> i < k \/ j < k -> M (k + 1) i j = M k i j.
Proof. intros Hk H. rewrite bM_S by auto. destruct (k <? n - 1); [rewrite br_keep by lia|]; apply bc_keep; lia. Qed.
Lemma bM_col k i : 0 <= k -> M (k + 1) i k = C k i k.
Proof. intros Hk. rewrite bM_S by auto. destruct (k <? n - 1); auto. apply br_keep. lia. Qed.
Lemma bM_stay k i j : 0 <= k <= n -> i < k \/ j < k -> Mf i j = M k i j.
Proof.
  intros Hk H. assert (G : forall d, 0 <= d -> M (k + d) i j = M k i j); [|pose proof (G (n - k) ltac:(lia)) as G'; replace (k + (n - k)) with n in G' by lia; exact G'].
  refine (natlike_ind _ _ _); [rewrite Z.add_0_r; auto|]. intros d Hd IH. replace (k + Z.succ d) with (k + d + 1) by lia. rewrite bM_keep by lia. auto.
Qed.
(** *** Validity *)
Lemma bM_valid k : 0 <= k <= n -> forall r j, k <= r < m -> k <= j < n -> sf_valid (M k r j) = true.
Proof.
  intros Hk. assert (G : forall k, 0 <= k -> k <= n -> forall r j, k <= r < m -> k <= j < n -> sf_valid (M k r j) = true); [|apply G; lia]. clear k Hk.
  refine (natlike_ind _ _ _); [intros _ r j Hr Hj; apply VA; auto|]. intros k Hk IH Hn r j Hr Hj. change (Z.succ k) with (k + 1) in *. specialize (IH ltac:(lia)). rewrite bM_S by auto.
  assert (VC : forall r j, k <= r < m -> k <= j < n -> sf_valid (C k r j) = true) by (intros; apply (M'_valid pf m n k k (M k)); auto; lia).
  destruct (Z.ltb_spec k (n - 1)); [|apply VC; lia]. unfold br_M, flip at 1. apply (M'_valid pf n m (k + 1) k (flip (O := SO) (C k))); try lia. intros. unfold flip. apply VC; lia.
Qed.
Lemma bC_valid k r j : 0 <= k < n -> k <= r < m -> k <= j < n -> sf_valid (C k r j) = true.
Proof. intros Hk Hr Hj. apply (M'_valid pf m n k k (M k)); auto; try lia. intros. apply bM_valid; lia. Qed.
Lemma xD_valid k r : 0 <= k < n -> k <= r < m -> sf_valid (xD k r) = true. Proof. intros. apply bM_valid; lia. Qed.
Lemma xS_valid k r : 0 <= k < n - 1 -> k + 1 <= r < n -> sf_valid (xS k r) = true. Proof. intros. apply bC_valid; lia. Qed.
Lemma Df_eq k : 0 <= k < n -> Df k = aD k.
Proof.
  intros Hk. assert (G : forall d, 0 <= d -> snd (fst (it (k + 1 + d))) k = aD k); [|pose proof (G (n - k - 1) ltac:(lia)) as G'; replace (k + 1 + (n - k - 1)) with n in G' by lia; exact G'].
  refine (natlike_ind _ _ _).
  - rewrite Z.add_0_r, bi_S by lia. rewrite <- (bh_a_hh pf m (xD k) k) by (intros; apply xD_valid; auto). unfold bu_step. destruct (it k) as [[M D] Sc]. cbn [fst snd]. destruct (k <? n - 1); cbn [fst snd]; unfold td_upd; rewrite Z.eqb_refl; auto.
  - intros d Hd IH. replace (k + 1 + Z.succ d) with (k + 1 + d + 1) by lia. rewrite bi_S by lia. rewrite <- IH. unfold bu_step. destruct (it (k + 1 + d)) as [[M D] Sc]. cbn [fst snd].
    destruct (_ <? n - 1); cbn [fst snd]; unfold td_upd; rewrite (proj2 (Z.eqb_neq k (k + 1 + d))) by lia; auto.
Qed.
Lemma Sf_eq k : 0 <= k < n - 1 -> Sf k = aS k.
Proof.
  intros Hk. assert (G : forall d, 0 <= d -> snd (it (k + 1 + d)) k = aS k); [|pose proof (G (n - k - 1) ltac:(lia)) as G'; replace (k + 1 + (n - k - 1)) with n in G' by lia; exact G'].
  refine (natlike_ind _ _ _).
  - rewrite Z.add_0_r, bi_S by lia. rewrite <- (bh_a_hh pf n (xS k) (k + 1)) by (intros; apply xS_valid; auto). unfold bu_step. destruct (it k) as [[M D] Sc]. cbn [fst snd]. rewrite (proj2 (Z.ltb_lt k (n - 1))) by lia. cbn [fst snd]. unfold td_upd. rewrite Z.eqb_refl. auto.
  - intros d Hd IH. replace (k + 1 + Z.succ d) with (k + 1 + d + 1) by lia. rewrite bi_S by lia. rewrite <- IH. unfold bu_step. destruct (it (k + 1 + d)) as [[M D] Sc]. cbn [fst snd].
    destruct (_ <? n - 1); cbn [fst snd]; unfold td_upd; rewrite ?(proj2 (Z.eqb_neq k (k + 1 + d))) by lia; auto.
Qed.
Lemma Mf_col q r : 0 <= q < n -> Mf r q = hh_v (O := SO) m (xD q) q r.
Proof.
  intros Hq. rewrite (bM_stay (q + 1)) by lia. rewrite bM_col, bc_own by lia. rewrite bh_v_hh; auto. intros. apply xD_valid; auto.
Qed.
Lemma Mf_row q r : 0 <= q < n - 1 -> Mf q r = hh_v (O := SO) n (xS q) (q + 1) r.
Proof.
  intros Hq. rewrite (bM_stay (q + 1)) by lia. rewrite bM_S by lia. rewrite (proj2 (Z.ltb_lt q (n - 1))) by lia. unfold br_M. unfold flip at 1. rewrite bc_own. unfold flip.
  change (fun r0 => C q q r0) with (xS q). rewrite bh_v_hh; auto. intros. apply xS_valid; auto.
Qed.
(** *** Finiteness *)
Hypothesis FD : forall k, 0 <= k < n -> isfin (Df k) = true.
Hypothesis FS : forall k, 0 <= k < n - 1 -> isfin (Sf k) = true.
Hypothesis RD : forall k, 0 <= k < n -> fR (Df k) <> 0%R -> (b2 (-450) <= Rabs (fR (Df k)) <= b2 511)%R.
Hypothesis RS : forall k, 0 <= k < n - 1 -> fR (Sf k) <> 0%R -> (b2 (-450) <= Rabs (fR (Sf k)) <= b2 511)%R.
Lemma aD_fin k : 0 <= k < n -> isfin (aD k) = true. Proof. intros. rewrite <- Df_eq by auto. auto. Qed.
Lemma aS_fin k : 0 <= k < n - 1 -> isfin (aS k) = true. Proof. intros. rewrite <- Sf_eq by auto. auto. Qed.
Lemma bC_fin_of k : 0 <= k < n -> (forall r j, k + 1 <= r < m -> k + 1 <= j < n -> isfin (M (k + 1) r j) = true) -> forall r j, k <= r < m -> k + 1 <= j < n -> isfin (C k r j) = true.
Proof.
  intros Hk H r j Hr Hj. destruct (Z.eq_dec r k) as [->|].
  - apply (col_fin pf n (xS k) (k + 1)); [intros; apply xS_valid; lia|apply aS_fin; lia|lia].
  - specialize (H r j ltac:(lia) Hj). rewrite bM_S in H by lia. rewrite (proj2 (Z.ltb_lt k (n - 1))) in H by lia. unfold br_M, flip at 1 in H.
    apply (M_fin_back pf n (k + 1) k (flip (O := SO) (C k)) j r) in H; auto.
Qed.
Lemma bM_fin k : 0 <= k <= n -> forall r j, k <= r < m -> k <= j < n -> isfin (M k r j) = true.
Proof.
  intros Hk. remember (n - k) as d eqn:Ed. assert (Hd : 0 <= d) by lia. revert d Hd k Hk Ed. refine (natlike_ind _ _ _); [intros; lia|].
  intros d Hd IH k Hk Ed r j Hr Hj. specialize (IH (k + 1) ltac:(lia) ltac:(lia)). destruct (Z.eq_dec j k) as [->|].
  - apply (col_fin pf m (xD k) k); [intros; apply xD_valid; lia|apply aD_fin; lia|lia].
  - pose proof (bC_fin_of k ltac:(lia) IH r j Hr ltac:(lia)) as K. apply (M_fin_back pf m k k (M k) r j) in K; auto.
Qed.
Lemma bC_fin k r j : 0 <= k < n -> k <= r < m -> k + 1 <= j < n -> isfin (C k r j) = true.
Proof. intros Hk Hr Hj. apply bC_fin_of; auto. intros. apply bM_fin; lia. Qed.
(** *** The two steps *)
Definition Pl (k : Z) : Z -> Z -> R := Pa pf m k (xD k).
Definition Pr (k : Z) : Z -> Z -> R := Pa pf n (k + 1) (xS k).
Definition eta : R := (10 * kap m)%R.
Definition om : R := (IZR m * omg m)%R.
Definition rR (X : Z -> Z -> sf) (i j : Z) : R := fR (X i j).
Definition st0 (k : Z) : Z -> Z -> R := BB (rR (M k)) (fun i => fR (Df i)) (fun i => fR (Sf i)) k k.
Definition st1 (k : Z) : Z -> Z -> R := BB (rR (C k)) (fun i => fR (Df i)) (fun i => fR (Sf i)) k (k + 1).
Lemma kap_n : (kap n <= kap m)%R.
Proof. unfold kap. apply Rmult_le_compat_r; [pose proof ulp2_pos; lra|apply IZR_le; lia]. Qed.
Lemma om_n : (IZR n * omg m <= om)%R /\ (IZR m * omg n <= om)%R.
Proof.
  unfold om, omg. pose proof (bpow_gt_0 radix2 (-537)). assert (1 <= IZR n <= IZR m)%R by (split; [apply (IZR_le 1)|apply IZR_le]; lia). split.
  - apply Rmult_le_compat_r; [nra|lra].
  - apply Rmult_le_compat_l; [lra|]. apply Rmult_le_compat_r; lra.
Qed.
Lemma col_step k : 0 <= k < n -> (frob m n (fun i j => st1 k i j - mmul m (Pl k) (st0 k) i j) <= eta * frob m n (st0 k) + om)%R.
Proof.
  intros Hk. eapply Rle_trans; [apply (refl_step_frob pf m ltac:(lia) Hkap n k k (M k) (st0 k) (st1 k))|].
  - lia.
  - lia.
  - intros. apply bM_valid; lia.
  - apply aD_fin; auto.
  - intros E. rewrite <- Df_eq in * by auto. auto.
  - intros. apply bC_fin; lia.
  - intros r j Hr Hj. unfold st0, st1, BB. zbq; auto.
  - intros r j Hr Hj. unfold st0, BB. zbq; auto.
  - intros r j Hr Hj. unfold st0, st1, BB. zbq; auto.
  - intros r j Hr Hj. unfold st0, BB, rR. zbq; auto.
  - intros r j Hr Hj. unfold st1, BB, rR. zbq; auto.
  - intros r Hr. unfold st1, BB. rewrite <- Df_eq by auto. zbq; auto.
  - lia.
  - apply Rplus_le_compat; [apply Rle_refl|apply om_n].
Qed.
Lemma row_step k : 0 <= k < n - 1 -> (frob m n (fun i j => st0 (k + 1) i j - mmul n (st1 k) (Pr k) i j) <= eta * frob m n (st1 k) + om)%R.
Proof.
  intros Hk. pose proof kap_n as Kn. rewrite <- (frob_trm m n (st1 k)). rewrite <- frob_trm.
  rewrite (frob_eq n m _ (fun i j => trm (st0 (k + 1)) i j - mmul n (Pr k) (trm (st1 k)) i j)%R).
  2:{ intros i j Hi Hj. unfold trm. f_equal. unfold mmul. apply Rs_ext. intros t Ht. unfold Pr. rewrite Pa_sym. ring. }
  eapply Rle_trans; [apply (refl_step_frob pf n ltac:(lia) ltac:(lra) m (k + 1) k (flip (O := SO) (C k)) (trm (st1 k)) (trm (st0 (k + 1))))|].
  - lia.
  - lia.
  - intros. unfold flip. apply bC_valid; lia.
  - apply aS_fin; auto.
  - intros E. change (hh_a (O := SO) n (fun r => flip (O := SO) (C k) r k) (k + 1)) with (aS k) in *. rewrite <- Sf_eq in * by auto. auto.
  - intros r j Hr Hj. pose proof (bM_fin (k + 1) ltac:(lia) j r ltac:(lia) ltac:(lia)) as F. rewrite bM_S, (proj2 (Z.ltb_lt k (n - 1))) in F by lia. exact F.
  - intros r j Hr Hj. unfold trm, st0, st1, BB. zbq; auto.
  - intros r j Hr Hj. unfold trm, st1, BB. zbq; auto.
  - intros r j Hr Hj. unfold trm, st0, st1, BB. zbq; subst; auto.
  - intros r j Hr Hj. unfold trm, st1, BB, rR, flip. zbq; auto.
  - intros r j Hr Hj. unfold trm, st0, BB, rR. rewrite bM_S, (proj2 (Z.ltb_lt k (n - 1))) by lia. zbq; auto.
  - intros r Hr. unfold trm, st0, BB. change (hh_a (O := SO) n (fun r => flip (O := SO) (C k) r k) (k + 1)) with (aS k). rewrite <- Sf_eq by auto. zbq; auto.
  - lia.
  - apply Rplus_le_compat; [|apply om_n]. apply Rmult_le_compat_r; [apply frob_pos|unfold eta; lra].
Qed.
Lemma eta_nn : (0 <= eta)%R. Proof. unfold eta. pose proof (kap_u m ltac:(lia)). pose proof ulp2_pos. lra. Qed.
Lemma om_nn : (0 <= om)%R. Proof. unfold om. pose proof (omg_pos m ltac:(lia)). assert (0 <= IZR m)%R by (apply IZR_le; lia). nra. Qed.
Notation nr s L R Y := (near eta om m n (rR A) s L R Y).
Lemma near_st0 k : 0 <= k -> k <= n - 1 -> nr (2 * k) (Qp m Pl k) (Qp n Pr k) (st0 k).
Proof.
  revert k. refine (natlike_ind _ _ _).
  - intros _. rewrite !Qp_0. change (2 * 0) with 0. pose proof (near_0 eta om m n (rR A)) as (H1 & H2 & H3). split; auto. split; auto. 
    rewrite (frob_eq m n _ (fun i j => rR A i j - mmul n (mmul m idm (rR A)) (trm idm) i j)%R); auto.
    intros i j Hi Hj. f_equal. apply mmul_ext; auto. intros t Ht. apply mmul_ext; auto. intros u Hu. unfold st0, BB. zbq; auto.
  - intros k Hk IH Hn. change (Z.succ k) with (k + 1) in *. specialize (IH ltac:(lia)). rewrite !Qp_S by auto. replace (2 * (k + 1)) with (2 * k + 1 + 1) by lia.
    apply (near_right eta om eta_nn om_nn m n (rR A) (2 * k + 1) _ _ (st1 k)); [lia| |apply Pa_orth|intros; apply Pa_sym|apply row_step; lia].
    apply (near_left eta om eta_nn om_nn m n (rR A) (2 * k) _ _ (st0 k)); [lia|exact IH|apply Pa_orth|intros; apply Pa_sym|apply col_step; lia].
Qed.
Lemma near_B : nr (2 * n - 1) (Qp m Pl n) (Qp n Pr (n - 1)) (rR (bu_tabB (O := SO) Df Sf)).
Proof.
  pose proof (near_left eta om eta_nn om_nn m n (rR A) (2 * (n - 1)) _ _ (st0 (n - 1)) (Pl (n - 1)) (st1 (n - 1)) ltac:(lia) (near_st0 (n - 1) ltac:(lia) ltac:(lia)) (Pa_orth _ _ _ _) (Pa_sym _ _ _ _) (col_step (n - 1) ltac:(lia))) as (H1 & H2 & H3).
  replace (2 * (n - 1) + 1) with (2 * n - 1) in H3 by lia. rewrite <- Qp_S in H1, H3 by lia. replace (n - 1 + 1) with n in H1, H3 by lia. split; auto. split; auto.
  eapply Rle_trans; [|exact H3]. right. apply frob_eq. intros i j Hi Hj. f_equal. apply mmul_ext; auto. intros t Ht. apply mmul_ext; auto. intros u Hu.
  unfold st1, BB, rR, bu_tabB. change (@fzero SO) with sf_zero. zbq; subst; auto.
Qed.
(** *** The factors *)
Notation U := (ba_tab (O := SO) m n 0 (flip (O := SO) Mf) Df).
Notation V := (ba_tab (O := SO) n n 1 Mf Sf).
Lemma U_columns j : nums2 m m U -> 0 <= j < m -> (vlen m (fun r => fR (U r j) - Qp m Pl n r j) <= (gr eta n - 1) + IZR n * gr eta n * omg m)%R.
Proof.
  intros FU Hj. pose proof (u_columns pf m n 0 ltac:(lia) Hkap ltac:(lia) ltac:(lia) (flip (O := SO) Mf) Df (fun q => xD q)) as K.
  assert (EP : Pl = Pu pf m 0 (fun q => xD q)) by (apply functional_extensionality; intros q; unfold Pl, Pu; rewrite Z.add_0_r; auto).
  rewrite EP. rewrite (Z.sub_0_r n) in K. apply K; auto.
  - intros q r Hq. rewrite Z.add_0_r. unfold flip. apply Mf_col; auto.
  - intros q Hq. rewrite Z.add_0_r. apply Df_eq; auto.
  - intros q r Hq Hr. rewrite Z.add_0_r in Hr. apply xD_valid; auto.
  - lia.
Qed.
Lemma V_columns j : nums2 n n V -> 0 <= j < n -> (vlen n (fun r => fR (V r j) - Qp n Pr (n - 1) r j) <= (gr (10 * kap n) (n - 1) - 1) + IZR (n - 1) * gr (10 * kap n) (n - 1) * omg n)%R.
Proof.
  intros FV Hj. pose proof kap_n as Kn. pose proof (u_columns pf n n 1 ltac:(lia) ltac:(lra) ltac:(lia) ltac:(lia) Mf Sf (fun q => xS q)) as K.
  apply K; auto.
  - intros q r Hq. apply Mf_row; auto.
  - intros q Hq. apply Sf_eq; auto.
  - intros q r Hq Hr. apply xS_valid; auto.
  - lia.
Qed.
End Upper.

(** The rounding theorems on the bidiagonal transform: any shape, and on the Go types. *)
From Coq Require Import ZArith List Reals Lia Lra Psatz Bool Floats.SpecFloat.
From Flocq Require Import Core.
From Verif Require Import Base BaseLemmas Scalar Vector VecSpec Matrix MatSpec Array2D BlockM Diagonal RealMatrixM MatFacts MatrixOps Float64 RealOps RSum House RealVec TabTac FSum QRSpec QRFacts QRReal RndSpec FloatR RndSum RndTri RndHouse RndRefl RndApply RndQRSpec RndQR RndQR2 SVDSpecR RndFrob CholFacts Hess Tridiag Bidiag HessSpec TridiagFacts BidiagFacts BidiagReal RndBidiag RndBidiagU RndBidiag2 RndBidiagSpec.
Open Scope Z_scope.

Lemma mul3 m n U Y V i j : mmul n (mmul m U Y) (trm V) i j = Rs 0 m (fun s => Rs 0 n (fun t => U i s * Y s t * V j t))%R.
Proof.
  unfold mmul at 1, mmul, trm. rewrite Rs_swap. apply Rs_ext. intros t Ht. rewrite <- Rs_scal_r. auto.
Qed.
Lemma gr_le eta p q : (0 <= eta)%R -> 0 <= p <= q -> (gr eta p <= gr eta q)%R.
Proof. intros He Hp. unfold gr. apply Rle_pow; [lra|lia]. Qed.
Lemma gr_1 eta p : (0 <= eta)%R -> (1 <= gr eta p)%R.
Proof. intros He. unfold gr. apply pow_R1_Rle. lra. Qed.
Lemma q_bound m p q : 1 <= m -> 0 <= p <= q -> ((gr (10 * kap m) p - 1) + IZR p * gr (10 * kap m) p * omg m <= qr_rel m q + qr_abs m q)%R.
Proof.
  intros Hm Hp. pose proof (kap_u m Hm) as Ku. pose proof ulp2_pos. assert (E : (0 <= 10 * kap m)%R) by lra.
  pose proof (gr_le _ p q E Hp). pose proof (gr_1 _ p E). pose proof (omg_pos m ltac:(lia)). assert (0 <= IZR p <= IZR q)%R by (split; apply IZR_le; lia).
  unfold qr_rel, qr_abs. change (refl_grow m q) with (gr (10 * kap m) q). replace (IZR m * powerRZ 2 (-537))%R with (omg m) by (unfold omg; rewrite pz; auto).
  assert (IZR p * gr (10 * kap m) p <= IZR q * gr (10 * kap m) q)%R by (apply Rmult_le_compat; lra). nra.
Qed.
Lemma frob_close m p Qf Q : 0 <= m -> q_close m p Qf Q -> (0 <= qr_rel m p + qr_abs m p)%R -> (frob m m (fun i j => fR (Qf i j) - Q i j) <= IZR m * (qr_rel m p + qr_abs m p))%R.
Proof.
  intros Hm H H0. pose proof (frob_col_le m m (fun i j => fR (Qf i j) - Q i j)%R (fun i j => Q i j) 0 (qr_rel m p + qr_abs m p) Hm ltac:(lra) H0) as K.
  rewrite Rmult_0_l, Rplus_0_l in K. apply K. intros j Hj. rewrite Rmult_0_l, Rplus_0_l. apply (H j Hj).
Qed.

Lemma qr_nn m p : 1 <= m -> 0 <= p -> (0 <= qr_rel m p + qr_abs m p)%R.
Proof.
  intros Hm Hp. pose proof (q_bound m 0 p Hm ltac:(lia)) as K. unfold gr in K. cbn [Z.to_nat pow] in K. rewrite !Rmult_0_l in K. lra.
Qed.
Lemma frob_opp m n X : frob m n (fun i j => - X i j)%R = frob m n X.
Proof. unfold frob. f_equal. apply Rs_ext. intros. apply Rs_ext. intros. ring. Qed.
Lemma bd_prod m n A T U V Uf Vf : 1 <= m -> 1 <= n -> bd_backward m n A T U V -> q_close m (Z.min m n) Uf U -> q_close n (Z.min m n) Vf V -> bd_product m n A Uf T Vf.
Proof.
  intros Hm Hn (OU & OV & H) CU CV. unfold bd_product. set (p := Z.min m n) in *.
  pose proof (frob_close m p Uf U ltac:(lia) CU (qr_nn m p Hm ltac:(lia))) as KU. pose proof (frob_close n p Vf V ltac:(lia) CV (qr_nn n p Hn ltac:(lia))) as KV.
  set (eU := (IZR m * (qr_rel m p + qr_abs m p))%R) in *. set (eV := (IZR n * (qr_rel n p + qr_abs n p))%R) in *.
  set (Tr := fun i j => fR (T i j)) in *. set (dU := fun i j => (fR (Uf i j) - U i j)%R) in *. set (dV := fun i j => (fR (Vf i j) - V i j)%R) in *.
  rewrite (frob_eq m n _ (fun i j => (fR (A i j) - Rs 0 m (fun s => Rs 0 n (fun t => U i s * fR (T s t) * V j t))) -
     (mmul n (mmul m dU Tr) (trm V) i j + (mmul n (mmul m U Tr) (trm dV) i j + mmul n (mmul m dU Tr) (trm dV) i j)))%R).
  2:{ intros i j Hi Hj. rewrite !mul3. unfold Rminus. rewrite <- !Rs_plus, Rplus_assoc, <- Ropp_plus_distr, <- Rs_plus. f_equal. f_equal. apply Rs_ext. intros s Hs. rewrite <- !Rs_plus. apply Rs_ext. intros t Ht. unfold dU, dV, Tr. ring. }
  match goal with |- (frob m n (fun i j => ?X - ?Y) <= _)%R => pose proof (frob_add m n (fun i j => X)%R (fun i j => - Y)%R) as FA end.
  eapply Rle_trans; [exact FA|]. clear FA. rewrite frob_opp. apply Rplus_le_compat; [exact H|]. pose proof (frob_pos m n Tr) as PT. pose proof (frob_pos m m dU) as PU. pose proof (frob_pos n n dV) as PV.
  assert (B1 : (frob m n (mmul n (mmul m dU Tr) (trm V)) <= eU * frob m n Tr)%R).
  { rewrite frob_orth_r by auto. eapply Rle_trans; [apply frob_mul|]. apply Rmult_le_compat_r; auto. }
  assert (B2 : (frob m n (mmul n (mmul m U Tr) (trm dV)) <= frob m n Tr * eV)%R).
  { eapply Rle_trans; [apply frob_mul|]. rewrite frob_orth_l, frob_trm by auto. apply Rmult_le_compat_l; auto. }
  assert (B3 : (frob m n (mmul n (mmul m dU Tr) (trm dV)) <= eU * frob m n Tr * eV)%R).
  { eapply Rle_trans; [apply frob_mul|]. rewrite frob_trm. apply Rmult_le_compat; auto; [apply frob_pos|]. eapply Rle_trans; [apply frob_mul|]. apply Rmult_le_compat_r; auto. }
  eapply Rle_trans; [apply frob_add|]. eapply Rle_trans; [apply Rplus_le_compat_l, frob_add|]. lra.
Qed.

Lemma range_b2 x : fR x = 0%R \/ (powerRZ 2 (-450) <= Rabs (fR x) <= powerRZ 2 511)%R -> fR x <> 0%R -> (b2 (-450) <= Rabs (fR x) <= b2 511)%R.
Proof. rewrite !pz. tauto. Qed.

Lemma bd_upper pf m n (A : Z -> Z -> sf) : 1 <= n <= m -> qr_size m -> nums2 m n A -> let '(M, D, Sc) := bu_iter (O := SFOps pf) m n A n in
  nums2 m n (bu_tabB (O := SFOps pf) D Sc) -> entry_range m n (bu_tabB (O := SFOps pf) D Sc) -> exists U V,
    near (10 * kap m) (IZR m * omg m) m n (rR A) (2 * n - 1) U V (rR (bu_tabB (O := SFOps pf) D Sc)) /\
    (nums2 m m (ba_tab (O := SFOps pf) m n 0 (flip (O := SFOps pf) M) D) -> q_close m n (ba_tab (O := SFOps pf) m n 0 (flip (O := SFOps pf) M) D) U) /\
    (nums2 n n (ba_tab (O := SFOps pf) n n 1 M Sc) -> q_close n n (ba_tab (O := SFOps pf) n n 1 M Sc) V).
Proof.
  intros Hmn Hk NA. assert (VA : forall r j, 0 <= r < m -> 0 <= j < n -> sf_valid (A r j) = true) by (intros; apply NA; auto).
  pose proof (near_B pf m n Hmn Hk A VA) as KB. pose proof (U_columns pf m n Hmn Hk A VA) as KU. pose proof (V_columns pf m n Hmn Hk A VA) as KV.
  set (U := Qp m (Pl pf m n A) n) in *. set (V := Qp n (Pr pf m n A) (n - 1)) in *. clearbody U V.
  destruct (bu_iter (O := SFOps pf) m n A n) as [[M D] Sc]. cbn [fst snd] in *. intros NT RT.
  assert (TD : forall k, 0 <= k < n -> bu_tabB (O := SFOps pf) D Sc k k = D k) by (intros; unfold bu_tabB; rewrite Z.eqb_refl; auto).
  assert (TS : forall k, 0 <= k < n - 1 -> bu_tabB (O := SFOps pf) D Sc k (k + 1) = Sc k) by (intros; unfold bu_tabB; zbq; auto; lia).
  assert (FD : forall k, 0 <= k < n -> isfin (D k) = true) by (intros; rewrite <- TD by auto; apply NT; lia).
  assert (FS : forall k, 0 <= k < n - 1 -> isfin (Sc k) = true) by (intros; rewrite <- TS by auto; apply NT; lia).
  assert (RD : forall k, 0 <= k < n -> fR (D k) <> 0%R -> (b2 (-450) <= Rabs (fR (D k)) <= b2 511)%R) by (intros k Hk'; rewrite <- TD by auto; apply range_b2, RT; lia).
  assert (RS : forall k, 0 <= k < n - 1 -> fR (Sc k) <> 0%R -> (b2 (-450) <= Rabs (fR (Sc k)) <= b2 511)%R) by (intros k Hk'; rewrite <- TS by auto; apply range_b2, RT; lia).
  exists U, V. split; [apply KB; auto|]. split; intros N j Hj.
  - eapply Rle_trans; [apply KU; auto|]. apply q_bound; lia.
  - eapply Rle_trans; [apply KV; auto|]. apply q_bound; lia.
Qed.

Section Tab.
Variables (pf m n : Z).
Notation SO := (SFOps pf).
Hypothesis Hm : 1 <= m.
Hypothesis Hn : 1 <= n.
Hypothesis Hk : qr_size (Z.max m n).
Variable A : Z -> Z -> sf.
Hypothesis NA : nums2 m n A.
Lemma near_back U V T : near (10 * kap (Z.max m n)) (IZR (Z.max m n) * omg (Z.max m n)) m n (rR A) (bd_steps m n) U V (rR T) -> bd_backward m n A T U V.
Proof.
  intros (H1 & H2 & H3). split; auto. split; auto. unfold bd_abs. rewrite pz. change (IZR (Z.max m n) * b2 (-537))%R with (omg (Z.max m n)).
  eapply Rle_trans; [|exact H3]. right. apply frob_eq. intros i j Hi Hj. rewrite mul3. reflexivity.
Qed.
Lemma bd_tab : let '(M, D, Sc) := bd_fin (O := SO) m n A in let T := bd_tabB (O := SO) m n D Sc in let Uf := bd_tabU (O := SO) m n M D Sc in let Vf := bd_tabV (O := SO) m n M D Sc in
  nums2 m n T -> entry_range m n T -> exists U V, bd_backward m n A T U V /\
    (nums2 m m Uf -> q_close m (Z.min m n) Uf U /\ q_orthonormal m (Z.min m n) Uf) /\
    (nums2 n n Vf -> q_close n (Z.min m n) Vf V /\ q_orthonormal n (Z.min m n) Vf) /\
    (nums2 m m Uf -> nums2 n n Vf -> bd_product m n A Uf T Vf).
Proof.
  assert (R : forall U V T Uf Vf, bd_backward m n A T U V -> (nums2 m m Uf -> q_close m (Z.min m n) Uf U) -> (nums2 n n Vf -> q_close n (Z.min m n) Vf V) ->
    bd_backward m n A T U V /\ (nums2 m m Uf -> q_close m (Z.min m n) Uf U /\ q_orthonormal m (Z.min m n) Uf) /\
    (nums2 n n Vf -> q_close n (Z.min m n) Vf V /\ q_orthonormal n (Z.min m n) Vf) /\ (nums2 m m Uf -> nums2 n n Vf -> bd_product m n A Uf T Vf)).
  { intros U V T Uf Vf H HU HV. split; auto. split; [|split].
    - intros N. split; auto. apply (close_orthonormal m _ _ U); auto. apply H.
    - intros N. split; auto. apply (close_orthonormal n _ _ V); auto. apply H.
    - intros N1 N2. apply (bd_prod m n A T U V); auto. }
  unfold bd_fin, bd_tabB, bd_tabU, bd_tabV. destruct (Z.leb_spec n m) as [Hmn|Hmn].
  - pose proof (bd_upper pf m n A) as K. rewrite (Z.max_l m n) in * by lia. rewrite (Z.min_r m n) in * by lia.
    specialize (K ltac:(lia) Hk NA). destruct (bu_iter (O := SO) m n A n) as [[M D] Sc]. cbn zeta. intros NT RT. destruct (K NT RT) as (U & V & K1 & K2 & K3). exists U, V. apply R; auto.
    apply near_back. unfold bd_steps. rewrite (Z.max_l m n), (Z.min_r m n) by lia. exact K1.
  - pose proof (bd_upper pf n m (flip (O := SO) A)) as K. rewrite (Z.max_r m n) in * by lia. rewrite (Z.min_l m n) in * by lia.
    assert (NF : nums2 n m (flip (O := SO) A)) by (intros i j Hi Hj; apply NA; auto).
    specialize (K ltac:(lia) Hk NF). destruct (bu_iter (O := SO) n m (flip (O := SO) A) m) as [[M D] Sc]. cbn zeta. intros NT RT.
    destruct K as (V & U & K1 & K2 & K3).
    + intros i j Hi Hj. apply (NT j i); auto.
    + intros i j Hi Hj. apply (RT j i); auto.
    + exists U, V. apply R; auto. apply near_back. unfold bd_steps. rewrite (Z.max_r m n), (Z.min_l m n) by lia. apply near_trm in K1. exact K1.
Qed.
End Tab.

Lemma bd_sf_backward : forall c (x : @RealMatrix (SFOps c)) m n (A : Z -> Z -> sf) d, library x -> MatIs x m n A -> 1 <= m -> 1 <= n -> qr_size (Z.max m n) -> nums2 m n A ->
  bd_of x d ->
  exists Um Bm Vm (Uf T Vf : Z -> Z -> sf) d1 d2 d3, bd_U d = Ok (Um, d1) /\ bd_B d = Ok (Bm, d2) /\ bd_V d = Ok (Vm, d3) /\
    MatIs Um m m Uf /\ MatIs Bm m n T /\ MatIs Vm n n Vf /\
    (nums2 m n T -> entry_range m n T -> exists U V, bd_backward m n A T U V /\
       (nums2 m m Uf -> q_close m (Z.min m n) Uf U /\ q_orthonormal m (Z.min m n) Uf) /\
       (nums2 n n Vf -> q_close n (Z.min m n) Vf V /\ q_orthonormal n (Z.min m n) Vf) /\
       (nums2 m m Uf -> nums2 n n Vf -> bd_product m n A Uf T Vf)).
Proof.
  intros c x m n A d Hl Hx Hm Hn Hk NA Hd. pose proof (bd_state x m n A d Hl Hx Hm Hn Hd) as K. pose proof (bd_tab c m n Hm Hn Hk A NA) as I. destruct (bd_fin (O := SFOps c) m n A) as [[M D] Sc].
  destruct (bd_U_ok _ _ _ _ _ _ Hm Hn K) as ([a1 d1] & E1 & _ & H1 & _). destruct (bd_B_ok _ _ _ _ _ _ Hm Hn K) as ([a2 d2] & E2 & _ & H2 & _). destruct (bd_V_ok _ _ _ _ _ _ Hm Hn K) as ([a3 d3] & E3 & _ & H3 & _).
  cbn [fst snd] in *. exists a1, a2, a3. eexists. eexists. eexists. exists d1, d2, d3. split; [exact E1|]. split; [exact E2|]. split; [exact E3|]. split; [exact H1|]. split; [exact H2|]. split; [exact H3|]. exact I.
Qed.

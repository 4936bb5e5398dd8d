(** The properties of the symmetric eigen decomposition assembled. *)
From Coq Require Import ZArith QArith Qreals List Lia Bool Reals Lra Psatz Floats.SpecFloat.
From Verif Require Import Base BaseLemmas Wpe Scalar Vector VecSpec VectorFacts Matrix MatSpec MatFacts Array2D Array2DFacts MatrixOps BlockM Diagonal DiagSpec RealMatrixM TabTac FSum CholFacts QRFacts Tridiag TridiagFacts TridiagReal Schur Eigen EigenSpec EigenFacts EigenFacts2 EigenSolve RealOps RSum RealMat Tri House QRReal Frob RTol EigenSort EigenReal EigenReal2 EigenSmall Float64 FloatOrder.
Import ListNotations.
Open Scope Z_scope.

(** Close enough to symmetric for the test of the constructor. *)
Definition nearly_symmetric (n : Z) (A : Z -> Z -> R) : Prop :=
  forall i j, 0 <= i < j -> j < n -> (Rabs (A i j - A j i) <= Rmax (Rabs (A i j)) (Rabs (A j i)) * (10 * IZR n * IZR n / 9007199254740992))%R.
(** S is symmetric with the entries of A on and above the diagonal. *)
Definition mirror_of (n : Z) (A S : Z -> Z -> R) : Prop := forall i j, 0 <= i <= j -> j < n -> S i j = A i j /\ S j i = A i j.
(** The bound on the residual. *)
Definition growth (n : Z) (tol : R) : R :=
  ((1 + 3 * IZR n / 9007199254740992) * (1 + 4 * tol) ^ Z.to_nat (31 * n) * (1 + IZR n / 9007199254740992))%R.

Section Tol.
Variable tol : R.
Hypothesis Htol : (0 <= tol)%R.
Local Notation OT := (RTolOps tol).
Lemma growth_kapp n : growth n tol = kapp tol n.
Proof. unfold growth, kapp, eta, Rdiv. auto. Qed.
Lemma near_eta n A : nearly_symmetric n A -> forall i j, 0 <= i < j -> j < n -> (Rabs (A i j - A j i) <= Rmax (Rabs (A i j)) (Rabs (A j i)) * (10 * IZR n * IZR n * eta))%R.
Proof. intros H i j Hi Hj. apply H; auto. Qed.

Definition sym_result (n : Z) (S : Z -> Z -> R) (d : EdD (O := OT)) : Prop :=
  exists Vm Dm Tm V lam d1 d2 d3, ed_V d = Ok (Vm, d1) /\ ed_D d = Ok (Dm, d2) /\ ed_VT d = Ok (Tm, d3) /\
    MatIs (O := OT) Vm n n V /\ MatIs (O := OT) Dm n n (fun i j => if i =? j then lam i else 0%R) /\ MatIs (O := OT) Tm n n (trm V) /\
    VecIs (O := OT) (VArr (ed_RealEigenvalues d)) n lam /\ VecIs (O := OT) (VArr (ed_ImagEigenvalues d)) n (fun _ => 0%R) /\
    orthogonal n V /\ (forall i j, 0 <= i -> i <= j -> j < n -> (lam j <= lam i)%R) /\
    (nF n (msub S (mmul n (mmul n V (fun i j => if i =? j then lam i else 0%R)) (trm V))) <= (growth n tol - 1) * nF n S)%R.
Lemma sym_result_of n S d Re Vt : 1 <= n -> ed_ok (O := OT) n Re (fun _ => 0%R) Vt true d -> good tol n S (trm Vt) Re -> sym_result n S d.
Proof.
  intros Hn Hd (G1 & G2 & G3). destruct (ed_V_ok (O := OT) _ _ _ _ _ _ Hn Hd) as ([a1 d1] & E1 & _ & H1 & _). destruct (ed_D_ok (O := OT) _ _ _ _ _ _ Hn (okD_R tol n) Hd) as ([a2 d2] & E2 & _ & H2 & _). destruct (ed_VT_ok (O := OT) _ _ _ _ _ _ Hn Hd) as ([a3 d3] & E3 & _ & H3 & _).
  cbn [fst snd] in *. exists a1, a2, a3, (trm Vt), Re, d1, d2, d3. do 3 (split; [auto|]). split; [exact H1|]. split; [eapply (MatIs_ext (O := OT)); [exact H2|]; intros i j Hi Hj; apply tabD_R|]. split; [exact H3|].
  destruct Hd as (HR & HI & _). split; [apply (VTab_VecIs (O := OT)); exact HR|]. split; [apply (VTab_VecIs (O := OT)); exact HI|]. split; [auto|]. split; [auto|].
  rewrite growth_kapp. unfold conj, dg in G2. lra.
Qed.
Lemma calls_R n Re Vt d0 d : 1 <= n -> ed_ok (O := OT) n Re (fun _ => 0%R) Vt true d0 -> ed_calls d0 d -> ed_ok (O := OT) n Re (fun _ => 0%R) Vt true d.
Proof. intros Hn H Hc. apply (ed_calls_ok (O := OT) n Re _ Vt true d0 d Hn (okD_R tol n) H Hc). Qed.
Lemma good_ext n S S' V Re : meq n n S S' -> good tol n S V Re -> good tol n S' V Re.
Proof.
  intros H (G1 & G2 & G3). split; auto. split; auto. rewrite <- (nF_ext n S S' H). rewrite <- (nF_ext n (msub S (conj n V (dg Re))) (msub S' (conj n V (dg Re)))); auto.
  intros i j Hi Hj. unfold msub. rewrite H by auto. auto.
Qed.
Lemma mirror_meq n A S : mirror_of n A S -> meq n n (mirror A) S.
Proof. intros H i j Hi Hj. unfold mirror. destruct (Z_le_gt_dec i j); [rewrite Z.min_l, Z.max_r by lia|rewrite Z.min_r, Z.max_l by lia]; [destruct (H i j ltac:(lia) ltac:(lia))|destruct (H j i ltac:(lia) ltac:(lia))]; auto. Qed.
Lemma ed_of_good x n A S d : library (O := OT) x -> MatIs (O := OT) x n n A -> 1 <= n -> nearly_symmetric n A -> mirror_of n A S -> ed_of x d ->
  exists Re Vt, ed_ok (O := OT) n Re (fun _ => 0%R) Vt true d /\ good tol n S (trm Vt) Re.
Proof.
  intros Hl Hx Hn Hs Hm (d0 & E0 & Hc). pose proof (new_sym_R tol Htol x n A Hl Hx Hn (near_eta n A Hs)) as W. rewrite E0 in W. destruct W as (Re & Vt & H1 & H2).
  exists Re, Vt. split; [eapply calls_R; eauto|]. eapply good_ext; [apply mirror_meq; exact Hm|auto].
Qed.
Lemma sym_factor x n A S d : library (O := OT) x -> MatIs (O := OT) x n n A -> 1 <= n -> nearly_symmetric n A -> mirror_of n A S -> ed_of x d -> sym_result n S d.
Proof. intros Hl Hx Hn Hs Hm Hd. destruct (ed_of_good x n A S d Hl Hx Hn Hs Hm Hd) as (Re & Vt & H1 & H2). eapply sym_result_of; eauto. Qed.
Lemma tri_factor mn sec n Mn ns Sc d : 1 <= n -> n - 1 <= ns -> VecIs (O := OT) (VArr mn) n Mn -> VecIs (O := OT) (VArr sec) ns Sc -> ed_of_tri mn sec d ->
  sym_result n (fun i j => if i =? j then Mn i else if i =? j + 1 then Sc j else if j =? i + 1 then Sc i else 0%R) d.
Proof.
  intros Hn Hns Hm Hs (d0 & E0 & Hc). apply (VecIs_VTab (O := OT)) in Hm. apply (VecIs_VTab (O := OT)) in Hs.
  pose proof (new_tri_R tol Htol mn sec n Mn ns Sc Hn Hns Hm Hs) as W. rewrite E0 in W. destruct W as (Re & Vt & H1 & H2).
  eapply sym_result_of; [auto|eapply calls_R; eauto|exact H2].
Qed.
End Tol.

(** Sums of the products over the real numbers. *)
Lemma msum_R tol (a b : RealMatrix (O := RTolOps tol)) n g : 1 <= n -> msum (O := RTolOps tol) a b n g = Rs 0 n g.
Proof.
  intros Hn. destruct a as [?|?|?|? ? ?]; cbn [msum]; try exact (fsum_Rs n g).
  destruct b as [?|?|?|? ? ?]; try exact (bsumf_Rs n g Hn). exact (bsum4_Rs n g Hn).
Qed.

Section Tol2.
Variable tol : R.
Hypothesis Htol : (0 <= tol)%R.
Local Notation OT := (RTolOps tol).

(** Square root. *)
Lemma sqrt_ok n S d : 1 <= n -> (exists Re Vt, ed_ok (O := OT) n Re (fun _ => 0%R) Vt true d /\ good tol n S (trm Vt) Re) ->
  exists Vm Dm V D d1 d2, ed_V d = Ok (Vm, d1) /\ ed_D d = Ok (Dm, d2) /\ MatIs (O := OT) Vm n n V /\ MatIs (O := OT) Dm n n D /\
    ((exists i, 0 <= i < n /\ (D i i <= 0)%R) -> ed_SquareRoot d = Panic EUnsupported) /\
    ((forall i, 0 <= i < n -> (0 < D i i)%R) -> exists Rm B d3, ed_SquareRoot d = Ok (Rm, d3) /\ MatIs (O := OT) Rm n n B /\
       meq n n B (trm B) /\ meq n n (mmul n B B) (mmul n (mmul n V D) (trm V)) /\
       (forall x, Rs 0 n (fun i => x i * mvec n B x i) >= 0)%R).
Proof.
  intros Hn (Re & Vt & Hd & (G1 & G2 & G3)). destruct (ed_V_ok (O := OT) _ _ _ _ _ _ Hn Hd) as ([a1 d1] & E1 & _ & H1 & _). destruct (ed_D_ok (O := OT) _ _ _ _ _ _ Hn (okD_R tol n) Hd) as ([a2 d2] & E2 & _ & H2 & _).
  cbn [fst snd] in *. assert (H2' : MatIs (O := OT) a2 n n (dg Re)) by (eapply (MatIs_ext (O := OT)); [exact H2|]; intros i j Hi Hj; apply tabD_R).
  exists a1, a2, (trm Vt), (dg Re), d1, d2. do 4 (split; [auto|]). split.
  - intros (i & Hi & K). apply (ed_SquareRoot_nonpos (O := OT) n Re (fun _ => 0%R) Vt true d Hn Hd). exists i. split; auto. change (@fle OT) with Rleb. apply Rleb_true. unfold dg in K. rewrite Z.eqb_refl in K. exact K.
  - intros K. assert (K' : forall i, 0 <= i < n -> (0 < Re i)%R). { intros i Hi. specialize (K i Hi). unfold dg in K. rewrite Z.eqb_refl in K. auto. }
    destruct (ed_SquareRoot_ok (O := OT) n Re (fun _ => 0%R) Vt d Hn Hd) as ([m d3] & E3 & (a & b & a' & b' & HM & _ & _)).
    { intros i Hi. change (@fle OT) with Rleb. apply Rleb_false. change (@fzero OT) with 0%R. auto. }
    cbn [fst snd] in *. set (V := trm Vt) in *.
    assert (HB : MatIs (O := OT) m n n (conj n V (dg (fun k => sqrt (Re k))))).
    { eapply (MatIs_ext (O := OT)); [exact HM|]. intros i j Hi Hj. cbn beta. rewrite msum_R by auto. unfold conj, mmul. apply Rs_ext. intros t Ht. rewrite msum_R by auto. reflexivity. }
    exists m, (conj n V (dg (fun k => sqrt (Re k)))), d3. split; [auto|]. split; [exact HB|].
    set (Q := fun k => sqrt (Re k)). destruct G1 as [O1 O2].
    split; [|split].
    + intros i j Hi Hj. unfold trm at 1. rewrite !(conj_diag n V Q) by auto. apply Rs_ext. intros. ring.
    + intros i j Hi Hj. fold (conj n V (dg Re)). rewrite (conj_diag n V Re) by auto.
      unfold mmul. rewrite (Rs_ext 0 n _ (fun k => Rs 0 n (fun a => Rs 0 n (fun b => V i a * Q a * Q b * V j b * (V k a * V k b)))))%R.
      2:{ intros k Hk. rewrite !(conj_diag n V Q) by auto. rewrite <- Rs_scal_r. apply Rs_ext. intros a0 Ha0. rewrite <- Rs_scal_l. apply Rs_ext. intros b0 Hb0. ring. }
      rewrite Rs_swap. apply Rs_ext. intros a0 Ha0. rewrite Rs_swap. rewrite (Rs_pick 0 n a0); auto.
      * rewrite Rs_scal_l. specialize (O1 a0 a0 Ha0 Ha0). unfold mmul, trm in O1. fold V in O1. unfold idm in O1. rewrite Z.eqb_refl in O1.
        change (Rs 0 n (fun k => V k a0 * V k a0)%R = 1%R) in O1. rewrite O1. unfold Q. transitivity (V i a0 * (sqrt (Re a0) * sqrt (Re a0)) * V j a0)%R; [ring|]. rewrite sqrt_sqrt by (specialize (K' a0 Ha0); lra). ring.
      * intros b0 Hb0 Hne. rewrite Rs_scal_l. specialize (O1 a0 b0 Ha0 Hb0). unfold mmul, trm, idm in O1. destruct (Z.eqb_spec a0 b0); [congruence|].
        change (Rs 0 n (fun k => V k a0 * V k b0)%R = 0%R) in O1. rewrite O1. ring.
    + intros x. apply Rle_ge.
      rewrite (Rs_ext 0 n _ (fun i => Rs 0 n (fun j => Rs 0 n (fun k => Q k * ((V i k * x i) * (V j k * x j))))))%R.
      2:{ intros i Hi. unfold mvec. rewrite <- Rs_scal_l. apply Rs_ext. intros j Hj. rewrite (conj_diag n V Q) by auto. rewrite <- Rs_scal_r, <- Rs_scal_l. apply Rs_ext. intros. ring. }
      rewrite (Rs_ext 0 n _ (fun i => Rs 0 n (fun k => Rs 0 n (fun j => Q k * ((V i k * x i) * (V j k * x j))))))%R by (intros; apply Rs_swap).
      rewrite Rs_swap. apply Rs_nonneg. intros k Hk.
      rewrite (Rs_ext 0 n _ (fun i => Q k * Rs 0 n (fun j => V j k * x j) * (V i k * x i)))%R.
      2:{ intros i Hi. rewrite <- Rs_scal_l, <- Rs_scal_r. apply Rs_ext. intros. ring. }
      rewrite Rs_scal_l. assert (0 <= Q k)%R by apply sqrt_pos. set (s := Rs 0 n (fun j => V j k * x j)%R). assert (0 <= s * s)%R by nra. nra.
Qed.

(** Solver. *)
Definition spread (n : Z) (lam : Z -> R) : Prop := forall i j, 0 <= i < n -> 0 <= j < n -> (Rabs (lam j) * / 1000000000000 < Rabs (lam i))%R.
Lemma nrm_R (Re : Z -> R) i : nrm (O := OT) Re (fun _ => 0%R) i = Rabs (Re i).
Proof. unfold nrm. change (@fsqrt OT) with sqrt. change (@fadd OT) with Rplus. change (@fmul OT) with Rmult. rewrite Rmult_0_l, Rplus_0_r. apply sqrt_Rsqr_abs. Qed.
Lemma big_R n Re : 1 <= n -> let B := ed_big (O := OT) n Re (fun _ => 0%R) in (forall i, 0 <= i < n -> (Rabs (Re i) <= B)%R) /\ (exists i, 0 <= i < n /\ B = Rabs (Re i)).
Proof.
  intros Hn. unfold ed_big. set (f := fun i mx => _).
  assert (G : forall u, 0 <= u <= n -> let B := accum f (Z.to_nat u) (@fzero OT) in (forall i, 0 <= i < u -> (Rabs (Re i) <= B)%R) /\ ((exists i, 0 <= i < u /\ B = Rabs (Re i)) \/ u = 0 /\ B = 0%R) /\ (0 <= B)%R).
  { intros u [Hu0 Hu]. revert Hu. pattern u. apply natlike_ind; auto.
    - intros _. cbn. change (@fzero OT) with 0%R. split; [intros; lia|]. split; [right; auto|lra].
    - intros k Hk IH Hle. unfold Z.succ. rewrite accum_S by auto. specialize (IH ltac:(lia)). revert IH. cbv zeta. generalize (accum f (Z.to_nat k) (@fzero OT)). change (@F OT) with R. intros mx (I1 & I2 & I3). unfold f. rewrite nrm_R. change (@fmax OT) with Rmax.
      split; [|split].
      + intros i Hi. destruct (Z.eq_dec i k) as [->|]; [apply Rmax_r|]. eapply Rle_trans; [apply I1; lia|apply Rmax_l].
      + left. unfold Rmax. destruct (Rle_dec mx (Rabs (Re k))); [exists k; split; [lia|auto]|]. destruct I2 as [(i & Hi & E)|[E1 E2]]; [exists i; split; [lia|auto]|]. exfalso. pose proof (Rabs_pos (Re k)). lra.
      + eapply Rle_trans; [exact I3|apply Rmax_l]. }
  cbv zeta. destruct (G n ltac:(lia)) as (G1 & G2 & _). split; auto. destruct G2 as [G2|[G2 _]]; [auto|lia].
Qed.
Lemma nonsing_R n Re Vt d : 1 <= n -> ed_ok (O := OT) n Re (fun _ => 0%R) Vt true d -> exists b, eds_IsNonSingular d = Ok b /\ (b = true <-> spread n Re).
Proof.
  intros Hn Hd. destruct (eds_IsNonSingular_ok (O := OT) n Re (fun _ => 0%R) Vt true d ltac:(lia) Hd) as (b & E & Hb). exists b. split; auto. rewrite Hb. clear Hb E b Hd.
  destruct (big_R n Re Hn) as [B1 (w & Hw & B2)]. set (B := ed_big (O := OT) n Re (fun _ => 0%R)) in *. change (@F OT) with R in *.
  change (@feq OT) with (Rtolb tol). change (@fzero OT) with 0%R. rewrite Rtolb_zero.
  assert (Eq : forall i, equalsWithError (O := OT) (nrm (O := OT) Re (fun _ => 0%R) i / B)%R 0%R (eps_ed (O := OT)) = false <-> (Rabs (Re i) / B <> 0 /\ / 1000000000000 < Rabs (Rabs (Re i) / B))%R).
  { intros i. rewrite nrm_R. unfold equalsWithError. change (@fulp1 OT) with Reqb. change (@fle OT) with Rleb. change (@fabs OT) with Rabs. change (@fsub OT) with Rminus. rewrite orb_false_iff, Reqb_false, Rleb_false.
    assert (Ee : eps_ed (O := OT) = (/ 1000000000000)%R) by (unfold eps_ed; change (@flit OT) with Q2R; unfold Q2R; cbn [Qnum Qden]; lra). rewrite Ee.
    rewrite Rminus_0_l, Rabs_Ropp. tauto. }
  change (@fdiv OT) with Rdiv. split.
  - intros [E1 E2] i j Hi Hj. apply Reqb_false in E1. destruct (proj1 (Eq i) (E2 i Hi)) as [_ K]. assert (HB : (0 < B)%R) by (rewrite B2 in *; pose proof (Rabs_pos (Re w)); lra).
    rewrite Rabs_pos_eq in K by (apply Rmult_le_pos; [apply Rabs_pos|left; apply Rinv_0_lt_compat; auto]).
    specialize (B1 j Hj). apply Rle_lt_trans with (B * / 1000000000000)%R; [lra|].
    apply (Rmult_lt_compat_l B) in K; auto. replace (B * (Rabs (Re i) / B))%R with (Rabs (Re i)) in K by (field; lra). exact K.
  - intros H. assert (HB : (0 < B)%R). { rewrite B2. specialize (H w w Hw Hw). pose proof (Rabs_pos (Re w)). lra. }
    split; [apply Reqb_false; lra|]. intros i Hi. apply Eq. specialize (H i w Hi Hw). rewrite <- B2 in H.
    assert (P : (/ 1000000000000 < Rabs (Re i) / B)%R). { apply (Rmult_lt_reg_l B); auto. replace (B * (Rabs (Re i) / B))%R with (Rabs (Re i)) by (field; lra). lra. }
    split; [lra|]. eapply Rlt_le_trans; [exact P|apply Rle_abs].
Qed.
Lemma fadds_T x lo hi (g : Z -> R) : lo <= hi -> fadds (O := OT) x lo hi g = (x + Rs lo hi g)%R.
Proof. exact (fadds_R x lo hi g). Qed.
Lemma fsum_T n (g : Z -> R) : fsum (O := OT) n g = Rs 0 n g.
Proof. exact (fsum_Rs n g). Qed.

(** (V D V^T) applied to sum_i (v_i . b / lambda_i) v_i is b. *)
Lemma eig_solve n V Re (B : Z -> R) : orthogonal n V -> (forall i, 0 <= i < n -> Re i <> 0%R) ->
  forall r, 0 <= r < n -> Rs 0 n (fun j => conj n V (dg Re) r j * Rs 0 n (fun i => Rs 0 n (fun k => V k i * B k) / Re i * V j i))%R = B r.
Proof.
  intros [O1 O2] Hr r Hrn. set (y := fun i => Rs 0 n (fun k => V k i * B k)%R).
  rewrite (Rs_ext 0 n _ (fun j => Rs 0 n (fun a => Rs 0 n (fun i => V r a * Re a * (y i / Re i) * (V j a * V j i)))))%R.
  2:{ intros j Hj. rewrite (conj_diag n V Re) by auto. rewrite <- Rs_scal_r. apply Rs_ext. intros a Ha. rewrite <- Rs_scal_l. apply Rs_ext. intros i Hi. unfold y. ring. }
  rewrite Rs_swap. rewrite (Rs_ext 0 n _ (fun a => V r a * y a)%R).
  - unfold y. rewrite (Rs_ext 0 n _ (fun a => Rs 0 n (fun k => V r a * V k a * B k)))%R by (intros; rewrite <- Rs_scal_l; apply Rs_ext; intros; ring).
    rewrite Rs_swap. rewrite (Rs_pick 0 n r); auto.
    + rewrite Rs_scal_r. specialize (O2 r r Hrn Hrn). unfold mmul, trm, idm in O2. rewrite Z.eqb_refl in O2. rewrite O2. ring.
    + intros k Hk Hne. rewrite Rs_scal_r. specialize (O2 r k Hrn Hk). unfold mmul, trm, idm in O2. destruct (Z.eqb_spec r k); [congruence|]. rewrite O2. ring.
  - intros a Ha. rewrite Rs_swap. rewrite (Rs_pick 0 n a); auto.
    + rewrite Rs_scal_l. specialize (O1 a a Ha Ha). unfold mmul, trm, idm in O1. rewrite Z.eqb_refl in O1. rewrite O1. field. auto.
    + intros i Hi Hne. rewrite Rs_scal_l. specialize (O1 a i Ha Hi). unfold mmul, trm, idm in O1. destruct (Z.eqb_spec a i); [congruence|]. rewrite O1. ring.
Qed.
Lemma solver_ok n S d : 1 <= n -> (exists Re Vt, ed_ok (O := OT) n Re (fun _ => 0%R) Vt true d /\ good tol n S (trm Vt) Re) ->
  exists Vm Dm V D d1 d2, ed_V d = Ok (Vm, d1) /\ ed_D d = Ok (Dm, d2) /\ MatIs (O := OT) Vm n n V /\ MatIs (O := OT) Dm n n D /\
    let M := mmul n (mmul n V D) (trm V) in
    exists b, eds_IsNonSingular d = Ok b /\ (b = true <-> spread n (fun i => D i i)) /\
    (forall v B, VecIs (O := OT) v n B -> if b then exists r X, eds_SolveVector d v = Ok r /\ VecIs (O := OT) r n X /\ forall i, 0 <= i < n -> mvec n M X i = B i else eds_SolveVector d v = Panic ESingular) /\
    (forall m c B, 1 <= c -> MatIs (O := OT) m n c B -> if b then exists r X, eds_SolveMatrix d m = Ok r /\ MatIs (O := OT) r n c X /\ meq n c (mmul n M X) B else eds_SolveMatrix d m = Panic ESingular) /\
    (if b then exists r X, eds_Inverse d = Ok r /\ MatIs (O := OT) r n n X /\ meq n n (mmul n M X) idm else eds_Inverse d = Panic ESingular).
Proof.
  intros Hn (Re & Vt & Hd & (G1 & G2 & G3)). destruct (ed_V_ok (O := OT) _ _ _ _ _ _ Hn Hd) as ([a1 d1] & E1 & _ & H1 & _). destruct (ed_D_ok (O := OT) _ _ _ _ _ _ Hn (okD_R tol n) Hd) as ([a2 d2] & E2 & _ & H2 & _).
  cbn [fst snd] in *. assert (H2' : MatIs (O := OT) a2 n n (dg Re)) by (eapply (MatIs_ext (O := OT)); [exact H2|]; intros i j Hi Hj; apply tabD_R).
  set (V := trm Vt) in *. exists a1, a2, V, (dg Re), d1, d2. do 4 (split; [auto|]). cbv zeta. fold (conj n V (dg Re)).
  destruct (nonsing_R n Re Vt d Hn Hd) as (b & Eb & Hb). exists b. split; [auto|].
  split. { rewrite Hb. unfold spread, dg. split; intros K i j Hi Hj; specialize (K i j Hi Hj); rewrite ?Z.eqb_refl in *; auto. }
  assert (Hnz : b = true -> forall i, 0 <= i < n -> Re i <> 0%R). { intros Et i Hi E0. pose proof (proj1 Hb Et i i Hi Hi) as K. rewrite E0, Rabs_R0 in K. lra. }
  split; [|split].
  - intros v B Hv. destruct b; [|eapply (eds_SolveVector_sing (O := OT)); eauto].
    destruct (eds_SolveVector_ok (O := OT) n Re (fun _ => 0%R) Vt true d v B ltac:(lia) Hd Hv Eb) as (r & Er & Hr). exists r. eexists. split; [exact Er|]. split; [exact Hr|].
    intros i Hi. rewrite <- (eig_solve n V Re B G1 (Hnz eq_refl) i Hi). unfold mvec. apply Rs_ext. intros j Hj. f_equal. rewrite fadds_T by lia. change (@fzero OT) with 0%R. rewrite Rplus_0_l.
    apply Rs_ext. intros q Hq. rewrite fsum_T. reflexivity.
  - intros m c B Hc Hm. destruct b; [|eapply (eds_SolveMatrix_sing (O := OT)); eauto].
    destruct (eds_SolveMatrix_ok (O := OT) n Re (fun _ => 0%R) Vt true d m c B ltac:(lia) Hc Hd Hm Eb) as (r & Er & _ & Hr). exists r. eexists. split; [exact Er|]. split; [exact Hr|].
    intros i k Hi Hk. rewrite <- (eig_solve n V Re (fun q => B q k) G1 (Hnz eq_refl) i Hi). unfold mmul at 1. apply Rs_ext. intros j Hj. f_equal. rewrite fadds_T by lia. change (@fzero OT) with 0%R. rewrite Rplus_0_l.
    apply Rs_ext. intros q Hq. rewrite fadds_T by lia. rewrite Rplus_0_l. reflexivity.
  - destruct b; [|apply (eds_Inverse_sing (O := OT)); auto].
    destruct (eds_Inverse_ok (O := OT) n Re (fun _ => 0%R) Vt true d Hn Hd Eb) as (r & Er & _ & Hr). exists r. eexists. split; [exact Er|]. split; [exact Hr|].
    intros i k Hi Hk. rewrite <- (eig_solve n V Re (fun q => idm q k) G1 (Hnz eq_refl) i Hi). unfold mmul at 1. apply Rs_ext. intros j Hj. f_equal. rewrite fadds_T by lia. change (@fzero OT) with 0%R. rewrite Rplus_0_l.
    apply Rs_ext. intros q Hq. rewrite (Rs_pick 0 n k); auto.
    + rewrite idm_same. unfold V, trm. change (@fdiv OT) with Rdiv. change (@fmul OT) with Rmult. unfold Rdiv. ring.
    + intros w Hw Hne. unfold idm. destruct (Z.eqb_spec w k); [congruence|]. ring.
Qed.
Lemma solver_dim n S d : (exists Re Vt, ed_ok (O := OT) n Re (fun _ => 0%R) Vt true d /\ good tol n S (trm Vt) Re) ->
  (forall v k B, VecIs (O := OT) v k B -> k <> n -> eds_SolveVector d v = Panic EDimMismatch) /\
  (forall m k c B, MatIs (O := OT) m k c B -> k <> n -> eds_SolveMatrix d m = Panic EDimMismatch).
Proof.
  intros (Re & Vt & Hd & _). split; intros.
  - eapply (eds_SolveVector_dim (O := OT)); eauto.
  - eapply (eds_SolveMatrix_dim (O := OT)); eauto.
Qed.
End Tol2.

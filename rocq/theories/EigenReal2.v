(** Symmetric eigen decomposition over the real numbers: sorting, null values
    and the whole residual. *)
From Coq Require Import ZArith QArith Qreals List Lia Bool Reals Lra Psatz.
From Verif Require Import Base BaseLemmas Wpe Scalar Vector VecSpec VectorFacts Matrix MatSpec MatFacts Array2D Array2DFacts MatrixOps RealMatrixM TabTac FSum CholFacts QRFacts Tridiag TridiagFacts TridiagReal Schur Eigen EigenSpec EigenFacts EigenFacts2 RealOps RSum Tri House Frob RTol EigenSort EigenReal.
Import ListNotations.
Open Scope Z_scope.

(** 2^-53 *)
Definition eta : R := (/ 9007199254740992)%R.
Lemma eta_pos : (0 < eta)%R.
Proof. unfold eta. lra. Qed.
Definition dg (D : Z -> R) (a b : Z) : R := if a =? b then D a else 0%R.

Section Fin.
Variable tol : R.
Hypothesis Htol : (0 <= tol)%R.
Local Notation OT := (RTolOps tol).
Lemma doubleeps_R : @doubleeps OT = eta.
Proof. unfold doubleeps. change (@flit OT) with Q2R. unfold Q2R, eta. cbn [Qnum Qden]. lra. Qed.
Lemma fne0_R (x : R) : @fne OT x fzero = negb (Reqb x 0).
Proof. unfold fne. change (@feq OT) with (Rtolb tol). change (@fzero OT) with 0%R. rewrite Rtolb_zero. auto. Qed.
Lemma vmax_R (mx x : R) : vmax (O := OT) mx x = Rmax mx (Rabs x).
Proof.
  unfold vmax, fgt. change (@flt OT) with Rltb. change (@fabs OT) with Rabs. destruct (Rltb mx (Rabs x)) eqn:E; unfold Rmax; destruct (Rle_dec mx (Rabs x)); auto.
  - apply Rltb_true in E. lra.
  - apply Rltb_false in E. lra.
Qed.
Lemma maxabs_le n D E B : (0 <= B)%R -> (forall i, 0 <= i < n -> (Rabs (D i) <= B)%R) -> (forall i, 0 <= i < n -> (Rabs (E i) <= B)%R) -> (0 <= maxabs (O := OT) n D E <= B)%R.
Proof.
  intros HB H1 H2. unfold maxabs. set (f := fun i mx => _).
  destruct (Z_le_gt_dec 0 n) as [Hn|Hn]; [|replace (Z.to_nat n) with 0%nat by lia; cbn; change (@fzero OT) with 0%R; lra].
  assert (G : forall u, 0 <= u <= n -> (0 <= accum f (Z.to_nat u) (@fzero OT) <= B)%R).
  { intros u [Hu0 Hu]. revert Hu. pattern u. apply natlike_ind; auto.
    - intros _. cbn. change (@fzero OT) with 0%R. lra.
    - intros k Hk IH Hle. unfold Z.succ. rewrite accum_S by auto. specialize (IH ltac:(lia)). revert IH. generalize (accum f (Z.to_nat k) (@fzero OT)). change (@F OT) with R. intros mx IH. unfold f. rewrite !vmax_R.
      specialize (H1 k ltac:(lia)). specialize (H2 k ltac:(lia)). pose proof (Rabs_pos (D k)). split.
      + eapply Rle_trans; [|apply Rmax_l]. eapply Rle_trans; [|apply Rmax_l]. lra.
      + apply Rmax_lub; auto. apply Rmax_lub; auto. lra. }
  apply G. lia.
Qed.
Lemma maxabs1_le n D B : (0 <= B)%R -> (forall i, 0 <= i < n -> (Rabs (D i) <= B)%R) -> (0 <= maxabs1 (O := OT) n D <= B)%R.
Proof.
  intros HB H1. unfold maxabs1. set (f := fun i mx => _).
  destruct (Z_le_gt_dec 0 n) as [Hn|Hn]; [|replace (Z.to_nat n) with 0%nat by lia; cbn; change (@fzero OT) with 0%R; lra].
  assert (G : forall u, 0 <= u <= n -> (0 <= accum f (Z.to_nat u) (@fzero OT) <= B)%R).
  { intros u [Hu0 Hu]. revert Hu. pattern u. apply natlike_ind; auto.
    - intros _. cbn. change (@fzero OT) with 0%R. lra.
    - intros k Hk IH Hle. unfold Z.succ. rewrite accum_S by auto. specialize (IH ltac:(lia)). revert IH. generalize (accum f (Z.to_nat k) (@fzero OT)). change (@F OT) with R. intros mx IH. unfold f. rewrite !vmax_R.
      specialize (H1 k ltac:(lia)). split.
      + eapply Rle_trans; [|apply Rmax_l]. lra.
      + apply Rmax_lub; auto. lra. }
  apply G. lia.
Qed.
Lemma ed_nul_R (mx x : R) : (0 <= mx)%R -> (Rabs (x - ed_nul (O := OT) mx x) <= eta * mx)%R.
Proof.
  intros H. pose proof eta_pos. assert (0 <= eta * mx)%R by nra. unfold ed_nul, nullv. rewrite doubleeps_R. change (@fle OT) with Rleb. change (@fabs OT) with Rabs. change (@fmul OT) with Rmult. change (@fzero OT) with 0%R at 2. change (@F OT) with R in *.
  destruct (fne _ _); [|rewrite Rminus_diag_eq, Rabs_R0; auto].
  destruct (Rleb (Rabs x) (eta * mx)) eqn:E; [apply Rleb_true in E; rewrite Rminus_0_r; auto|rewrite Rminus_diag_eq, Rabs_R0; auto].
Qed.
Definition fin2 (mx x : R) : R := if Reqb mx 0 then x else if Rltb (Rabs x) (eta * mx) then 0%R else x.
Lemma ed_fin_R n D2 i : ed_fin (O := OT) n D2 i = fin2 (maxabs1 (O := OT) n (fun j => D2 (ed_perm (O := OT) n D2 n j))) (D2 (ed_perm (O := OT) n D2 n i)).
Proof.
  unfold ed_fin, fin2. cbv zeta. rewrite fne0_R, doubleeps_R. change (@flt OT) with Rltb. change (@fabs OT) with Rabs. change (@fmul OT) with Rmult. change (@fzero OT) with 0%R. destruct (Reqb _ 0); auto.
Qed.
Lemma fin2_near mx x : (0 <= mx)%R -> (Rabs (x - fin2 mx x) <= eta * mx)%R.
Proof.
  intros H. pose proof eta_pos. assert (0 <= eta * mx)%R by nra. unfold fin2. destruct (Reqb mx 0); [rewrite Rminus_diag_eq, Rabs_R0; auto|].
  destruct (Rltb (Rabs x) (eta * mx)) eqn:E; [apply Rltb_true in E; rewrite Rminus_0_r; lra|rewrite Rminus_diag_eq, Rabs_R0; auto].
Qed.
Lemma fin2_mono mx x y : (y <= x)%R -> (fin2 mx y <= fin2 mx x)%R.
Proof.
  intros H. unfold fin2. destruct (Reqb mx 0); auto.
  destruct (Rltb (Rabs y) (eta * mx)) eqn:E1; destruct (Rltb (Rabs x) (eta * mx)) eqn:E2; try lra.
  - apply Rltb_true in E1. apply Rltb_false in E2. apply Rabs_def2 in E1. unfold Rabs in E2. destruct (Rcase_abs x); lra.
  - apply Rltb_false in E1. apply Rltb_true in E2. apply Rabs_def2 in E2. unfold Rabs in E1. destruct (Rcase_abs y); lra.
Qed.

Definition kapp (n : Z) : R := ((1 + 3 * IZR n * eta) * (1 + 4 * tol) ^ Z.to_nat (31 * n) * (1 + IZR n * eta))%R.
(** Eigenvalues Re and eigenvectors (the columns of V) of S. *)
Definition good (n : Z) (S V : Z -> Z -> R) (Re : Z -> R) : Prop :=
  orthogonal n V /\ (nF n (msub S (conj n V (dg Re))) + nF n S <= nF n S * kapp n)%R /\ (forall i j, 0 <= i -> i <= j -> j < n -> (Re j <= Re i)%R).

Lemma findEV_R n mn sec z Mn Sc Zf A0 : 1 <= n -> VTab (O := OT) mn n Mn -> (forall i, 0 <= i < n - 1 -> zget sec i = Ok (Sc i)) -> RTab (O := OT) z n n Zf ->
  orthogonal n Zf -> meq n n A0 (conj n Zf (trid Mn Sc)) ->
  wpe (ed_findEigenVectors (O := OT) mn sec z) (fun r => exists Re Vt, ed_ok (O := OT) n Re (fun _ => 0%R) Vt true r /\ good n A0 (trm Vt) Re) (fun x => x = EMaxIter).
Proof.
  intros Hn Hm Hs Hz HQ HA. pose proof eta_pos as He0. assert (Hn0 : (0 <= IZR n)%R) by (apply IZR_le; lia).
  eapply wpe_conseq; [apply (ed_findEV_ok (O := OT) (fun x => x = EMaxIter) (fun D2 Z2 => nearT n A0 ((1 + 3 * IZR n * eta) * (1 + 4 * tol) ^ Z.to_nat (31 * n)) Z2 (dg D2)) n mn sec z Mn Sc Zf); auto| |auto].
  - cbv zeta. set (E0 := ed_E0 (O := OT) n Sc). set (mx := maxabs (O := OT) n Mn E0). intros d e Hd He.
    set (T0 := trid Mn Sc).
    assert (HE0 : forall i, 0 <= i < n - 1 -> E0 i = Sc i) by (intros i Hi; unfold E0, ed_E0; zbq; auto).
    assert (Hmx : (0 <= mx <= nF n T0)%R).
    { apply maxabs_le; [apply nF_nonneg| |].
      - intros i Hi. eapply Rle_trans; [|apply (nF_entry n T0 i i Hi Hi)]. unfold T0, trid. rewrite Z.eqb_refl. lra.
      - intros i Hi. destruct (Z.eq_dec i (n - 1)) as [Ei|Ei].
        + unfold E0, ed_E0. zbq. change (@fzero OT) with 0%R. rewrite Rabs_R0. apply nF_nonneg.
        + rewrite HE0 by lia. eapply Rle_trans; [|apply (nF_entry n T0 (i + 1) i); lia]. unfold T0, trid. zbq. lra. }
    eapply wpe_conseq; [apply (ed_ql_R tol Htol n A0 (1 + 3 * IZR n * eta) d e z _ _ Zf ltac:(nra) Hd He Hz ltac:(lia))| |auto].
    + replace (1 + 3 * IZR n * eta)%R with (1 * (1 + 3 * IZR n * eta))%R by ring. apply (nearT_perturb n A0 1 Zf T0); [lra| | |nra].
      * split; auto. rewrite (nF_ext n _ (fun _ _ => 0%R)); [rewrite nF_zero; lra|]. intros a b Ha Hb. unfold msub. rewrite HA by auto. unfold T0. ring.
      * eapply Rle_trans; [apply nF_trid_sub|]. change (@F OT) with R in *.
        assert (B1 : (Rs 0 n (fun i => Rabs (Mn i - ed_nul (O := OT) mx (Mn i))) <= Rs 0 n (fun _ => eta * mx))%R) by (apply Rs_le; intros; apply ed_nul_R; lra).
        assert (B2 : (Rs 0 (n - 1) (fun i => Rabs (Sc i - ed_nul (O := OT) mx (E0 i))) <= Rs 0 (n - 1) (fun _ => eta * mx))%R) by (apply Rs_le; intros k Hk; rewrite HE0 by lia; apply ed_nul_R; lra).
        assert (CC : forall q r, 0 <= r -> Rs 0 r (fun _ => q) = (IZR r * q)%R).
        { intros q r Hr. pattern r. apply natlike_ind; auto; [rewrite Rs_nil by lia; lra|]. intros x Hx IH. unfold Z.succ. rewrite Rs_last by lia. replace (x + 1 - 1) with x by lia. rewrite IH, plus_IZR. ring. }
        rewrite CC in B1, B2 by lia. rewrite minus_IZR in B2.
        assert (eta * mx <= eta * nF n T0)%R by (apply Rmult_le_compat_l; lra). assert (0 <= eta * mx)%R by nra. nra.
    + intros [[d1 e1] z1] (D2 & E2 & Z2 & H1 & H2 & H3 & H4). exists D2, E2, Z2. auto.
  - intros r (D2 & Z2 & N & Hok). exists (ed_fin (O := OT) n D2), (fun k j => Z2 j (ed_perm (O := OT) n D2 n k)). split; auto.
    change (@F OT) with R in *. set (sg := ed_perm (O := OT) n D2 n). destruct (ed_perm_permutes (O := OT) n D2 n ltac:(lia)) as [P1 P2]. fold sg in P1, P2.
    set (K := ((1 + 3 * IZR n * eta) * (1 + 4 * tol) ^ Z.to_nat (31 * n))%R) in *.
    assert (HK : (0 <= K)%R) by (unfold K; apply Rmult_le_pos; [nra|apply pow_le; lra]).
    set (D3 := fun j => D2 (sg j)). set (mx := maxabs1 (O := OT) n D3).
    assert (Ef : forall i, ed_fin (O := OT) n D2 i = fin2 mx (D3 i)) by (intros i; apply ed_fin_R).
    assert (N3 : nearT n A0 K (fun i j => Z2 i (sg j)) (dg D3)).
    { eapply nearT_ext; [exact N|apply perm_orth; auto; apply N|]. apply (perm_conj n sg Z2 D2); auto. }
    assert (Hmx : (0 <= mx <= nF n (dg D3))%R).
    { apply maxabs1_le; [apply nF_nonneg|]. intros i Hi. eapply Rle_trans; [|apply (nF_entry n (dg D3) i i Hi Hi)]. unfold dg. rewrite Z.eqb_refl. lra. }
    assert (N4 : nearT n A0 (K * (1 + IZR n * eta)) (fun i j => Z2 i (sg j)) (dg (fun i => fin2 mx (D3 i)))).
    { apply (nearT_perturb n A0 K _ (dg D3)); auto; [|nra].
      rewrite (nF_ext n _ (msub (trid D3 (fun _ => 0%R)) (trid (fun i => fin2 mx (D3 i)) (fun _ => 0%R)))).
      2:{ intros a b Ha Hb. unfold msub. rewrite !(trid_diag n) by auto. auto. }
      eapply Rle_trans; [apply nF_trid_sub|]. rewrite (Rs_zero 0 (n - 1)) by (intros; rewrite Rminus_diag_eq, Rabs_R0; auto).
      assert (B1 : (Rs 0 n (fun i => Rabs (D3 i - fin2 mx (D3 i))) <= Rs 0 n (fun _ => eta * mx))%R) by (apply Rs_le; intros; apply fin2_near; lra).
      assert (CC : forall q r, 0 <= r -> Rs 0 r (fun _ => q) = (IZR r * q)%R).
      { intros q r' Hr. pattern r'. apply natlike_ind; auto; [rewrite Rs_nil by lia; lra|]. intros x Hx IH. unfold Z.succ. rewrite Rs_last by lia. replace (x + 1 - 1) with x by lia. rewrite IH, plus_IZR. ring. }
      rewrite CC in B1 by lia. assert (eta * mx <= eta * nF n (dg D3))%R by (apply Rmult_le_compat_l; lra). assert (IZR n * (eta * mx) <= IZR n * (eta * nF n (dg D3)))%R by (apply Rmult_le_compat_l; auto). lra. }
    split; [|split].
    + apply N4.
    + eapply Rle_trans; [|apply N4]. right. f_equal. apply nF_ext. intros a b Ha Hb. unfold msub. f_equal. apply conj_ext; auto.
      * intros x y Hx Hy. reflexivity.
      * intros x y Hx Hy. unfold dg. rewrite Ef. auto.
    + intros i j Hi Hij Hj. rewrite !Ef. apply fin2_mono. unfold D3, sg.
      pose proof (ed_perm_sorted (O := OT) (fun _ => True)) as So. change (@flt OT) with Rltb in So.
      assert (So' : Rltb (D2 (ed_perm (O := OT) n D2 n i)) (D2 (ed_perm (O := OT) n D2 n j)) = false).
      { apply So; auto; try lia.
        - intros x y _ _ H. apply Rltb_true in H. apply Rltb_false. lra.
        - intros x _. apply Rltb_false. lra.
        - intros x y w _ _ _ Ha Hb. apply Rltb_false in Ha. apply Rltb_false in Hb. apply Rltb_false. lra. }
      apply Rltb_false in So'. lra.
Qed.

(** The tolerance of the symmetry test and the constructor. *)
Lemma symtol_R n : symtol (O := OT) n = (10 * IZR n * IZR n * eta)%R.
Proof. unfold symtol. rewrite doubleeps_R. change (@flit OT) with Q2R. change (@fmul OT) with Rmult. unfold Q2R. cbn [Qnum Qden inject_Z]. f_equal. rewrite !Rinv_1. ring. Qed.
Lemma asymm_R t (A : Z -> Z -> R) i j : asymm (O := OT) t A i j = false <-> (Rabs (A i j - A j i) <= Rmax (Rabs (A i j)) (Rabs (A j i)) * t)%R.
Proof. unfold asymm, fgt. change (@flt OT) with Rltb. change (@fabs OT) with Rabs. change (@fmul OT) with Rmult. change (@fmax OT) with Rmax. change (@fsub OT) with Rminus. rewrite Rltb_false. lra. Qed.

Lemma new_sym_R x n A : library (O := OT) x -> MatIs (O := OT) x n n A -> 1 <= n ->
  (forall i j, 0 <= i < j -> j < n -> (Rabs (A i j - A j i) <= Rmax (Rabs (A i j)) (Rabs (A j i)) * (10 * IZR n * IZR n * eta))%R) ->
  wpe (NewEigenDecomposition (O := OT) x) (fun r => exists Re Vt, ed_ok (O := OT) n Re (fun _ => 0%R) Vt true r /\ good n (mirror A) (trm Vt) Re) (fun e => e = EMaxIter).
Proof.
  intros Hl Hx Hn Hsym. destruct (isSymmetric_ok (O := OT) x n A (symtol (O := OT) n) Hl Hx ltac:(lia)) as (b & Eb & Hb).
  assert (b = true). { apply Hb. intros i j Hi Hj. apply asymm_R. rewrite symtol_R. apply Hsym; auto. }
  subst b. destruct (ed_new_sym (O := OT) x n A Hl Hx Hn Eb) as (mn & sec & z & -> & K).
  pose proof (tdfin_tol tol n A) as Et. pose proof (tinv_fin n A Hn) as Inv. change (@F OT) with R in *. change (@F ROps) with R in *.
  rewrite Et in K. destruct (td_fin (O := ROps) n A) as [[M D] Sc]. destruct K as (Hm & Hs & Hz). destruct Inv as [Inv1 Inv2].
  pose proof (td_QT_orth n A M D Sc Hn Inv1) as Qo. pose proof (td_A n A M D Sc Hn Inv1 Inv2) as QA.
  assert (Qm : meq n n (fun i j => td_tabQT (O := OT) n M Sc j i) (trm (td_tabQT (O := ROps) n M Sc))) by (intros i j _ _; apply tqt_tol).
  apply (findEV_R n mn sec z D Sc (fun i j => td_tabQT (O := OT) n M Sc j i) (mirror A) Hn Hm); auto.
  - intros i Hi. apply (VTab_zgets (O := OT) sec (n - 1)); auto.
  - apply (orth_ext n (trm (td_tabQT (O := ROps) n M Sc))); [apply orth_tr; auto|apply meq_sym; auto].
  - apply meq_sym. eapply meq_trans; [apply (conj_ext n _ _ _ (td_tabT (O := ROps) D Sc) Qm)|].
    + intros i j Hi Hj. unfold trid, td_tabT. auto.
    + exact QA.
Qed.
Lemma new_tri_R mn sec n Mn ns Sc : 1 <= n -> n - 1 <= ns -> VTab (O := OT) mn n Mn -> VTab (O := OT) sec ns Sc ->
  wpe (NewEigenDecompositionFromTridiagonal (O := OT) mn sec) (fun r => exists Re Vt, ed_ok (O := OT) n Re (fun _ => 0%R) Vt true r /\ good n (trid Mn Sc) (trm Vt) Re) (fun e => e = EMaxIter).
Proof.
  intros Hn Hns Hm Hs. destruct (ed_new_tri (O := OT) mn sec n Mn Hn Hm) as (z & -> & Hz).
  apply (findEV_R n mn sec z Mn Sc (fun i j => if i =? j then 1%R else 0%R) (trid Mn Sc) Hn Hm); auto.
  - intros i Hi. apply (VTab_get (O := OT) sec ns); auto. lia.
  - apply orth_id.
  - intros i j Hi Hj. unfold conj. change (fun i j => if i =? j then 1%R else 0%R) with idm. rewrite (mmul_ext n (mmul n idm (trid Mn Sc)) (trid Mn Sc) (trm idm) idm); [rewrite mmul_1_r; auto| |].
    + intros r Hr. apply mmul_1_l; auto.
    + intros r Hr. unfold trm, idm. rewrite Z.eqb_sym. auto.
Qed.

Lemma okD_R n : ed_okD (O := OT) n (fun _ => 0%R).
Proof.
  intros i Hi. assert (E : compareTo (O := OT) 0%R fzero eps_ed = 0); [|rewrite E; lia]. unfold compareTo, Diagonal.equalsWithError.
  replace (_ || _)%bool with true; auto. symmetry. apply orb_true_iff. right. change (@fle OT) with Rleb. change (@fabs OT) with Rabs. change (@fsub OT) with Rminus. change (@fzero OT) with 0%R. apply Rleb_true. rewrite Rminus_0_r, Rabs_R0.
  unfold eps_ed. change (@flit OT) with Q2R. unfold Q2R. cbn [Qnum Qden]. lra.
Qed.
Lemma tabD_R (Re : Z -> R) i j : ed_tabD (O := OT) Re (fun _ => 0%R) i j = dg Re i j.
Proof.
  assert (E : compareTo (O := OT) 0%R fzero eps_ed = 0). { destruct (okD_R 1 0 ltac:(lia)) as [H1 H2]. lia. }
  unfold ed_tabD, dg. rewrite E. cbn. auto.
Qed.
End Fin.

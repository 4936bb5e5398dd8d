(** The LU properties assembled. *)
From Coq Require Import ZArith QArith List Lia Bool Reals Qreals Lra.
From Verif Require Import Base BaseLemmas Scalar Vector VecSpec VectorFacts Matrix MatSpec MatFacts Array2D BlockM Diagonal RealMatrixM Array2DFacts MatrixOps TabTac LU LUSpec LUFacts LUFacts2 RealOps RSum Det Tri LUReal.
Import ListNotations.
Open Scope Z_scope.

Section AnyOps.
Context {O : Ops}.
Lemma done_ok n A thr d M : lu_done n A thr d M -> lu_singular d = false ->
  lu_cachedL d = None /\ lu_cachedU d = None /\ lu_cachedP d = None -> lu_ok n M (lu_pivot d) (lu_even d) d.
Proof.
  intros (H1 & H2 & H3 & H4 & _) Hs (C1 & C2 & C3). unfold lu_ok. rewrite C1, C2, C3. luok; try exact I. eapply swaps_permutes; eauto.
Qed.
Lemma calls_ok n M p e d d' : 1 <= n -> lu_ok n M p e d -> lu_calls d d' -> lu_ok n M p e d'.
Proof.
  intros Hn Hd Hc. induction Hc as [d|d d1 d2 m E _ IH|d d1 d2 m E _ IH|d d1 d2 m E _ IH]; auto; apply IH.
  - destruct (lu_L_ok n M p e d Hn Hd) as ([m' d1'] & E' & _ & K). rewrite E in E'. injection E' as <- <-. exact K.
  - destruct (lu_U_ok n M p e d Hn Hd) as ([m' d1'] & E' & _ & K). rewrite E in E'. injection E' as <- <-. exact K.
  - destruct (lu_P_ok n M p e d Hn Hd) as ([m' d1'] & E' & _ & K). rewrite E in E'. injection E' as <- <-. exact K.
Qed.
(** A singular decomposition: nothing is cached. *)
Lemma calls_singular d d' : lu_singular d = true -> lu_calls d d' -> d' = d.
Proof.
  intros Hs Hc. induction Hc as [d|d d1 d2 m E _ IH|d d1 d2 m E _ IH|d d1 d2 m E _ IH]; auto.
  - unfold lu_L in E. rewrite Hs in E. destruct (lu_cachedL d); injection E as _ <-; auto.
  - unfold lu_U in E. rewrite Hs in E. destruct (lu_cachedU d); injection E as _ <-; auto.
  - unfold lu_P in E. rewrite Hs in E. destruct (lu_cachedP d); injection E as _ <-; auto.
Qed.
Lemma calls_core d d' : lu_calls d d' -> lu_singular d' = lu_singular d /\ lu_pivot d' = lu_pivot d.
Proof.
  intros Hc. induction Hc as [d|d d1 d2 m E _ IH|d d1 d2 m E _ IH|d d1 d2 m E _ IH]; auto; destruct IH as [I1 I2]; rewrite I1, I2; clear - E.
  - unfold lu_L in E. destruct (lu_cachedL d), (lu_singular d) eqn:Es; try (injection E as _ <-; auto; fail).
    destruct (orpanic _); try discriminate. cbn [bind] in E. destruct (for_ _ _ _ _); try discriminate. injection E as _ <-. auto.
  - unfold lu_U in E. destruct (lu_cachedU d), (lu_singular d) eqn:Es; try (injection E as _ <-; auto; fail).
    destruct (orpanic _); try discriminate. cbn [bind] in E. destruct (for_ _ _ _ _); try discriminate. injection E as _ <-. auto.
  - unfold lu_P in E. destruct (lu_cachedP d), (lu_singular d) eqn:Es; try (injection E as _ <-; auto; fail).
    destruct (orpanic _); try discriminate. cbn [bind] in E. destruct (for_ _ _ _ _); try discriminate. injection E as _ <-. auto.
Qed.

(** Any arithmetic. *)
Lemma lu_any m n A thr : library m -> MatIs m n n A -> 1 <= n ->
  exists d, NewLUDecompositionWithThreshold m thr = Ok d /\ forall d', lu_calls d d' ->
    lu_Pivot d' = lu_Pivot d /\ len (lu_Pivot d') = n /\ permutes n (nthZ (lu_Pivot d')) /\
    lus_IsNonSingular d' = lus_IsNonSingular d /\
    (lus_IsNonSingular d = false -> lu_L d' = Ok (None, d') /\ lu_U d' = Ok (None, d') /\ lu_P d' = Ok (None, d') /\ lu_Determinant d' = Ok fzero) /\
    (lus_IsNonSingular d = true -> exists Lm Um Pm L U P d1 d2 d3 x, let p := nthZ (lu_Pivot d) in
       lu_L d' = Ok (Some Lm, d1) /\ lu_U d' = Ok (Some Um, d2) /\ lu_P d' = Ok (Some Pm, d3) /\ lu_Determinant d' = Ok x /\
       MatIs Lm n n L /\ MatIs Um n n U /\ MatIs Pm n n P /\
       (forall i j, 0 <= i < n -> 0 <= j < n -> P i j = if j =? p i then fone else fzero) /\
       (forall i j, 0 <= i < n -> 0 <= j < n -> i <= j -> U i j = fsubs (A (p i) j) i (fun t => L i t * U t j)%f) /\
       (forall i j, 0 <= i < n -> 0 <= j < n -> j < i -> U i j = fzero) /\
       (forall i j, 0 <= i < n -> 0 <= j < n -> j < i -> L i j = (fsubs (A (p i) j) j (fun t => L i t * U t j) / U j j)%f) /\
       (forall i j, 0 <= i < n -> 0 <= j < n -> i <= j -> L i j = if i =? j then fone else fzero)).
Proof.
  intros Hl Hm Hn. destruct (lu_new_ok m n A thr Hl Hm ltac:(lia)) as (d & E & (M & HD) & C). exists d. split; [exact E|]. intros d' Hc.
  destruct (calls_core d d' Hc) as [Es Ep]. unfold lu_Pivot, lus_IsNonSingular. rewrite Es, Ep. cbn [app]. pose proof HD as (_ & HLn & Hsw & Hns & _).
  split; [auto|]. split; [auto|]. split; [eapply swaps_permutes; eauto|]. split; [auto|]. split.
  - intros Hs. destruct (lu_singular d) eqn:Esd; [|discriminate]. assert (d' = d) as -> by (apply calls_singular; auto). destruct C as (C1 & C2 & C3).
    unfold lu_L, lu_U, lu_P, lu_Determinant. rewrite Esd, C1, C2, C3. auto.
  - intros Hs. destruct (lu_singular d) eqn:Esd; [discriminate|]. pose proof (done_ok n A thr d M HD Esd C) as Hd.
    pose proof (calls_ok _ _ _ _ _ _ Hn Hd Hc) as Hd'. destruct (Hns eq_refl) as (I1 & I2 & _ & _).
    destruct (lu_L_ok _ _ _ _ _ Hn Hd') as ([mL d1] & EL & (Lm & EL' & _ & HL) & _). cbn in EL'. subst mL.
    destruct (lu_U_ok _ _ _ _ _ Hn Hd') as ([mU d2] & EU & (Um & EU' & _ & HU) & _). cbn in EU'. subst mU.
    destruct (lu_P_ok _ _ _ _ _ Hn Hd') as ([mP d3] & EP & (Pm & EP' & _ & HP) & _). cbn in EP'. subst mP.
    pose proof (lu_Det_ok n _ _ _ _ ltac:(lia) Hd') as ED.
    exists Lm, Um, Pm, (tabL M), (tabU M), (tabP (lu_pivot d)), d1, d2, d3. eexists. cbv zeta.
    split; [exact EL|]. split; [exact EU|]. split; [exact EP|]. split; [exact ED|]. split; [exact HL|]. split; [exact HU|]. split; [exact HP|].
    split; [auto|]. split; [|split; [|split]].
    + intros i j Hi Hj Hij. unfold tabU at 1. zb. rewrite I1 by lia. apply fsubs_ext. intros t Ht. unfold tabL, tabU. zb. auto.
    + intros i j Hi Hj Hij. unfold tabU. zb. auto.
    + intros i j Hi Hj Hij. unfold tabL at 1. zb. destruct (I2 i j) as (c & -> & -> & _); try lia. f_equal.
      * apply fsubs_ext. intros t Ht. unfold tabL, tabU. zb. auto.
      * unfold tabU. zb. auto.
    + intros i j Hi Hj Hij. unfold tabL. zb; auto.
Qed.
Lemma lu_default m : NewLUDecomposition m = NewLUDecompositionWithThreshold m (flit (1 # 100000000000)).
Proof. reflexivity. Qed.
Lemma lu_any_solve m n A thr d v b : library m -> MatIs m n n A -> 1 <= n -> NewLUDecompositionWithThreshold m thr = Ok d -> forall d', lu_calls d d' ->
  VecIs v n b -> lus_IsNonSingular d' = true -> exists r x, lus_SolveVector d' v = Ok r /\ VecIs r n x.
Proof.
  intros Hl Hm Hn E d' Hc Hv Hs. destruct (lu_new_ok m n A thr Hl Hm ltac:(lia)) as (d0 & E0 & (M & HD) & C). rewrite E in E0. injection E0 as <-.
  destruct (calls_core d d' Hc) as [Es Ep]. unfold lus_IsNonSingular in Hs. rewrite Es in Hs.
  destruct (lu_singular d) eqn:Esd; [discriminate|]. pose proof (done_ok n A thr d M HD Esd C) as Hd.
  pose proof (calls_ok _ _ _ _ _ _ Hn Hd Hc) as Hd'. destruct (lus_SolveVector_ok _ _ _ _ _ _ _ Hd' Hv) as (r & Er & x & Hx & _). exists r, x. auto.
Qed.
Lemma lu_solver_panics m n A thr d d' : library m -> MatIs m n n A -> 1 <= n -> NewLUDecompositionWithThreshold m thr = Ok d -> lu_calls d d' ->
  (forall v k b, VecIs v k b -> k <> n -> panics (lus_SolveVector d' v)) /\
  (forall b r c B, MatIs b r c B -> r <> n -> panics (lus_SolveMatrix d' b)) /\
  (lus_IsNonSingular d' = false -> (forall v, panics (lus_SolveVector d' v)) /\ (forall b, panics (lus_SolveMatrix d' b)) /\ panics (lus_Inverse d')).
Proof.
  intros Hl Hm Hn E Hc. destruct (lu_new_ok m n A thr Hl Hm ltac:(lia)) as (d0 & E0 & (M & HD) & C). rewrite E in E0. injection E0 as <-.
  destruct (calls_core d d' Hc) as [Es Ep]. pose proof HD as (_ & HLn & _). rewrite <- Ep in HLn. split; [|split].
  - intros v k b Hv Hk. eapply lus_SolveVector_bad_dim; eauto. lia.
  - intros v k c b Hv Hk. eapply lus_SolveMatrix_bad_dim; eauto. lia.
  - unfold lus_IsNonSingular. intros Hs. assert (lu_singular d' = true) by (destruct (lu_singular d'); auto).
    split; [intros; apply lus_SolveVector_singular; auto|]. split; [intros; apply lus_SolveMatrix_singular; auto|]. apply lus_Inverse_singular; auto. lia.
Qed.
End AnyOps.

#[local] Existing Instance ROps.
Lemma lu_of_new m thr d : lu_of m thr d -> (0 < thr)%R /\ exists d0, @NewLUDecompositionWithThreshold ROps m thr = Ok d0 /\ lu_calls d0 d.
Proof.
  intros (Ht & d0 & [E|[-> E]] & Hc); split; auto; exists d0; split; auto.
Qed.
Definition lu_state n A thr (d : @LUD ROps) M p e := (0 < thr)%R /\ lu_ok n M p e d /\ lu_inv n A thr n M (nthZ p) /\ swaps n e (nthZ p) /\ permutes n (nthZ p).
Lemma lu_of_state m n A thr d : library m -> MatIs m n n A -> 1 <= n -> lu_of m thr d -> lus_IsNonSingular d = true ->
  exists M p e, lu_state n A thr d M p e.
Proof.
  intros Hl Hm Hn Hof Hs. apply lu_of_new in Hof. destruct Hof as (Ht & d0 & E & Hc).
  destruct (lu_new_ok m n A thr Hl Hm ltac:(lia)) as (d0' & E0 & (M & HD) & C). rewrite E in E0. injection E0 as <-.
  destruct (calls_core d0 d Hc) as [Es Ep]. unfold lus_IsNonSingular in Hs. rewrite Es in Hs. destruct (lu_singular d0) eqn:Esd; [discriminate|].
  pose proof (done_ok n A thr d0 M HD Esd C) as Hd. pose proof (calls_ok _ _ _ _ _ _ Hn Hd Hc) as Hd'.
  pose proof HD as (_ & _ & Hsw & Hns & _). exists M, (lu_pivot d0), (lu_even d0). split; [auto|]. split; [auto|]. split; [auto|]. split; [auto|]. eapply swaps_permutes; eauto.
Qed.

Lemma lu_factorisation m n A thr d : library m -> MatIs m n n A -> 1 <= n -> lu_of m thr d -> lus_IsNonSingular d = true ->
  exists Lm Um Pm L U P d1 d2 d3,
    lu_L d = Ok (Some Lm, d1) /\ lu_U d = Ok (Some Um, d2) /\ lu_P d = Ok (Some Pm, d3) /\
    MatIs Lm n n L /\ MatIs Um n n U /\ MatIs Pm n n P /\
    meq n n (mmul n P A) (mmul n L U) /\
    (forall i, 0 <= i < n -> L i i = 1%R) /\ (forall i j, 0 <= i < j -> j < n -> L i j = 0%R) /\
    (forall i j, 0 <= i < n -> 0 <= j < n -> (Rabs (L i j) <= 1)%R) /\
    (forall i j, 0 <= j < i -> i < n -> U i j = 0%R) /\ (forall i, 0 <= i < n -> U i i <> 0%R) /\
    len (lu_Pivot d) = n /\ permutes n (nthZ (lu_Pivot d)) /\
    (forall i j, 0 <= i < n -> 0 <= j < n -> P i j = if j =? nthZ (lu_Pivot d) i then 1%R else 0%R).
Proof.
  intros Hl Hm Hn Hof Hs. destruct (lu_of_state m n A thr d Hl Hm Hn Hof Hs) as (M & p & e & Ht & Hd & Hi & Hsw & Hp).
  destruct (lu_L_ok _ _ _ _ _ Hn Hd) as ([mL d1] & EL & (Lm & EL' & _ & HL) & _). cbn in EL'. subst mL.
  destruct (lu_U_ok _ _ _ _ _ Hn Hd) as ([mU d2] & EU & (Um & EU' & _ & HU) & _). cbn in EU'. subst mU.
  destruct (lu_P_ok _ _ _ _ _ Hn Hd) as ([mP d3] & EP & (Pm & EP' & _ & HP) & _). cbn in EP'. subst mP.
  exists Lm, Um, Pm, (LT M), (UT M), (tabP p), d1, d2, d3.
  split; [exact EL|]. split; [exact EU|]. split; [exact EP|]. split; [exact HL|]. split; [exact HU|]. split; [exact HP|]. split; [|split; [|split; [|split; [|split; [|split]]]]].
  - intros i j Hi' Hj. rewrite (done_LU n A thr M _ Ht Hi i j) by auto. unfold mmul. pose proof (proj1 Hp i Hi').
    rewrite (Rs_pick 0 n (nthZ p i)); auto.
    + unfold tabP. rewrite Z.eqb_refl. cbn. ring.
    + intros k Hk Hne. unfold tabP. destruct (Z.eqb_spec k (nthZ p i)); [congruence|]. cbn. ring.
  - intros. apply LT_diag.
  - intros. apply LT_up. lia.
  - intros i j Hi' Hj. destruct (Z.lt_total i j) as [H|[->|H]].
    + rewrite LT_up, Rabs_R0 by lia. lra.
    + rewrite LT_diag, Rabs_R1. lra.
    + rewrite LT_low by lia. apply (inv_small n A thr M _ Ht n Hi); lia.
  - intros. apply UT_low. lia.
  - intros i Hi'. rewrite UT_up by lia. apply (inv_pivot n A thr M _ Ht n Hi); auto.
  - pose proof Hd as (_ & Ep & Elp & _). unfold lu_Pivot. rewrite Ep. cbn [app]. split; [auto|]. split; auto.
Qed.
Lemma lu_singular_near m n A thr d : library m -> MatIs m n n A -> 1 <= n -> lu_of m thr d -> lus_IsNonSingular d = false ->
  exists x k, 0 <= k < n /\ x k = 1%R /\ forall i, 0 <= i < n -> (Rabs (mvec n A x i) < thr)%R.
Proof.
  intros Hl Hm Hn Hof Hs. apply lu_of_new in Hof. destruct Hof as (Ht & d0 & E & Hc).
  destruct (lu_new_ok m n A thr Hl Hm ltac:(lia)) as (d0' & E0 & (M & HD) & C). rewrite E in E0. injection E0 as <-.
  destruct (calls_core d0 d Hc) as [Es Ep]. unfold lus_IsNonSingular in Hs. rewrite Es in Hs. destruct (lu_singular d0) eqn:Esd; [|discriminate].
  destruct HD as (_ & _ & Hsw & _ & Hsing). destruct (Hsing Esd) as (col & M0 & max & Hcol & Inv & Hmx & Ho & Hu & Hlo & Hlg & Hth).
  eapply (singular_witness n A thr M M0 _ col max); eauto. { eapply swaps_permutes; eauto. } exact (Hlg order_laws_R).
Qed.
Lemma lu_accepts m n A thr B : library m -> MatIs m n n A -> 1 <= n -> (0 < thr)%R -> meq n n (mmul n B A) idm ->
  (forall i, 0 <= i < n -> (Rs 0 n (fun j => Rabs (B i j)) * thr <= 1)%R) ->
  exists d, @NewLUDecompositionWithThreshold ROps m thr = Ok d /\ lus_IsNonSingular d = true.
Proof.
  intros Hl Hm Hn Ht HB Hb. destruct (lu_new_ok m n A thr Hl Hm ltac:(lia)) as (d & E & _). exists d. split; auto.
  destruct (lus_IsNonSingular d) eqn:Es; auto. exfalso.
  assert (Hof : lu_of m thr d) by (split; auto; exists d; split; [left; auto|constructor]).
  destruct (lu_singular_near m n A thr d Hl Hm Hn Hof Es) as (x & k & Hk & Hx & Hw).
  assert (E1 : mvec n B (mvec n A x) k = 1%R).
  { rewrite <- mvec_mmul. rewrite (mvec_ext n _ idm x x) by auto. rewrite mvec_1; auto. }
  assert (S : (Rs 0 n (fun j => Rabs (B k j) * Rabs (mvec n A x j)) < Rs 0 n (fun j => Rabs (B k j)) * thr \/ Rs 0 n (fun j => Rabs (B k j)) = 0)%R).
  { destruct (Req_dec (Rs 0 n (fun j => Rabs (B k j)))%R 0%R) as [E0|E0]; [right; auto|left].
    rewrite <- Rs_scal_r.
    assert (G : (0 < Rs 0 n (fun j => Rabs (B k j) * thr - Rabs (B k j) * Rabs (mvec n A x j)))%R); [|rewrite Rs_minus in G; lra].
    destruct (Rle_lt_or_eq_dec 0 (Rs 0 n (fun j => Rabs (B k j) * thr - Rabs (B k j) * Rabs (mvec n A x j)))%R) as [G|G]; auto.
    - apply Rs_nonneg. intros j Hj. rewrite <- Rmult_minus_distr_l. apply Rmult_le_pos; [apply Rabs_pos|]. specialize (Hw j Hj). lra.
    - exfalso. apply E0. apply Rs_zero. intros j Hj. symmetry in G.
      pose proof (Rs_eq0 0 n (fun j => Rabs (B k j) * thr - Rabs (B k j) * Rabs (mvec n A x j))%R) as Z0. cbn beta in Z0.
      assert (Zj : (Rabs (B k j) * thr - Rabs (B k j) * Rabs (mvec n A x j))%R = 0%R).
      { apply Z0; auto. intros i Hi. rewrite <- Rmult_minus_distr_l. apply Rmult_le_pos; [apply Rabs_pos|]. specialize (Hw i Hi). lra. }
      rewrite <- Rmult_minus_distr_l in Zj. specialize (Hw j Hj). destruct (Rmult_integral _ _ Zj); lra. }
  assert (T : (Rabs (mvec n B (mvec n A x) k) <= Rs 0 n (fun j => Rabs (B k j) * Rabs (mvec n A x j)))%R).
  { unfold mvec at 1. eapply Rle_trans; [apply Rs_abs|]. apply Rs_le. intros j Hj. rewrite Rabs_mult. lra. }
  rewrite E1, Rabs_R1 in T. specialize (Hb k Hk). destruct S as [S|S]; [lra|].
  rewrite Rs_zero in T; [lra|]. intros j Hj. rewrite (Rs_eq0 0 n (fun j => Rabs (B k j))) by (auto; intros; apply Rabs_pos). ring.
Qed.
Lemma lu_determinant m n A thr d : library m -> MatIs m n n A -> 1 <= n -> lu_of m thr d -> lus_IsNonSingular d = true ->
  lu_Determinant d = Ok (det n A) /\ det n A <> 0%R.
Proof.
  intros Hl Hm Hn Hof Hs. destruct (lu_of_state m n A thr d Hl Hm Hn Hof Hs) as (M & p & e & Ht & Hd & Hi & Hsw & Hp).
  pose proof (done_det n A thr M (nthZ p) Ht ltac:(lia) Hi e Hsw) as D. split.
  - rewrite (lu_Det_ok n M p e d ltac:(lia) Hd). f_equal. rewrite D. etransitivity; [apply (accum_prod_R (fun i => M i i)); lia|]. destruct e; auto.
  - rewrite D. apply Rmult_integral_contrapositive_currified; [destruct e; lra|].
    assert (G : forall k, 0 <= k -> k <= n -> Rprod 0 k (fun i => M i i) <> 0%R).
    { intros k Hk. pattern k. apply natlike_ind; auto.
      - intros _. rewrite Rprod_nil by lia. lra.
      - intros j Hj IH Hjn. change (Z.succ j) with (j + 1). rewrite Rprod_last by lia. apply Rmult_integral_contrapositive_currified; [apply IH; lia|].
        apply (inv_pivot n A thr M _ Ht n Hi). lia. }
    apply G; lia.
Qed.
Lemma lu_determinant_singular m n A thr d : library m -> MatIs m n n A -> 1 <= n -> lu_of m thr d -> det n A = 0%R ->
  lus_IsNonSingular d = false /\ lu_Determinant d = Ok 0%R.
Proof.
  intros Hl Hm Hn Hof H0. destruct (lus_IsNonSingular d) eqn:Es.
  - destruct (lu_determinant m n A thr d Hl Hm Hn Hof Es). contradiction.
  - split; auto. unfold lu_Determinant. unfold lus_IsNonSingular in Es. destruct (lu_singular d); [reflexivity|discriminate].
Qed.
Lemma lu_solve_vector m n A thr d v b : library m -> MatIs m n n A -> 1 <= n -> lu_of m thr d -> lus_IsNonSingular d = true -> VecIs v n b ->
  exists r x, lus_SolveVector d v = Ok r /\ VecIs r n x /\ (forall i, 0 <= i < n -> mvec n A x i = b i) /\
    forall x', (forall i, 0 <= i < n -> mvec n A x' i = b i) -> forall i, 0 <= i < n -> x' i = x i.
Proof.
  intros Hl Hm Hn Hof Hs Hv. destruct (lu_of_state m n A thr d Hl Hm Hn Hof Hs) as (M & p & e & Ht & Hd & Hi & Hsw & Hp).
  destruct (lus_SolveVector_ok n M p e d v b Hd Hv) as (r & E & x & Hx & Hsol). exists r, x. split; [auto|]. split; [auto|].
  pose proof (done_solve_A n A thr M _ Ht Hi Hp b x Hsol) as Sx. split; [auto|].
  intros x' Hx' i Hin. apply Rminus_diag_uniq. apply (done_inj n A thr M _ Ht Hi Hp (fun i => x' i - x i)%R); auto.
  intros k Hk. unfold mvec. rewrite (Rs_ext 0 n _ (fun t => A k t * x' t - A k t * x t)%R) by (intros; ring). rewrite Rs_minus.
  pose proof (Sx k Hk) as S1. pose proof (Hx' k Hk) as S2. unfold mvec in S1, S2. rewrite S1, S2. apply Rminus_diag_eq. auto.
Qed.
Lemma lu_solve_matrix m n A thr d b k B : library m -> MatIs m n n A -> 1 <= n -> 1 <= k -> lu_of m thr d -> lus_IsNonSingular d = true -> MatIs b n k B ->
  exists r X, lus_SolveMatrix d b = Ok r /\ MatIs r n k X /\ meq n k (mmul n A X) B.
Proof.
  intros Hl Hm Hn Hk Hof Hs Hb. destruct (lu_of_state m n A thr d Hl Hm Hn Hof Hs) as (M & p & e & Ht & Hd & Hi & Hsw & Hp).
  destruct (lus_SolveMatrix_ok n M p e d b k B Hn Hk Hd Hb) as (r & E & X & _ & HX & Hsol). exists r, X. split; [auto|]. split; [auto|].
  intros i j Hi' Hj. exact (done_solve_A n A thr M _ Ht Hi Hp (fun i => B i j) (fun i => X i j) (Hsol j Hj) i Hi').
Qed.
Lemma lu_inverse m n A thr d : library m -> MatIs m n n A -> 1 <= n -> lu_of m thr d -> lus_IsNonSingular d = true ->
  exists r X, lus_Inverse d = Ok r /\ MatIs r n n X /\ meq n n (mmul n A X) idm /\ meq n n (mmul n X A) idm.
Proof.
  intros Hl Hm Hn Hof Hs. destruct (lu_of_state m n A thr d Hl Hm Hn Hof Hs) as (M & p & e & Ht & Hd & Hi & Hsw & Hp).
  destruct (lus_Inverse_ok n M p e d Hn Hd) as (r & E & X & _ & HX & Hsol). exists r, X. split; [auto|]. split; [auto|].
  assert (R1 : meq n n (mmul n A X) idm).
  { intros i j Hi' Hj. exact (done_solve_A n A thr M _ Ht Hi Hp (fun i => idm i j) (fun i => X i j) (Hsol j Hj) i Hi'). }
  split; auto. apply inverse_left; auto. exact (done_inj n A thr M _ Ht Hi Hp).
Qed.

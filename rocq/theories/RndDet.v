(** Rounding errors of determinants: products of floats. *)
From Coq Require Import ZArith QArith List Reals Lia Lra Bool Floats.SpecFloat.
From Verif Require Import Base BaseLemmas Scalar Vector VecSpec Matrix MatSpec Array2D BlockM Diagonal RealMatrixM MatFacts MatrixOps Float64 TabTac RSum RndSpec FloatR RndSum RndTri Det LU LUSpec LUFacts LUFacts2 LUProps RndLU
  Cholesky CholSpec CholFacts CholProps RndChol RndEx RndDetSpec Eigen EigenProps2.
Import ListNotations.
Open Scope Z_scope.

(** [y] has the exact value [s], of size at most [a]; [h] is [a] with the
    underflow, [d] the number of roundings. *)
Definition hx (d : nat) (s a h : R) (y : sf) : Prop :=
  sf_valid y = true /\ (Rabs s <= a <= h)%R /\ (isfin y = true -> (Rabs (fR y - s) <= gw d * h - a)%R).
Lemma hx_num x : num x -> hx 0 (fR x) (Rabs (fR x)) (Rabs (fR x)) x.
Proof. intros [V F]. split; [auto|]. split; [lra|]. intros _. unfold gw. cbn [pow]. rewrite Rminus_diag_eq, Rabs_R0 by auto. lra. Qed.
Lemma hx_mul d e s a h x s' a' h' y : hx d s a h x -> hx e s' a' h' y -> hx (S (d + e)) (s * s') (a * a') (h * h' + tiny) (sf_mul x y).
Proof.
  intros (V & (A & H) & K) (V' & (A' & H') & K'). pose proof tiny_pos as T. pose proof ulp2_pos as U. pose proof (gw_ge1 d) as G. pose proof (gw_ge1 e) as G'.
  pose proof (Rabs_pos s) as P. pose proof (Rabs_pos s') as P'.
  split; [apply mul_valid; auto|]. split.
  { split; [rewrite Rabs_mult; apply Rmult_le_compat; auto|]. assert (a * a' <= h * h')%R by (apply Rmult_le_compat; lra). lra. }
  intros F. destruct (sf_mul_fin _ _ F) as [Fx Fy]. specialize (K Fx). specialize (K' Fy). destruct (mul_ok x y V V' F) as [M _].
  set (z := fR (sf_mul x y)) in *. clearbody z. set (p := fR x) in *. set (q := fR y) in *. clearbody p q.
  assert (E : gw (S (d + e)) = ((1 + ulp2) * (gw d * gw e))%R) by (rewrite gw_S; f_equal; unfold gw; rewrite pow_add; auto).
  rewrite E. clear E F Fx Fy V V' x y. set (g := gw d) in *. set (g' := gw e) in *. clearbody g g'.
  assert (B1 : (Rabs (p * q - s * s') <= g * h * (g' * h') - a * a')%R).
  { replace (p * q - s * s')%R with ((p - s) * (q - s') + (p - s) * s' + s * (q - s'))%R by ring.
    eapply Rle_trans; [apply Rabs_triang|]. eapply Rle_trans; [apply Rplus_le_compat_r, Rabs_triang|]. rewrite !Rabs_mult.
    pose proof (Rabs_pos (p - s)) as D. pose proof (Rabs_pos (q - s')) as D'.
    assert (Rabs (p - s) * Rabs (q - s') <= (g * h - a) * (g' * h' - a'))%R by (apply Rmult_le_compat; auto).
    assert (Rabs (p - s) * Rabs s' <= (g * h - a) * a')%R by (apply Rmult_le_compat; auto).
    assert (Rabs s * Rabs (q - s') <= a * (g' * h' - a'))%R by (apply Rmult_le_compat; auto). nra. }
  assert (B2 : (Rabs (p * q) <= g * h * (g' * h'))%R).
  { replace (p * q)%R with ((p * q - s * s') + s * s')%R by ring. eapply Rle_trans; [apply Rabs_triang|].
    assert (Rabs (s * s') <= a * a')%R by (rewrite Rabs_mult; apply Rmult_le_compat; auto). lra. }
  replace (z - s * s')%R with ((z - p * q) + (p * q - s * s'))%R by ring. eapply Rle_trans; [apply Rabs_triang|].
  assert (ulp2 * Rabs (p * q) <= ulp2 * (g * h * (g' * h')))%R by (apply Rmult_le_compat_l; lra).
  assert (1 <= g * g')%R by nra. assert (tiny <= (1 + ulp2) * (g * g') * tiny)%R by (assert (1 <= (1 + ulp2) * (g * g'))%R by nra; nra). lra.
Qed.
Lemma hx_mul_fin d e s a h x s' a' h' y : hx d s a h x -> hx e s' a' h' y -> isfin x = true -> isfin y = true ->
  (gw (S (d + e)) * (h * h' + tiny) <= huge)%R -> isfin (sf_mul x y) = true.
Proof.
  intros (V & (A & H) & K) (V' & (A' & H') & K') Fx Fy R. specialize (K Fx). specialize (K' Fy).
  apply mul_fin; [split; auto..|]. eapply Rle_trans; [|exact R]. rewrite Rabs_mult. pose proof tiny_pos as T. pose proof ulp2_pos as U. pose proof (gw_ge1 d) as G. pose proof (gw_ge1 e) as G'.
  assert (E : gw (S (d + e)) = ((1 + ulp2) * (gw d * gw e))%R) by (rewrite gw_S; f_equal; unfold gw; rewrite pow_add; auto). rewrite E.
  pose proof (Rabs_pos s) as P. pose proof (Rabs_pos s') as P'.
  assert (X : (Rabs (fR x) <= gw d * h)%R). { replace (fR x) with ((fR x - s) + s)%R by ring. eapply Rle_trans; [apply Rabs_triang|]. lra. }
  assert (Y : (Rabs (fR y) <= gw e * h')%R). { replace (fR y) with ((fR y - s') + s')%R by ring. eapply Rle_trans; [apply Rabs_triang|]. lra. }
  eapply Rle_trans; [apply Rmult_le_compat; [apply Rabs_pos|apply Rabs_pos|exact X|exact Y]|].
  set (g := gw d) in *. set (g' := gw e) in *. assert (0 <= h * h')%R by nra. assert (0 <= g * g')%R by nra. assert (0 <= g * g' * (h * h'))%R by nra.
  assert (0 <= (1 + ulp2) * (g * g') * tiny)%R by (apply Rmult_le_pos; [apply Rmult_le_pos|]; lra). assert (0 <= ulp2 * (g * g' * (h * h')))%R by (apply Rmult_le_pos; lra). lra.
Qed.
Lemma hx_mono d e s a h y : (d <= e)%nat -> hx d s a h y -> hx e s a h y.
Proof. intros Hd (V & A & K). split; [auto|]. split; [auto|]. intros F. specialize (K F). pose proof (gw_le d e Hd). pose proof (Rabs_pos s). nra. Qed.

(** A product computed from the left. *)
Section Prod.
Variables (e : nat) (g : Z -> sf) (u w : Z -> R) (z : sf) (s0 : R).
Hypothesis Hz : num z.
Hypothesis Ez : fR z = s0.
Hypothesis Az : Rabs s0 = 1%R.
Lemma prod_hx k : (forall i, 0 <= i < Z.of_nat k -> hx e (u i) (Rabs (u i)) (w i) (g i)) ->
  hx (k * S e) (s0 * Rprodn k 0 u) (Rabs (Rprodn k 0 u)) (hprod k w) (accum (fun i x => sf_mul x (g i)) k z).
Proof.
  induction k as [|k IH]; intros H.
  - cbn [accum Rprodn hprod]. rewrite Rmult_1_r, Rabs_R1. pose proof (hx_num z Hz) as K. rewrite Ez, Az in K. exact K.
  - cbn [accum Rprodn hprod]. rewrite Rabs_mult, <- Rmult_assoc.
    assert (E1 : (S k * S e = S (k * S e + e))%nat) by lia. rewrite E1. rewrite Z.add_0_l.
    apply hx_mul; [apply IH; intros; apply H; lia|apply H; lia].
Qed.
Lemma prod_fin k : (forall i, 0 <= i < Z.of_nat k -> hx e (u i) (Rabs (u i)) (w i) (g i) /\ isfin (g i) = true) ->
  (forall j, (j <= k)%nat -> (gw (k * S e) * hprod j w <= huge)%R) -> isfin (accum (fun i x => sf_mul x (g i)) k z) = true.
Proof.
  intros H R. assert (G : forall j, (j <= k)%nat -> isfin (accum (fun i x => sf_mul x (g i)) j z) = true); [|apply G; lia].
  induction j as [|j IH]; intros Hj; [apply Hz|]. cbn [accum]. destruct (H (Z.of_nat j) ltac:(lia)) as [Hg Fg].
  pose proof (prod_hx j (fun i Hi => proj1 (H i ltac:(lia)))) as Hp. eapply hx_mul_fin; [exact Hp|exact Hg|apply IH; lia|auto|].
  eapply Rle_trans; [|apply (R (S j)); lia]. cbn [hprod]. apply Rmult_le_compat_r; [|apply gw_le; nia].
  destruct Hp as (_ & (_ & P) & _). destruct Hg as (_ & (_ & P') & _). pose proof (Rabs_pos (Rprodn j 0 u)). pose proof (Rabs_pos (u (Z.of_nat j))). pose proof tiny_pos.
  assert (0 <= hprod j w * w (Z.of_nat j))%R by (apply Rmult_le_pos; lra). lra.
Qed.
Lemma prod_close_ok n d : 0 <= n -> d = n * Z.of_nat (S e) -> (forall i, 0 <= i < n -> hx e (u i) (Rabs (u i)) (w i) (g i)) ->
  let y := accum (fun i x => sf_mul x (g i)) (Z.to_nat n) z in
  sf_valid y = true /\ (isfin y = true -> prod_close n d w (s0 * Rprod 0 n u) y) /\
  ((forall i, 0 <= i < n -> isfin (g i) = true) -> prod_room n d w -> isfin y = true).
Proof.
  intros Hn Hd H y. assert (ED : Z.to_nat d = (Z.to_nat n * S e)%nat) by (subst d; rewrite Z2Nat.inj_mul, Nat2Z.id by lia; auto).
  destruct (prod_hx (Z.to_nat n) (fun i Hi => H i ltac:(lia))) as (V & _ & K). split; [exact V|]. split.
  - intros F. specialize (K F). unfold prod_close, gam. rewrite grow_gw, ED. unfold Rprod. rewrite Z.sub_0_r. rewrite Rabs_mult, Az, Rmult_1_l.
    eapply Rle_trans; [exact K|]. apply Req_le. ring.
  - intros Fg R. apply prod_fin; [intros i Hi; split; [apply H|apply Fg]; lia|]. intros j Hj. rewrite <- ED. apply R. auto.
Qed.
End Prod.

(** ** LU *)
Lemma det_perm n e p (B : Z -> Z -> R) : swaps n e p -> det n (fun i j => B (p i) j) = ((if e then 1 else -1) * det n B)%R.
Proof.
  induction 1 as [q H|e q q' k l Hs IH Hk Hl Hne Hq].
  - rewrite Rmult_1_l. apply det_ext. intros i j Hi Hj. rewrite H; auto.
  - rewrite (det_ext n _ (setrow2 (fun i j => B (q i) j) k l (fun j => B (q l) j) (fun j => B (q k) j))).
    + rewrite (det_swap n (fun i j => B (q i) j) k l) by auto. rewrite IH. destruct e; cbn; ring.
    + intros i j Hi Hj. rewrite Hq by auto. unfold setrow2, setrow, swp. zb; subst; auto; congruence.
Qed.
Lemma lu_sf_swaps c m n A thr d : library m -> MatIs m n n A -> 1 <= n -> lu_sf c m thr d -> lus_IsNonSingular d = true ->
  exists M p e, @lu_ok (SFOps c) n M p e d /\ @lu_inv (SFOps c) n A thr n M (nthZ p) /\ swaps n e (nthZ p).
Proof.
  intros Hl Hm Hn (d0 & E & Hc) Hs.
  destruct (lu_new_ok m n A thr Hl Hm ltac:(lia)) as (d0' & E0 & (M & HD) & C). rewrite E in E0. injection E0 as <-.
  destruct (calls_core d0 d Hc) as [Es Ep]. unfold lus_IsNonSingular in Hs. rewrite Es in Hs. destruct (lu_singular d0) eqn:Esd; [discriminate|].
  pose proof (done_ok n A thr d0 M HD Esd C) as Hd. pose proof (calls_ok _ _ _ _ _ _ Hn Hd Hc) as Hd'.
  pose proof HD as (_ & _ & Hsw & Hns & _). exists M, (lu_pivot d0), (lu_even d0). auto.
Qed.
Lemma lu_sf_det : forall c (m : @RealMatrix (SFOps c)) n (A : Z -> Z -> sf) (thr : sf) (d0 d : @LUD (SFOps c)), library m -> MatIs m n n A -> 1 <= n -> nums2 n n A ->
  NewLUDecompositionWithThreshold m thr = Ok d0 -> lu_calls d0 d -> lus_IsNonSingular d = true ->
  exists Lm Um (L U : Z -> Z -> sf) d1 d2 y, lu_L d = Ok (Some Lm, d1) /\ lu_U d = Ok (Some Um, d2) /\ MatIs Lm n n L /\ MatIs Um n n U /\ lu_Determinant d = Ok y /\
    (nums2 n n L -> nums2 n n U -> sf_valid y = true /\ (isfin y = true -> lu_det_close n A L U (nthZ (lu_Pivot d)) y) /\
       (prod_room n n (fun i => Rabs (fR (U i i))) -> isfin y = true)).
Proof.
  intros c m n A thr d0 d Hl Hm Hn HA E Hc Hs. assert (Hof : lu_sf c m thr d) by (exists d0; auto).
  destruct (lu_sf_swaps c m n A thr d Hl Hm Hn Hof Hs) as (M & p & e & Hd & Inv & Hsw). pose proof (swaps_permutes _ _ _ Hsw) as Hp.
  pose proof Hd as (_ & Ep & Elp & _). assert (EP : lu_Pivot d = p) by (unfold lu_Pivot; rewrite Ep; reflexivity). rewrite EP.
  destruct (lu_L_ok _ _ _ _ _ Hn Hd) as ([mL d1] & EL & (Lm & EL' & _ & HL) & _). cbn in EL'. subst mL.
  destruct (lu_U_ok _ _ _ _ _ Hn Hd) as ([mU d2] & EU & (Um & EU' & _ & HU) & _). cbn in EU'. subst mU.
  set (z := if e then sf_of_Z 1 else SFopp (sf_of_Z 1)).
  exists Lm, Um, (tabL (O := SFOps c) M), (tabU (O := SFOps c) M), d1, d2, (accum (fun i x => sf_mul x (M i i)) (Z.to_nat n) z).
  split; [exact EL|]. split; [exact EU|]. split; [exact HL|]. split; [exact HU|]. split; [rewrite (lu_Det_ok n M p e d ltac:(lia) Hd); unfold z; destruct e; reflexivity|].
  intros NL NU. assert (FC : factors_close n (fun i j => A (nthZ p i) j) (tabL (O := SFOps c) M) (tabU (O := SFOps c) M)) by (apply (lu_factors_close c n A thr M (nthZ p)); auto; apply Hp).
  set (L := tabL (O := SFOps c) M) in *. set (U := tabU (O := SFOps c) M) in *.
  assert (Nz : num z) by (unfold z; destruct e; [apply num_one|apply opp_num, num_one]).
  assert (DU : forall i, U i i = M i i) by (intros; unfold U, tabU; zb; auto).
  set (s0 := if e then 1%R else (-1)%R).
  assert (Ez : fR z = s0) by (unfold z, s0; destruct e; [apply fR_one|rewrite opp_ok, fR_one; reflexivity]).
  assert (Az : Rabs s0 = 1%R) by (unfold s0; destruct e; [apply Rabs_R1|rewrite Rabs_left; lra]).
  destruct (prod_close_ok 0 (fun i => M i i) (fun i => fR (U i i)) (fun i => Rabs (fR (U i i))) z s0 Nz Ez Az n n ltac:(lia) ltac:(lia)) as (V & K1 & K2).
  { intros i Hi. rewrite DU. apply hx_num. rewrite <- DU. apply NU; auto. }
  split; [exact V|]. split.
  - intros F. specialize (K1 F).
    set (B := fun k j => Rs 0 n (fun i => if nthZ p i =? k then mdot n L U i j else 0)%R). exists B.
    assert (EB : forall i j, 0 <= i < n -> B (nthZ p i) j = mdot n L U i j).
    { intros i j Hi. unfold B. rewrite (Rs_pick 0 n i); auto; [rewrite Z.eqb_refl; auto|]. intros k Hk Hne. destruct (Z.eqb_spec (nthZ p k) (nthZ p i)) as [Eq|]; auto.
      exfalso. apply Hne. apply (proj1 (proj2 Hp)); auto. }
    split; [intros i j Hi Hj; rewrite EB by auto; apply FC; auto|].
    assert (ED : det n B = (s0 * Rprod 0 n (fun i => fR (U i i)))%R); [|rewrite ED; exact K1].
    pose proof (det_perm n e (nthZ p) B Hsw) as DP.
    rewrite (det_ext n _ (mmul n (fun i j => fR (L i j)) (fun i j => fR (U i j)))) in DP by (intros i j Hi Hj; rewrite EB by auto; reflexivity).
    rewrite det_unit_lower in DP; [|lia|intros; unfold L, tabL; zb; apply fR_one|intros; unfold L, tabL; zb; auto].
    rewrite det_upper in DP; [|lia|intros; unfold U, tabU; zb; auto]. unfold s0. destruct e; lra.
  - intros R. apply K2; auto. intros i Hi. rewrite <- DU. apply NU; auto.
Qed.

(** ** Cholesky *)
(** The determinant of a product of lower triangular and any table. *)
Lemma det_lower n L U : 0 <= n -> (forall i j, 0 <= i < j -> j < n -> L i j = 0%R) ->
  det n (mmul n L U) = (Rprod 0 n (fun i => L i i) * det n U)%R.
Proof.
  intros Hn Hu. set (M := fun k i j => if i <? k then U i j else mmul n L U i j).
  assert (G : forall k, 0 <= k <= n -> (Rprod 0 k (fun i => L i i) * det n (M k))%R = det n (mmul n L U)).
  { intros k Hk. destruct Hk as [Hk Hkn]. revert Hkn. pattern k. apply natlike_ind; auto; clear k Hk.
    - intros _. rewrite Rprod_nil, Rmult_1_l by lia. apply det_ext. intros p q Hp Hq. unfold M. zb'; auto.
    - intros k Hk IH Hkn. rewrite <- IH by lia. change (Z.succ k) with (k + 1). rewrite Rprod_last by lia. rewrite Rmult_assoc. f_equal. unfold det.
      rewrite (detn_ext _ (M (k + 1)) (setrow (M k) k (U k))).
      2:{ intros p q Hp Hq. unfold M, setrow. zb'; subst; auto; try (f_equal; lia). }
      rewrite <- (detn_row_scal (Z.to_nat n) (M k) k (L k k) (U k)) by lia.
      rewrite <- (detn_row_combine (Z.to_nat n) (M k) k (fun j => L k k * U k j)%R (L k) k) by lia. apply detn_ext. intros p q Hp Hq.
      unfold setrow. destruct (Z.eqb_spec p k) as [->|]; auto. unfold M at 2. zb'. unfold mmul.
      rewrite (Rs_split 0 k n) by lia. rewrite (Rs_first k n) by lia. rewrite (Rs_zero (k + 1)) by (try lia; intros; rewrite Hu by lia; ring).
      rewrite Rplus_0_r, Rplus_comm. f_equal. apply Rs_ext. intros t Ht. unfold M. zb'. auto. }
  rewrite <- (G n) by lia. f_equal. apply det_ext. intros p q Hp Hq. unfold M. zb'; auto.
Qed.
Lemma Rprod_mul n u v : 0 <= n -> (Rprod 0 n u * Rprod 0 n v)%R = Rprod 0 n (fun i => u i * v i)%R.
Proof.
  intros Hn. pattern n. apply natlike_ind; auto.
  - rewrite !Rprod_nil by lia. ring.
  - intros k Hk IH. change (Z.succ k) with (k + 1). rewrite !Rprod_last, <- IH by lia. ring.
Qed.
Lemma ch_sf_det : forall c (m : @RealMatrix (SFOps c)) n (A : Z -> Z -> sf) (rel pos : sf) (d0 d : @ChD (SFOps c)), library m -> MatIs m n n A -> 1 <= n -> nums2 n n A ->
  NewCholeskyDecomposition m rel pos = Ok d0 -> ch_calls d0 d ->
  exists Lm (L : Z -> Z -> sf) d1 y, ch_L d = Ok (Lm, d1) /\ MatIs Lm n n L /\ ch_Determinant d = Ok y /\
    (nums2 n n L -> sf_valid y = true /\ (isfin y = true -> chol_det_close n A L y) /\
      ((forall i, 0 <= i < n -> (fR (L i i) * fR (L i i) <= huge)%R) -> prod_room n (2 * n) (fun i => fR (L i i) * fR (L i i) + tiny)%R -> isfin y = true)).
Proof.
  intros c m n A rel pos d0 d Hl Hm Hn HA E Hc. destruct (ch_state m n A rel pos d0 d Hl Hm Hn E Hc) as (M & (_ & Inv) & Hok).
  destruct (ch_L_ok n M d Hn Hok) as ([Lm d1] & EL & _ & HL & _). cbn [fst snd] in *.
  exists Lm, (fun i j => M j i), d1, (accum (fun i x => sf_mul x (sf_mul (M i i) (M i i))) (Z.to_nat n) (sf_of_Z 1)). split; [exact EL|]. split; [exact HL|].
  split; [apply (ch_Det_ok n M d ltac:(lia) Hok)|]. intros NL.
  assert (NM : nums2 n n M) by (intros i j Hi Hj; apply NL; auto).
  assert (CC : chol_close n A (fun i j => M j i)) by (apply (ch_close c n A pos M); auto).
  destruct (prod_close_ok 1 (fun i => sf_mul (M i i) (M i i)) (fun i => fR (M i i) * fR (M i i))%R (fun i => fR (M i i) * fR (M i i) + tiny)%R (sf_of_Z 1) 1 num_one fR_one Rabs_R1 n (2 * n) ltac:(lia) ltac:(lia)) as (V & K1 & K2).
  { intros i Hi. pose proof (hx_num _ (NM i i Hi Hi)) as H1. pose proof (hx_mul _ _ _ _ _ _ _ _ _ _ H1 H1) as H2. cbn [Nat.add] in H2.
    rewrite <- !Rabs_mult in H2. rewrite (Rabs_right (fR (M i i) * fR (M i i))) in * by nra. exact H2. }
  split; [exact V|]. split.
  - intros F. specialize (K1 F). rewrite Rmult_1_l in K1.
    exists (fun i j => Rs 0 n (fun t => fR (M t i) * fR (M t j))%R). split.
    + intros i j Hi Hj. split; [apply Rs_ext; intros; ring|]. apply (CC i j Hi Hj).
    + assert (Low : forall i j, 0 <= i < j -> j < n -> fR (M j i) = 0%R) by (intros; apply (RndChol.L0 c n A pos M Inv i j); auto).
      rewrite (det_ext n _ (mmul n (fun i t => fR (M t i)) (fun t j => fR (M t j)))) by (intros i j Hi Hj; reflexivity).
      rewrite det_lower; [|lia|intros; apply Low; auto]. rewrite det_upper; [|lia|intros; apply Low; auto]. rewrite Rprod_mul by lia. exact K1.
  - intros R1 R. apply K2; auto. intros i Hi. apply mul_fin; try apply NM; auto. rewrite Rabs_right by nra. apply R1; auto.
Qed.

(** ** The eigen decomposition: the product of the real parts *)
Lemma fold_accum (l : list sf) (z : sf) : fold_left sf_mul l z = accum (fun i x => sf_mul x (nth (Z.to_nat i) l sf_zero)) (length l) z.
Proof.
  revert z. induction l as [|a l IH] using rev_ind; intros z; [reflexivity|].
  rewrite fold_left_app, app_length, Nat.add_1_r. cbn [fold_left accum]. rewrite IH. f_equal.
  - assert (G : forall k, (k <= length l)%nat -> accum (fun i x => sf_mul x (nth (Z.to_nat i) l sf_zero)) k z = accum (fun i x => sf_mul x (nth (Z.to_nat i) (l ++ [a]) sf_zero)) k z).
    { induction k as [|k IHk]; intros Hk; auto. cbn [accum]. rewrite IHk by lia. f_equal. rewrite Nat2Z.id, app_nth1 by lia. auto. }
    apply G. lia.
  - rewrite Nat2Z.id, app_nth2, Nat.sub_diag by lia. auto.
Qed.
Lemma ed_sf_det c (d : @EdD (SFOps c)) n (g : Z -> sf) : VecIs (VArr (ed_RealEigenvalues d)) n g -> nums n g -> exists y, ed_Determinant d = Ok y /\ sf_valid y = true /\
  (isfin y = true -> prod_close n n (fun i => Rabs (fR (g i))) (Rprod 0 n (fun i => fR (g i))) y) /\ (prod_room n n (fun i => Rabs (fR (g i))) -> isfin y = true).
Proof.
  intros Hv N. rewrite (det_is_fold d). generalize dependent (ed_RealEigenvalues d). intros l Hv.
  eexists. split; [reflexivity|]. change (@fone (SFOps c)) with (sf_of_Z 1). change (@fmul (SFOps c)) with sf_mul. change (list sf) in l. rewrite fold_accum.
  assert (EL : Z.of_nat (length l) = n) by (apply Hv). assert (EG : forall i, 0 <= i < n -> nth (Z.to_nat i) l sf_zero = g i).
  { intros i Hi. destruct Hv as (H1 & H2 & _). specialize (H2 i Hi). pose proof (vec_lst (O := SFOps c) l n H1) as (_ & H3 & _). specialize (H3 i Hi). rewrite H2 in H3. injection H3 as E3. rewrite E3.
    unfold nthZ. apply nth_indep. lia. }
  assert (Nn : 0 <= n) by lia. replace (length l) with (Z.to_nat n) by lia.
  destruct (prod_close_ok 0 (fun i => nth (Z.to_nat i) l sf_zero) (fun i => fR (g i)) (fun i => Rabs (fR (g i))) (sf_of_Z 1) 1 num_one fR_one Rabs_R1 n n Nn ltac:(lia)) as (V & K1 & K2).
  { intros i Hi. cbn beta. rewrite EG by auto. apply hx_num. auto. }
  split; [exact V|]. split; [intros F; rewrite <- (Rmult_1_l (Rprod 0 n _)); apply K1; auto|]. intros R. apply K2; auto. intros i Hi. rewrite EG by auto. apply N; auto.
Qed.

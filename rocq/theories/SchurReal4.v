(** The Schur transform in exact arithmetic: the error of a double step, of a
    pair of roots, of a turn, of the iteration. *)
From Coq Require Import ZArith QArith List Lia Bool Reals Qreals Lra.
From Verif Require Import Base BaseLemmas Scalar Vector Matrix Diagonal MatSpec TabTac FSum VecSpec RealOps RSum House Frob CholFacts Schur SchurFacts SchurFacts2 SchurReal SchurReal2 SchurReal3.
Open Scope Z_scope.

(** ** The double step *)
Definition ctot (im iu k : Z) (e1 er : R) : R := ((if k =? im then 0 else e1) + IZR (k - im) * deps + IZR (Z.max 0 (k - iu + 2)) * er)%R.
Lemma ctot_S im iu k e1 er : im <= k -> (0 <= e1)%R -> (0 <= er)%R -> (ctot im iu k e1 er + ccost im iu k e1 er <= ctot im iu (k + 1) e1 er)%R.
Proof.
  intros Hk H1 H2. unfold ctot, ccost. pose proof deps_pos. replace (k + 1 - im) with (k - im + 1) by lia. rewrite plus_IZR. destruct (Z.eqb_spec (k + 1) im); [lia|].
  destruct (Z.leb_spec iu (k + 2)).
  - replace (Z.max 0 (k + 1 - iu + 2)) with (Z.max 0 (k - iu + 2) + 1) by lia. rewrite plus_IZR. destruct (k =? im); lra.
  - replace (Z.max 0 (k + 1 - iu + 2)) with 0 by lia. replace (Z.max 0 (k - iu + 2)) with 0 by lia. destruct (k =? im); lra.
Qed.
Lemma chases_sim n il im iu h T P e1 er : 0 <= il <= im -> im <= iu - 2 -> iu < n -> hess (O := ROps) n T -> first_ok il im h T e1 -> (0 <= e1)%R -> (0 <= er)%R ->
  (iu + 1 < n -> (3 * Rabs (T (iu + 1)%Z iu) <= er)%R) -> forall c, 0 <= c -> im + c <= iu ->
  exists G, let S' := chasesF (O := ROps) n il im iu h (im + c) (T, P) in sim n G T (lg (im + c) (fst S')) (ctot im iu (im + c) e1 er) /\ fixes n G iu /\ meq n n (snd S') (mmul n P G) /\ bul n im iu (im + c) (fst S') /\
    (forall i j, iu < i < n -> 0 <= j < n -> fst S' i j = T i j) /\ (c = 0 -> fst S' = T).
Proof.
  intros Hil Him Hiu Hh Hf He1 Her Hrow c Hc. revert c Hc. refine (natlike_ind _ _ _).
  - intros _. exists idm. cbn zeta. unfold chasesF. replace (im + 0 - im) with 0 by lia. cbn [Z.to_nat accum fst snd].
    split; [|split; [apply fixes_id|split; [intros i j Hi Hj; symmetry; apply mmul_1_r; auto|split; [|auto]]]].
    + eapply sim_ext; [apply sim_refl|apply meq_refl|apply meq_refl| |].
      * intros i j Hi Hj. unfold lg. destruct (Z.leb_spec j (im + 0 - 2)), (Z.leb_spec (j + 2) i); cbn [andb]; auto. apply Hh; lia.
      * unfold ctot. pose proof deps_pos. replace (im + 0 - im) with 0 by lia. replace (Z.max 0 (im + 0 - iu + 2)) with 0 by lia. destruct (im + 0 =? im); lra.
    + intros i j Hj0 Hj Hij _. apply Hh; lia.
  - intros c Hc IH Hle. destruct (IH ltac:(lia)) as (G & H1 & H2 & H3 & H4 & H5 & H6). clear IH.
    assert (ES : chasesF (O := ROps) n il im iu h (im + Z.succ c) (T, P) = chaseF (O := ROps) n il im iu h (im + c) (chasesF (O := ROps) n il im iu h (im + c) (T, P))).
    { unfold chasesF. replace (im + Z.succ c - im) with (c + 1) by lia. replace (im + c - im) with c by lia. rewrite accum_S by lia. auto. }
    cbn zeta. rewrite ES. clear ES. cbn zeta in *. destruct (chasesF (O := ROps) n il im iu h (im + c) (T, P)) as [T1 P1]. cbn [fst snd] in *.
    destruct (chase_sim n il im iu h (im + c) T1 P1 e1 er Hil Him Hiu ltac:(lia) H4) as (G' & K1 & K2 & K3 & K4 & K5); auto.
    + intros E. rewrite H6 by lia. auto.
    + intros Hn. rewrite H5 by lia. auto.
    + exists (mmul n G G'). replace (im + Z.succ c) with (im + c + 1) by lia. split; [|split; [apply fixes_mmul; auto|split; [|split; [auto|split]]]].
      * eapply sim_ext; [eapply sim_trans; [exact H1|exact K1]|apply meq_refl|apply meq_refl|apply meq_refl|]. apply ctot_S; auto. lia.
      * eapply meq_trans; [exact K3|]. intros i j Hi Hj. rewrite <- mmul_assoc. apply mmul_ext; auto.
      * intros i j Hi Hj. rewrite K5, H5; auto.
      * lia.
Qed.
Lemma double_sim n il im iu h T P e1 er : 0 <= il <= im -> im <= iu - 2 -> iu < n -> hess (O := ROps) n T -> first_ok il im h T e1 -> (0 <= e1)%R -> (0 <= er)%R ->
  (iu + 1 < n -> (3 * Rabs (T (iu + 1)%Z iu) <= er)%R) ->
  exists G, let S' := doubleF (O := ROps) n il im iu h (T, P) in sim n G T (fst S') (e1 + IZR n * deps + 2 * er) /\ fixes n G iu /\ meq n n (snd S') (mmul n P G) /\
    (forall i j, iu < i < n -> 0 <= j < n -> fst S' i j = T i j).
Proof.
  intros Hil Him Hiu Hh Hf He1 Her Hrow. destruct (chases_sim n il im iu h T P e1 er Hil Him Hiu Hh Hf He1 Her Hrow (iu - im) ltac:(lia) ltac:(lia)) as (G & H1 & H2 & H3 & H4 & H5 & _).
  replace (im + (iu - im)) with iu in * by lia. exists G. cbn zeta in *. unfold doubleF.
  pose proof (chases_band (O := ROps) n il im iu h iu T P ltac:(lia) ltac:(intros i j Hj Hij _; auto)) as B. destruct (chasesF (O := ROps) n il im iu h iu (T, P)) as [T1 P1]. cbn [fst snd] in *.
  split; [|split; [auto|split; [auto|]]].
  - eapply sim_ext; [exact H1|apply meq_refl|apply meq_refl| |].
    + intros i j Hi Hj. unfold lg, cleanF. rops.
      destruct (Z_lt_dec (j + 1) i) as [E|E]; [|zb0; cbn [andb orb]; auto].
      destruct (Z_le_dec im j) as [E1|E1]; [destruct (Z_le_dec i iu) as [E2|E2]; [destruct (Z_le_dec i (j + 3)) as [E3|E3]|]|].
      * zb0; cbn [andb orb]; auto.
      * rewrite (B i j) by lia. rops. zb0; cbn [andb orb]; auto.
      * rewrite (B i j) by lia. rops. zb0; cbn [andb orb]; auto.
      * rewrite (B i j) by lia. rops. zb0; cbn [andb orb]; auto.
    + unfold ctot. replace (Z.max 0 (iu - iu + 2)) with 2 by lia. destruct (Z.eqb_spec iu im); [lia|]. pose proof deps_pos. assert (IZR (iu - im) * deps <= IZR n * deps)%R; [|lra].
      apply Rmult_le_compat_r; [lra|]. apply IZR_le. lia.
  - intros i j Hi Hj. unfold cleanF. zb0; cbn [andb]; apply H5; auto; lia.
Qed.

(** ** Two roots *)
Lemma rot_sim n iu p q T : 1 <= iu < n -> (p * p + q * q = 1)%R -> hess (O := ROps) n T ->
  sim n (rotm (- p) q (iu - 1)) T (rotCF (O := ROps) (iu + 1) iu p q (rotRF (O := ROps) iu p q T))
    ((if 2 <=? iu then 3 * Rabs (T (iu - 1)%Z (iu - 2)%Z) else 0) + (if iu + 1 <? n then 3 * Rabs (T (iu + 1)%Z iu) else 0)).
Proof.
  intros Hi Hpq Hh. assert (Ho : orthogonal n (rotm (- p) q (iu - 1))) by (apply rotm_orth; try lia; lra).
  set (W := rotm (- p) q (iu - 1)) in *. set (T' := rotCF (O := ROps) (iu + 1) iu p q (rotRF (O := ROps) iu p q T)).
  assert (Ap : (Rabs p <= 1)%R). { rewrite <- Rabs_R1. apply Rsqr_le_abs_0. unfold Rsqr. pose proof (Rle_0_sqr q). unfold Rsqr in *. lra. }
  assert (Aq : (Rabs q <= 1)%R). { rewrite <- Rabs_R1. apply Rsqr_le_abs_0. unfold Rsqr. pose proof (Rle_0_sqr p). unfold Rsqr in *. lra. }
  assert (Aq1 : (Rabs (q - 1) <= 2)%R). { eapply Rle_trans; [apply Rabs_triang|]. rewrite Rabs_Ropp, Rabs_R1. lra. }
  split; auto.
  (* compare W^T T W with T' *)
  assert (E0 : nF n (msub T (conj n W T')) = nF n (msub (rot2 (- p) q (iu - 1) T) T')).
  { rewrite <- (nF_conj_sub n W (rot2 (- p) q (iu - 1) T) T') by auto. apply nF_ext. apply meq_msub; [|apply meq_refl].
    eapply meq_trans; [apply meq_sym, conj_id|]. eapply meq_trans; [apply meq_sym, (conj_orth_step n idm W T Ho)|]. apply conj_ext; [intros i j Hi' Hj; apply mmul_1_l; auto|]. apply rot2_mmul; lia. }
  rewrite E0. set (D := msub (rot2 (- p) q (iu - 1) T) T').
  assert (ED : forall i j, 0 <= i < n -> 0 <= j < n -> D i j =
    ((if (2 <=? iu) && (j =? iu - 2) then (if i =? iu - 1 then (q - 1) * T (iu - 1)%Z (iu - 2)%Z else if i =? iu then - p * T (iu - 1)%Z (iu - 2)%Z else 0) else 0) +
     (if (i =? iu + 1) then (if j =? iu - 1 then p * T (iu + 1)%Z iu else if j =? iu then (q - 1) * T (iu + 1)%Z iu else 0) else 0))%R).
  { intros i j Hi' Hj. unfold D, msub, rot2, T', rotCF, rotRF, trm, rotc. rops. replace (iu - 1 + 1) with iu by lia.
    assert (Z1 : forall a, a < iu - 2 -> 0 <= a -> T (iu - 1) a = 0%R) by (intros; apply Hh; lia).
    assert (Z2 : forall a, a < iu - 1 -> 0 <= a -> T iu a = 0%R) by (intros; apply Hh; lia).
    assert (Z3 : forall a b, iu < a < n -> 0 <= b < a - 1 -> T a b = 0%R) by (intros; apply Hh; lia).
    repeat match goal with
      | |- context [?a =? ?b] => destruct (Z.eqb_spec a b); try (exfalso; lia); subst; cbn [andb orb]
      | |- context [?a <? ?b] => destruct (Z.ltb_spec a b); try (exfalso; lia); cbn [andb orb]
      | |- context [?a <=? ?b] => destruct (Z.leb_spec a b); try (exfalso; lia); cbn [andb orb] end;
    try ring;
    try (rewrite ?(Z1 j), ?(Z2 j) by lia; ring);
    try (rewrite ?(Z3 i iu), ?(Z3 i (iu - 1)) by lia; ring);
    try (rewrite ?(Z3 (iu + 1) (iu - 1)), ?(Z2 (iu - 2)) by lia; ring). }
  set (D1 := fun i j => if (2 <=? iu) && (j =? iu - 2) then (if i =? iu - 1 then (q - 1) * T (iu - 1)%Z (iu - 2)%Z else if i =? iu then - p * T (iu - 1)%Z (iu - 2)%Z else 0)%R else 0%R).
  set (D2 := fun i j => if i =? iu + 1 then (if j =? iu - 1 then p * T (iu + 1)%Z iu else if j =? iu then (q - 1) * T (iu + 1)%Z iu else 0)%R else 0%R).
  rewrite (nF_ext n D (madd D1 D2)) by (intros i j Hi' Hj; apply ED; auto). eapply Rle_trans; [apply nF_tri|]. apply Rplus_le_compat.
  - destruct (Z.leb_spec 2 iu).
    + eapply Rle_trans; [apply (nF_col n (iu - 2)); [lia|intros i j Hi' Hj Hne; unfold D1; zb0; cbn [andb]; auto]|].
      rewrite (Rs_pick2 0 n (iu - 1) iu) by (try lia; intros; unfold D1; zb0; cbn [andb]; apply Rabs_R0).
      unfold D1. rewrite !Z.eqb_refl. zb0. cbn [andb]. rewrite !Rabs_mult, Rabs_Ropp. pose proof (Rabs_pos (T (iu - 1)%Z (iu - 2)%Z)) as H0.
      apply Rle_trans with (2 * Rabs (T (iu - 1)%Z (iu - 2)%Z) + 1 * Rabs (T (iu - 1)%Z (iu - 2)%Z))%R; [apply Rplus_le_compat; apply Rmult_le_compat_r; auto|lra].
    + rewrite nF_0; [lra|]. intros. unfold D1. zb0; auto.
  - destruct (Z.ltb_spec (iu + 1) n).
    + eapply Rle_trans; [apply (nF_row n (iu + 1)); [lia|intros i j Hi' Hj Hne; unfold D2; zb0; auto]|].
      rewrite (Rs_pick2 0 n (iu - 1) iu) by (try lia; intros; unfold D2; zb0; apply Rabs_R0).
      unfold D2. rewrite !Z.eqb_refl. zb0. rewrite !Rabs_mult. pose proof (Rabs_pos (T (iu + 1)%Z iu)) as H0.
      apply Rle_trans with (1 * Rabs (T (iu + 1)%Z iu) + 2 * Rabs (T (iu + 1)%Z iu))%R; [apply Rplus_le_compat; apply Rmult_le_compat_r; auto|lra].
    + rewrite nF_0; [lra|]. intros. unfold D2. zb0; auto.
Qed.
Lemma rot_fixes n iu p q m : 1 <= iu < n -> (p * p + q * q = 1)%R -> m < iu - 1 -> fixes n (rotm (- p) q (iu - 1)) m.
Proof.
  intros Hi Hpq Hm e. set (W := rotm (- p) q (iu - 1)). assert (Ho : orthogonal n W) by (apply rotm_orth; try lia; lra).
  eapply meq_trans; [|eapply meq_trans; [apply (conj_orth_step n idm W (dg m e) Ho)|apply conj_id]]. apply conj_ext; [intros i j Hi' Hj; symmetry; apply mmul_1_l; auto|].
  apply meq_sym. eapply meq_trans; [apply rot2_mmul; lia|]. intros i j Hi' Hj. unfold rot2, trm, rotc, dg. replace (iu - 1 + 1) with iu by lia.
  zb0; cbn [andb]; ring.
Qed.

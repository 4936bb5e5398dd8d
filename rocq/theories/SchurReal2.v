(** The Schur transform in exact arithmetic: the error of one double step. *)
From Coq Require Import ZArith List Lia Bool Reals Lra.
From Verif Require Import Base BaseLemmas Scalar Vector Matrix TabTac FSum RealOps RSum House Frob CholFacts Schur SchurFacts SchurFacts2 SchurReal.
Open Scope Z_scope.

(** The table with the entries the double step no longer reads taken as 0. *)
Definition lg (k : Z) (T : Z -> Z -> R) (i j : Z) : R := if (j <=? k - 2) && (j + 2 <=? i) then 0%R else T i j.
Definition bul (n im iu k : Z) (T : Z -> Z -> R) : Prop :=
  forall i j, 0 <= j -> k - 1 <= j -> j + 1 < i < n -> j < im \/ iu < i \/ k < j \/ k + 2 < i -> T i j = 0%R.

Section Core.
Variables (n im iu k : Z) (nl : bool) (p q r : R) (T T1 : Z -> Z -> R).
Hypothesis Him : 0 <= im <= k.
Hypothesis Hk : k < iu.
Hypothesis Hiu : iu < n.
Hypothesis Hnl : nl = negb (k =? iu - 1).
Hypothesis Hr : nl = false -> r = 0%R.
Let s : R := sgnroot (O := ROps) p q r.
Hypothesis Hs : s <> 0%R.
Let p1 := (p + s)%R.
Hypothesis HT1 : forall i j, ~ (i = k /\ j = k - 1) -> T1 i j = T i j.
Hypothesis Hb : bul n im iu k T.
Let G := hG k nl p q r.
Let v := hv k nl p q r.
Let hi := Z.min iu (k + 3) + 1.
Definition coreT : Z -> Z -> R := colsF (O := ROps) hi k nl (q / p1)%R (r / p1)%R (p1 / s)%R (q / s)%R (r / s)%R (rowsF (O := ROps) k nl (q / p1)%R (r / p1)%R (p1 / s)%R (q / s)%R (r / s)%R T1).
Let Rw : Z -> Z -> R := rowsF (O := ROps) k nl (q / p1)%R (r / p1)%R (p1 / s)%R (q / s)%R (r / s)%R T1.
Lemma nl_range : k + (if nl then 2 else 1) <= iu.
Proof. rewrite Hnl. destruct (Z.eqb_spec k (iu - 1)); cbn [negb]; lia. Qed.
Lemma core_n : k + (if nl then 2 else 1) < n.
Proof. pose proof nl_range. lia. Qed.
Lemma v_out i : i < k \/ k + (if nl then 2 else 1) < i -> v i = 0%R.
Proof. intros H. apply vv_0; destruct nl; try lia; intros; lia. Qed.
Lemma Rw_eq i j : 0 <= i < n -> Rw i j = if j <? k then T1 i j else mmul n G T1 i j.
Proof. intros Hi. apply (rows_G n k nl p q r); auto; [lia|apply core_n]. Qed.
Lemma coreT_eq i j : 0 <= j < n -> coreT i j = if hi <=? i then Rw i j else mmul n Rw G i j.
Proof. intros Hj. unfold coreT. apply (cols_G n k nl p q r); auto; [lia|apply core_n]. Qed.
Lemma hi_big : k + (if nl then 2 else 1) < hi.
Proof. pose proof nl_range. unfold hi. destruct nl; lia. Qed.
Lemma Rw_low i j : hi <= i < n -> Rw i j = T1 i j.
Proof.
  intros Hi. pose proof hi_big. assert (0 <= i) by (unfold hi in Hi; lia). rewrite Rw_eq by lia. destruct (Z.ltb_spec j k); auto.
  unfold G. rewrite hG_l by (auto; try lia; apply core_n). fold v. rewrite (v_out i) by (destruct nl; lia). ring.
Qed.
Lemma core_low i j : hi <= i < n -> 0 <= j < n -> coreT i j = T1 i j.
Proof. intros Hi Hj. rewrite coreT_eq by auto. destruct (Z.leb_spec hi i); [|lia]. apply Rw_low; auto. Qed.
Lemma core_left i j : 0 <= i < n -> 0 <= j < k -> coreT i j = T1 i j.
Proof.
  intros Hi Hj. pose proof core_n. rewrite coreT_eq by (destruct nl; lia).
  assert (E : Rw i j = T1 i j) by (rewrite Rw_eq by auto; destruct (Z.ltb_spec j k); [auto|lia]).
  destruct (hi <=? i); auto. unfold G. rewrite hG_r by (auto; try lia; destruct nl; lia). fold v. rewrite (v_out j) by lia. rewrite E. ring.
Qed.
Lemma core_bul : bul n im iu (k + 1) coreT.
Proof.
  intros i j Hj0 Hj Hij Hc. assert (Hh : hi <= i) by (unfold hi; lia). rewrite core_low by lia. rewrite HT1 by lia. apply Hb; lia.
Qed.
Lemma core_kept : iu + 1 < n -> coreT (iu + 1) iu = T (iu + 1) iu.
Proof. intros H. rewrite core_low by (unfold hi; lia). apply HT1. lia. Qed.
Lemma vsum_ext g g' : (forall t, k <= t <= k + (if nl then 2 else 1) -> g t = g' t) -> vsum k nl g = vsum k nl g'.
Proof. intros H. unfold vsum. destruct nl; rewrite ?(H k), ?(H (k + 1)), ?(H (k + 2)) by lia; auto. Qed.
Lemma vsum_0 g : (forall t, k <= t <= k + (if nl then 2 else 1) -> g t = 0%R) -> vsum k nl g = 0%R.
Proof. intros H. rewrite (vsum_ext g (fun _ => 0%R)) by auto. unfold vsum. destruct nl; ring. Qed.
Let L := lg k T.
Let GLG := mmul n (mmul n G L) G.
Let D := msub GLG (lg (k + 1) coreT).
Lemma GLG_left i j : 0 <= i < n -> 0 <= j < k -> GLG i j = mmul n G L i j.
Proof. intros Hi Hj. pose proof core_n. unfold GLG, G. rewrite hG_r by (auto; try lia; destruct nl; lia). fold v. rewrite (v_out j) by lia. ring. Qed.
Lemma D_far i j : 0 <= i < n -> 0 <= j < k - 1 -> D i j = 0%R.
Proof.
  intros Hi Hj. unfold D, msub. rewrite GLG_left by lia. unfold G. rewrite hG_l by (auto; try lia; apply core_n). fold v.
  rewrite vsum_0. 2:{ intros t Ht. unfold L, lg. destruct (Z.leb_spec j (k - 2)); [|lia]. destruct (Z.leb_spec (j + 2) t); [|lia]. cbn [andb]. ring. }
  unfold lg. rewrite core_left by lia. rewrite HT1 by lia. unfold L, lg. zb0; cbn [andb]; ring.
Qed.
Lemma GL_right i t : 0 <= i < n -> k <= t -> mmul n G L i t = Rw i t.
Proof.
  intros Hi Ht. rewrite Rw_eq by auto. destruct (Z.ltb_spec t k); [lia|]. apply mmul_ext; auto. intros a Ha. unfold L, lg. destruct (Z.leb_spec t (k - 2)); [lia|]. cbn [andb]. symmetry. apply HT1. lia.
Qed.
Lemma D_right i j : 0 <= i < n -> k <= j < n -> D i j = if hi <=? i then (- ((p1 / s) * vsum k nl (fun t => T i t * v t) * v j))%R else 0%R.
Proof.
  intros Hi Hj. unfold D, msub. assert (E : lg (k + 1) coreT i j = coreT i j) by (unfold lg; destruct (Z.leb_spec j (k + 1 - 2)); [lia|auto]). rewrite E.
  rewrite coreT_eq by lia. assert (E2 : GLG i j = mmul n Rw G i j).
  { unfold GLG, G. rewrite !hG_r by (auto; try lia; apply core_n). fold G v. rewrite GL_right by lia. f_equal. f_equal. f_equal. apply vsum_ext. intros t Ht. rewrite GL_right by lia. auto. }
  rewrite E2. destruct (Z.leb_spec hi i); [|ring]. unfold G. rewrite hG_r by (auto; try lia; apply core_n). fold v s. fold p1.
  rewrite (vsum_ext (fun t => Rw i t * v t)%R (fun t => T i t * v t)%R); [ring|]. intros t Ht. rewrite Rw_low by lia. rewrite HT1 by lia. auto.
Qed.
Lemma D_low i j : 0 <= i < n -> k <= j < n -> ~ (i = iu + 1 /\ iu <= k + 2) -> D i j = 0%R.
Proof.
  intros Hi Hj Hn. rewrite D_right by auto. destruct (Z.leb_spec hi i) as [Hh|]; auto. rewrite vsum_0; [ring|]. intros t Ht.
  pose proof nl_range. rewrite Hb; [ring|lia|lia| |]; unfold hi in Hh; destruct nl; lia.
Qed.
Lemma abs_v j : (Rabs (v j) <= 1)%R.
Proof.
  unfold v, hv, vv. pose proof (abs_p1_s p q r) as A. pose proof (abs_s_q p q r). pose proof (abs_s_r p q r).
  assert (p + sgnroot (O := ROps) p q r <> 0)%R by (apply p1_nz; auto).
  destruct (j =? k); [rewrite Rabs_R1; lra|]. destruct (j =? k + 1); [apply div_le1; auto; lra|]. destruct (nl && (j =? k + 2)); [apply div_le1; auto; lra|rewrite Rabs_R0; lra].
Qed.
Lemma vsum_abs g b : (forall t, (Rabs (g t) <= b)%R) -> (Rabs (vsum k nl g) <= 3 * b)%R.
Proof.
  intros H. pose proof (H k). pose proof (H (k + 1)). pose proof (H (k + 2)). pose proof (Rabs_pos (g k)). unfold vsum. destruct nl.
  - eapply Rle_trans; [apply Rabs_triang|]. pose proof (Rabs_triang (g k) (g (k + 1)%Z)). lra.
  - eapply Rle_trans; [apply Rabs_triang|]. lra.
Qed.
(** the last row *)
Lemma D_row : iu + 1 < n -> (Rs 0 n (fun j => Rabs (if k <=? j then D (iu + 1) j else 0)) <= 3 * Rabs (T (iu + 1)%Z iu))%R.
Proof.
  intros Hn. assert (Hh : hi <= iu + 1) by (unfold hi; lia).
  set (c := (p1 / s * vsum k nl (fun t => T (iu + 1)%Z t * v t))%R).
  assert (Ec : (Rabs c <= Rabs (T (iu + 1)%Z iu))%R).
  { unfold c. assert (Hp1 : p1 <> 0%R) by (apply p1_nz; auto). assert (Hv : (p1 / s * (q / p1) = q / s)%R) by (field; auto). assert (Hv2 : (p1 / s * (r / p1) = r / s)%R) by (field; auto).
    assert (Hz : forall t, k <= t < iu -> T (iu + 1) t = 0%R) by (intros t Ht; apply Hb; lia). pose proof nl_range as Hr2.
    pose proof (abs_s_q p q r). pose proof (abs_s_r p q r). pose proof (Rabs_pos (T (iu + 1)%Z iu)).
    assert (Hm : forall y, (Rabs (y / s) <= 1 -> Rabs (T (iu + 1)%Z iu * (y / s)) <= Rabs (T (iu + 1)%Z iu))%R).
    { intros y Hy. rewrite Rabs_mult. rewrite <- (Rmult_1_r (Rabs (T (iu + 1)%Z iu))) at 2. apply Rmult_le_compat_l; auto. }
    unfold vsum, v, hv. fold s. fold p1. destruct nl.
    - rewrite vv_k, vv_k1, vv_k2. rewrite (Hz k), (Hz (k + 1)) by lia. destruct (Z.eq_dec (k + 2) iu) as [E|E].
      + rewrite E. replace (p1 / s * (0 * 1 + 0 * (q / p1) + T (iu + 1)%Z iu * (r / p1)))%R with (T (iu + 1)%Z iu * (r / s))%R by (rewrite <- Hv2; ring). apply Hm. apply div_le1; auto.
      + rewrite (Hz (k + 2)) by lia. replace (p1 / s * _)%R with 0%R by ring. rewrite Rabs_R0. auto.
    - rewrite vv_k, vv_k1. rewrite (Hz k) by lia. assert (E : k + 1 = iu). { destruct (Z.eqb_spec k (iu - 1)); cbn [negb] in Hnl; [lia|discriminate]. }
      rewrite E. replace (p1 / s * _)%R with (T (iu + 1)%Z iu * (q / s))%R by (rewrite <- Hv; ring). apply Hm. apply div_le1; auto. }
  pose proof core_n as Hcn.
  assert (E : forall j, 0 <= j < n -> Rabs (if k <=? j then D (iu + 1) j else 0%R) = (Rabs c * Rabs (v j))%R).
  { intros j Hj. destruct (Z.leb_spec k j).
    - rewrite D_right by lia. destruct (Z.leb_spec hi (iu + 1)); [|lia]. fold c. rewrite Rabs_Ropp, Rabs_mult. auto.
    - rewrite (v_out j) by lia. rewrite Rabs_R0. ring. }
  rewrite (Rs_ext 0 n _ _ E), Rs_scal_l. rewrite (Rs_vsum n k nl) by (auto; try lia; intros; unfold v, hv; rewrite vv_0 by auto; apply Rabs_R0).
  pose proof (vsum_abs (fun j => Rabs (v j)) 1 ltac:(intros t; cbv beta; rewrite Rabs_Rabsolu; apply abs_v)) as K. pose proof (Rle_abs (vsum k nl (fun j => Rabs (v j)))) as K2. pose proof (Rabs_pos c).
  apply Rle_trans with (Rabs c * 3)%R; [apply Rmult_le_compat_l; lra|lra].
Qed.
(** column k - 1 *)
Let w := vsum k nl (fun t => v t * T t (k - 1)%Z)%R.
Definition colerr : R := vsum k nl (fun t => Rabs (T t (k - 1)%Z - (p1 / s) * w * v t - (if t =? k then T1 k (k - 1)%Z else 0)))%R.
Lemma D_col : 1 <= k -> Rs 0 n (fun i => Rabs (D i (k - 1)%Z)) = colerr.
Proof.
  intros Hk1. pose proof core_n as Hcn.
  assert (E : forall i, 0 <= i < n -> D i (k - 1) = (T i (k - 1)%Z - (p1 / s) * w * v i - (if i <=? k then T1 i (k - 1)%Z else 0))%R).
  { intros i Hi. unfold D, msub. rewrite GLG_left by lia. unfold G. rewrite hG_l by (auto; try lia). fold v s. fold p1.
    rewrite (vsum_ext (fun t => v t * L t (k - 1)%Z)%R (fun t => v t * T t (k - 1)%Z)%R). 2:{ intros t Ht. unfold L, lg. zb0; auto. } fold w.
    replace (L i (k - 1)) with (T i (k - 1)) by (unfold L, lg; zb0; auto). f_equal. unfold lg. rewrite core_left by lia. destruct (Z.leb_spec (k - 1) (k + 1 - 2)); [|lia]. zb0; cbn [andb]; auto. }
  assert (Z0 : forall i, 0 <= i < n -> i <> k -> i <> k + 1 -> (nl = true -> i <> k + 2) -> Rabs (D i (k - 1)%Z) = 0%R).
  { intros i Hi H1 H2 H3. rewrite E by auto. unfold v, hv. rewrite vv_0 by auto. destruct (Z.leb_spec i k) as [H4|H4].
    - rewrite HT1 by lia. replace (_ - _ - _)%R with 0%R by ring. apply Rabs_R0.
    - rewrite (Hb i (k - 1)). 2-3: lia. 2: lia. 2:{ rewrite Hnl in H3. destruct (Z.eqb_spec k (iu - 1)); cbn [negb] in H3; [lia|]. specialize (H3 eq_refl). lia. }
      replace (_ - _ - _)%R with 0%R by ring. apply Rabs_R0. }
  rewrite (Rs_vsum n k nl) by (auto; lia).
  unfold colerr. apply vsum_ext. intros t Ht. rewrite E by (destruct nl; lia). f_equal. f_equal. zb0; auto. rewrite e. auto.
Qed.
Theorem core_sim ec er : (0 <= ec)%R -> (0 <= er)%R -> (1 <= k -> (colerr <= ec)%R) -> (iu + 1 < n -> iu <= k + 2 -> (3 * Rabs (T (iu + 1)%Z iu) <= er)%R) ->
  sim n G L (lg (k + 1) coreT) (ec + er) /\ fixes n G iu.
Proof.
  intros He1 He2 Hc Hrow. split; [|apply hG_fixes; auto; try lia; [apply core_n|apply nl_range]]. apply sim_sym; [apply hG_orth; auto; try lia; apply core_n|apply hG_sym|]. fold GLG D.
  set (Dc := fun i j => if j =? k - 1 then D i j else 0%R). set (Dr := fun i j => if (i =? iu + 1) && (iu <=? k + 2) then (if k <=? j then D i j else 0%R) else 0%R).
  assert (E : meq n n D (madd Dc Dr)).
  { intros i j Hi Hj. unfold madd, Dc, Dr. destruct (Z.eqb_spec j (k - 1)) as [->|N].
    - destruct ((i =? iu + 1) && _); zb0; ring.
    - destruct (Z_lt_dec j k); [rewrite D_far by lia; destruct ((i =? iu + 1) && _); zb0; ring|].
      destruct (Z.eqb_spec i (iu + 1)), (Z.leb_spec iu (k + 2)); cbn [andb]; [zb0; ring| | |]; rewrite D_low by lia; ring. }
  rewrite (nF_ext _ _ _ E). eapply Rle_trans; [apply nF_tri|]. apply Rplus_le_compat.
  - destruct (Z_le_dec 1 k) as [H1|H1].
    + eapply Rle_trans; [apply (nF_col n (k - 1)); [lia|]|].
      * intros i j Hi Hj Hne. unfold Dc. zb0; auto.
      * rewrite (Rs_ext 0 n _ (fun i => Rabs (D i (k - 1)))) by (intros; unfold Dc; rewrite Z.eqb_refl; auto). rewrite D_col by auto. apply Hc; auto.
    + rewrite nF_0; auto. intros i j Hi Hj. unfold Dc. zb0; auto.
  - destruct (Z_lt_dec (iu + 1) n) as [H1|H1]; [destruct (Z_le_dec iu (k + 2)) as [H2|H2]|].
    + eapply Rle_trans; [apply (nF_row n (iu + 1)); [lia|]|].
      * intros i j Hi Hj Hne. unfold Dr. zb0; auto.
      * eapply Rle_trans; [|apply Hrow; auto]. eapply Rle_trans; [|apply D_row; auto]. apply Req_le. apply Rs_ext. intros j Hj. unfold Dr. rewrite Z.eqb_refl. destruct (Z.leb_spec iu (k + 2)); [auto|lia].
    + rewrite nF_0; auto. intros i j Hi Hj. unfold Dr. zb0; auto.
    + rewrite nF_0; auto. intros i j Hi Hj. unfold Dr. zb0; auto.
Qed.
End Core.

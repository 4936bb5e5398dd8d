(** One reflection of the bidiagonal transform in float64. *)
From Coq Require Import ZArith List Reals Lia Lra Psatz Bool Floats.SpecFloat FunctionalExtensionality.
From Flocq Require Import Core BinarySingleNaN.
From Verif Require Import Base BaseLemmas Scalar Float64 VecSpec RealOps RSum House RealVec TabTac FSum QRSpec QRFacts QRReal RndSpec FloatR RndSum RndTri RndHouse RndRefl RndApply RndQRSpec RndQR SVDSpecR RndFrob TridiagFacts BidiagFacts.
Open Scope Z_scope.

(** Multiplying by -1 is changing the sign. *)
Lemma mul_m1_eq y : sf_valid y = true -> sf_mul y (SFopp (sf_of_Z 1)) = SFopp y.
Proof.
  intros Vy. destruct y as [s|s| |s q e]; try (destruct s; reflexivity); try reflexivity. set (y := S754_finite s q e) in *.
  destruct (mul_m1 y (Logic.conj Vy eq_refl)) as [[Vr Fr] Er]. pose proof (opp_num _ num_one) as [V1 _]. set (o := SFopp (sf_of_Z 1)) in *.
  destruct (to_bf y Vy) as [b Eb]. destruct (to_bf o V1) as [b1 Eb1]. assert (Eo : SFopp y = B2SF (Bopp b)) by (rewrite <- Eb; destruct b; reflexivity).
  rewrite Eo. rewrite <- Eb, <- Eb1, mul_eq in *. f_equal. rewrite of_bf_fin in Fr. rewrite !of_bf_R in Er.
  assert (Fb : is_finite b = true) by (rewrite <- of_bf_fin, Eb; reflexivity).
  apply B2R_Bsign_inj; auto; [rewrite is_finite_Bopp; auto|rewrite B2R_Bopp; auto|].
  pose proof (Bmult_correct 53 1024 Hprec Hmax mode_NE b b1) as K. destruct (Rlt_bool _ _).
  - destruct K as (_ & _ & K). rewrite K by (destruct (Bmult mode_NE b b1); try discriminate; reflexivity). rewrite Bsign_Bopp by (destruct b; try discriminate; reflexivity).
    assert (S1 : Bsign b1 = true) by (destruct b1; cbn in Eb1; try discriminate; injection Eb1; auto). rewrite S1. destruct (Bsign b); reflexivity.
  - exfalso. rewrite <- of_bf_fin, K, overflow_inf in Fr. discriminate.
Qed.

Section Step.
Variables (pf m : Z).
Notation SO := (SFOps pf).
Hypothesis Hm : 1 <= m.
Hypothesis Hkap : (kap m <= / 1024)%R.
Lemma norm_valid x k : (forall r, k <= r < m -> sf_valid (x r) = true) -> sf_valid (hh_norm (O := SO) m x k) = true.
Proof. intros H. unfold hh_norm. apply sqrt_valid. apply (fadds_valid pf m m). intros. apply mul_valid; auto. Qed.
Lemma hh_valid x k : (forall r, k <= r < m -> sf_valid (x r) = true) -> sf_valid (hh_a (O := SO) m x k) = true.
Proof. intros H. pose proof (norm_valid x k H). unfold hh_a. destruct (fgt _ _); auto. apply mul_valid; auto. Qed.
Lemma bh_a_hh x k : (forall r, k <= r < m -> sf_valid (x r) = true) -> bh_a (O := SO) m x k = hh_a (O := SO) m x k.
Proof.
  intros H. unfold bh_a, hh_a. destruct (fgt _ _); auto. symmetry. apply mul_m1_eq. apply norm_valid; auto.
Qed.
Lemma bh_v_hh x k : (forall r, k <= r < m -> sf_valid (x r) = true) -> bh_v (O := SO) m x k = hh_v (O := SO) m x k.
Proof. intros H. apply functional_extensionality. intros r. unfold bh_v, hh_v. rewrite bh_a_hh by auto. auto. Qed.
Lemma bh_alpha_hh x z k : (forall r, k <= r < m -> sf_valid (x r) = true) -> bh_alpha (O := SO) m x z k = hh_alpha (O := SO) m x z k.
Proof. intros H. unfold bh_alpha, hh_alpha. rewrite bh_a_hh, bh_v_hh by auto. auto. Qed.
Lemma col_fin x k : (forall r, k <= r < m -> sf_valid (x r) = true) -> isfin (hh_a (O := SO) m x k) = true -> forall r, k <= r < m -> num (x r).
Proof.
  intros Hv H r Hr. split; auto. apply a_fin_nh in H. assert (V : sf_valid (fadds (O := SO) (sf_zero : @F SO) k m (fun r => sf_mul (x r) (x r))) = true) by (apply (fadds_valid pf m m); intros; apply mul_valid; auto).
  pose proof (sqrt_fin_arg _ V H) as H1. pose proof (fadds_fin pf m m k m _ H1 r Hr) as H2. apply (sf_mul_fin _ _ H2).
Qed.
(** The exact reflection. *)
Definition Pa (k : Z) (x : Z -> sf) : Z -> Z -> R := if @feq SO (hh_a (O := SO) m x k) (@fzero SO) then idm else rP m k (hh_v (O := SO) m x k).
Lemma Pa_orth k x : orthogonal m (Pa k x). Proof. unfold Pa. destruct (feq _ _); [apply orth_id|apply rP_orth]. Qed.
Lemma Pa_sym k x i j : Pa k x i j = Pa k x j i.
Proof. unfold Pa. destruct (feq _ _); [|apply rP_sym]. unfold idm. rewrite Z.eqb_sym. auto. Qed.

Section One.
Variables (n i0 j0 : Z) (M : Z -> Z -> sf) (Y Y' : Z -> Z -> R).
Hypothesis Hi : 0 <= i0 < m.
Hypothesis Hj : 0 <= j0 < n.
Let x := fun r => M r j0.
Notation a := (hh_a (O := SO) m x i0).
Notation v := (hh_v (O := SO) m x i0).
Notation M' := (bc_M (O := SO) m i0 j0 M).
Hypothesis VM : forall r j, i0 <= r < m -> j0 <= j < n -> sf_valid (M r j) = true.
Hypothesis Fa : isfin a = true.
Hypothesis Ra : fR a <> 0%R -> (b2 (-450) <= Rabs (fR a) <= b2 511)%R.
Hypothesis FM : forall r j, i0 <= r < m -> j0 < j < n -> isfin (M' r j) = true.
Hypothesis Ylow : forall r j, 0 <= r < m -> 0 <= j < j0 -> Y' r j = Y r j.
Hypothesis Yz : forall r j, i0 <= r < m -> 0 <= j < j0 -> Y r j = 0%R.
Hypothesis Ytop : forall r j, 0 <= r < i0 -> 0 <= j < n -> Y' r j = Y r j.
Hypothesis YM : forall r j, i0 <= r < m -> j0 <= j < n -> Y r j = fR (M r j).
Hypothesis YM' : forall r j, i0 <= r < m -> j0 < j < n -> Y' r j = fR (M' r j).
Hypothesis Ya : forall r, i0 <= r < m -> Y' r j0 = if r =? i0 then fR a else 0%R.
Lemma x_valid r : i0 <= r < m -> sf_valid (x r) = true. Proof. intros. apply VM; lia. Qed.
Lemma x_num r : i0 <= r < m -> num (x r). Proof. apply (col_fin x i0 x_valid Fa). Qed.
Lemma a_num : num a. Proof. split; auto. apply hh_valid. apply x_valid. Qed.
Lemma refl_step j : 0 <= j < n -> (vlen m (fun r => Y' r j - mvec m (Pa i0 x) (fun r => Y r j) r) <= 10 * kap m * vlen m (fun r => Y r j) + omg m)%R.
Proof.
  intros Hjn. pose proof (omg_pos m Hm) as Po. pose proof (vlen_pos m (fun r => Y r j)) as Py. pose proof (kap_u m Hm) as Ku. pose proof ulp2_pos as Pu.
  assert (Z0 : (0 <= 10 * kap m * vlen m (fun r => Y r j) + omg m)%R) by nra.
  pose proof (feq_zero pf a a_num) as Zq.
  destruct (Z_lt_ge_dec j j0) as [L|L].
  - rewrite vlen_zero; auto. intros r Hr. rewrite Ylow by lia. assert (Ep : mvec m (Pa i0 x) (fun r => Y r j) r = Y r j); [|rewrite Ep; ring].
    unfold Pa. destruct (feq _ _); [rewrite mvec_1 by auto; auto|]. unfold rP. rewrite refl_vec by auto. rewrite (Rs_zero 0 m); [unfold Rdiv; ring|]. intros i Hi'. unfold cut. destruct (Z.ltb_spec i i0); [ring|]. rewrite Yz by lia. ring.
  - destruct (Z.eq_dec j j0) as [->|Nj].
    + assert (E1 : forall r, 0 <= r < m -> Y' r j0 = (if r <? i0 then Y r j0 else if r =? i0 then fR a else 0)%R).
      { intros r Hr. destruct (Z.ltb_spec r i0); [apply Ytop; lia|apply Ya; lia]. }
      unfold Pa. destruct (@feq SO a (@fzero SO)) eqn:Ef.
      * assert (E0 : fR a = 0%R) by (apply Zq; auto). pose proof (a_zero pf m Hm Hkap i0 ltac:(lia) x x_num Fa E0) as K. fold (omg m) in K.
        rewrite (vlen_ext m _ (fun r => - cut i0 x r)%R).
        2:{ intros r Hr. rewrite mvec_1, E1 by auto. unfold cut. destruct (Z.ltb_spec r i0); [ring|]. rewrite YM by lia. fold (x r). destruct (r =? i0); rewrite ?E0; ring. }
        replace (vlen m (fun r => - cut i0 x r)%R) with (vlen m (cut i0 x)); [|unfold vlen; f_equal; apply Rs_ext; intros; ring].
        unfold vlen at 1. rewrite cut_dot by lia. rewrite (Rs_ext i0 m _ (fun r => fR (x r) * fR (x r))%R).
        2:{ intros r Hr. unfold cut. rewrite (proj2 (Z.ltb_ge r i0)) by lia. auto. }
        eapply Rle_trans; [exact K|]. nra.
      * assert (E0 : fR a <> 0%R) by (intros E; apply Zq in E; congruence). destruct (Ra E0) as [La Ua].
        pose proof (own_column pf m Hm Hkap i0 ltac:(lia) x x_num Fa La Ua (fun r => Y r j0) ltac:(intros; apply YM; lia)) as K.
        rewrite (vlen_ext m _ (fun r => (if r <? i0 then Y r j0 else if r =? i0 then fR a else 0) - mvec m (rP m i0 v) (fun r => Y r j0) r)%R) by (intros; rewrite E1 by auto; auto).
        eapply Rle_trans; [exact K|]. nra.
    + unfold Pa. destruct (@feq SO a (@fzero SO)) eqn:Ef.
      * rewrite vlen_zero; auto. intros r Hr. rewrite mvec_1 by auto. destruct (Z_lt_ge_dec r i0); [rewrite Ytop by lia; ring|]. rewrite YM', YM by lia. unfold bc_M. fold x. rewrite bh_a_hh by apply x_valid. rewrite Ef. ring.
      * assert (E0 : fR a <> 0%R) by (intros E; apply Zq in E; congruence).
        apply (form_sub pf m Hm Hkap i0 v (sf_mul a (v i0)) (fun r => M r j) (fun r => M' r j) (fun r => Y r j) (fun r => Y' r j) ltac:(lia)).
        -- apply hh_good; auto. apply x_num.
        -- intros. apply VM; lia.
        -- intros. apply FM; lia.
        -- intros. apply YM; lia.
        -- intros. apply YM'; lia.
        -- intros. apply Ytop; lia.
        -- intros r Hr. unfold bc_M. fold x. rewrite bh_a_hh, bh_v_hh, bh_alpha_hh by apply x_valid. rewrite Ef, (proj2 (Z.eqb_neq j j0)), (proj2 (Z.ltb_lt j0 j)), (proj2 (Z.leb_le i0 r)) by lia. reflexivity.
Qed.
Lemma refl_step_frob : 1 <= n -> (frob m n (fun i j => Y' i j - mmul m (Pa i0 x) Y i j) <= 10 * kap m * frob m n Y + IZR n * omg m)%R.
Proof.
  intros Hn. pose proof (omg_pos m Hm). pose proof (kap_u m Hm). pose proof ulp2_pos. apply frob_col_le; [lia|lra|lra|]. intros j Hj'. exact (refl_step j Hj').
Qed.
(** Validity and finiteness of the table. *)
Lemma M'_valid r j : i0 <= r < m -> j0 <= j < n -> sf_valid (M' r j) = true.
Proof.
  intros Hr Hj'. unfold bc_M. fold x. rewrite bh_a_hh, bh_v_hh, bh_alpha_hh by apply x_valid. pose proof (hh_valid x i0 x_valid) as Va.
  assert (Vv : forall r, i0 <= r < m -> sf_valid (v r) = true).
  { intros r' Hr'. unfold hh_v. destruct (feq _ _); [apply x_valid; auto|]. destruct (r' =? i0); [apply sub_valid; [apply x_valid; lia|exact Va]|apply x_valid; auto]. }
  destruct (feq _ _); [apply VM; lia|]. destruct (j =? j0); [apply Vv; auto|]. destruct (_ && _); [|apply VM; lia].
  apply sub_valid; [apply VM; lia|]. apply mul_valid; [|apply Vv; auto]. unfold hh_alpha. apply div_valid.
  - apply (fsubl_valid pf m m). intros. apply mul_valid; [apply VM; lia|apply Vv; lia].
  - apply mul_valid; [exact Va|apply Vv; lia].
Qed.
Lemma M_fin_back r j : j <> j0 -> isfin (M' r j) = true -> isfin (M r j) = true.
Proof.
  intros Nj. unfold bc_M. fold x. destruct (feq _ _); auto. rewrite (proj2 (Z.eqb_neq j j0)) by auto. destruct (_ && _); auto. intros F. apply (sf_sub_fin _ _ F).
Qed.
End One.
End Step.

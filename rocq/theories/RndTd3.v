(** One step of the tridiagonal transform in float64: the whole matrix. *)
From Coq Require Import ZArith List Reals Lia Lra Psatz Bool Floats.SpecFloat QArith FunctionalExtensionality.
From Flocq Require Import Core BinarySingleNaN.
From Verif Require Import Base BaseLemmas Scalar Float64 VecSpec RealOps RSum House RealVec TabTac FSum CholFacts QRSpec QRFacts QRReal RndSpec FloatR RndSum RndTri RndHouse RndRefl RndApply RndQRSpec RndQR SVDSpecR RndFrob TridiagFacts BidiagFacts RndBidiag RndTd RndTd2.
Open Scope Z_scope.

Section TdOne.
Variables (pf m k : Z).
Notation SO := (SFOps pf).
Hypothesis Hm : 1 <= m.
Hypothesis Hkap : (kap m <= / 1024)%R.
Hypothesis Hk : 0 <= k < m - 1.
Variables (M : Z -> Z -> sf) (Y Y' : Z -> Z -> R).
Notation k0 := (k + 1).
Notation a := (td_a (O := SO) m M k).
Notation v := (td_v (O := SO) m M k).
Notation beta := (td_beta (O := SO) m M k).
Notation z1 := (td_z1 (O := SO) m M k).
Notation gamma := (td_gamma (O := SO) m M k).
Notation z2 := (td_z2 (O := SO) m M k).
Notation M' := (td_M (O := SO) m M k).
Hypothesis VM : forall i j, k <= i <= j -> j < m -> sf_valid (M i j) = true.
Hypothesis Fa : isfin a = true.
Hypothesis Ra : fR a <> 0%R -> (b2 (-450) <= Rabs (fR a) <= b2 500)%R.
Hypothesis FM : forall i j, k < i <= j -> j < m -> isfin (M' i j) = true.

Lemma t_xv r : k0 <= r < m -> sf_valid (M k r) = true. Proof. intros. apply VM; lia. Qed.
Lemma t_xnum r : k0 <= r < m -> num (M k r). Proof. apply (col_fin pf m (M k) k0 t_xv Fa). Qed.
Lemma t_anum : num a. Proof. split; auto. apply hh_valid. apply t_xv. Qed.
Lemma t_vv r : k0 <= r < m -> sf_valid (v r) = true.
Proof.
  intros Hr. unfold td_v, hh_v. destruct (feq _ _); [apply t_xv; auto|]. destruct (r =? k0); [apply sub_valid; [apply t_xv; lia|exact (proj1 t_anum)]|apply t_xv; auto].
Qed.
Lemma t_feq : @feq SO a (@fzero SO) = true <-> fR a = 0%R. Proof. apply (feq_zero pf a t_anum). Qed.
Lemma t_betav : sf_valid beta = true.
Proof. unfold td_beta. apply div_valid; [reflexivity|]. apply mul_valid; [apply t_anum|apply t_vv; lia]. Qed.
Lemma fadds_valid2 (x : sf) lo hi (g : Z -> sf) : sf_valid x = true -> (forall i, lo <= i < hi -> sf_valid (g i) = true) -> sf_valid (fadds (O := SO) (x : @F SO) lo hi g) = true.
Proof.
  intros Hx Hg. unfold fadds. assert (H : forall n, (Z.of_nat n <= hi - lo)%Z -> sf_valid (accum (fun t s => @fadd SO s (g (lo + t)%Z)) n x) = true); [|destruct (Z_le_gt_dec lo hi); [apply H; lia|replace (Z.to_nat (hi - lo)) with 0%nat by lia; exact Hx]].
  induction n as [|n IH]; intros Hn; cbn [accum]; [exact Hx|]. apply add_valid; [apply IH; lia|apply Hg; lia].
Qed.
Lemma t_z1v i : k0 <= i < m -> sf_valid (z1 i) = true.
Proof.
  intros Hi. unfold td_z1. apply mul_valid; [apply t_betav|]. apply add_valid; apply fadds_valid2; try reflexivity; intros; apply mul_valid; try (apply VM; lia); apply t_vv; lia.
Qed.
Lemma t_gv : sf_valid gamma = true.
Proof.
  unfold td_gamma. apply mul_valid; [apply fadds_valid2; [reflexivity|]; intros; apply mul_valid; [apply t_z1v; auto|apply t_vv; auto]|]. apply div_valid; [apply t_betav|apply two_num].
Qed.
Lemma t_z2v i : k0 <= i < m -> sf_valid (z2 i) = true.
Proof. intros Hi. unfold td_z2. apply sub_valid; [apply t_z1v; auto|apply mul_valid; [apply t_gv|apply t_vv; auto]]. Qed.
Lemma t_Mv i j : k <= i <= j -> j < m -> sf_valid (M' i j) = true.
Proof.
  intros Hi Hj. unfold td_M. destruct (Z.eqb_spec i k) as [->|Hn].
  - destruct (Z.eq_dec j k) as [->|]; [|apply t_vv; lia]. unfold td_v, hh_v. destruct (feq _ _); [|rewrite (proj2 (Z.eqb_neq k k0)) by lia]; apply VM; lia.
  - destruct (feq _ _); [apply VM; lia|]. destruct (_ && _); [|apply VM; lia]. apply sub_valid; [apply VM; lia|]. apply add_valid; apply mul_valid; try (apply t_vv; lia); apply t_z2v; lia.
Qed.
Lemma t_Mback i j : k < i <= j -> isfin (M' i j) = true -> isfin (M i j) = true.
Proof.
  intros Hi. unfold td_M. rewrite (proj2 (Z.eqb_neq i k)) by lia. destruct (feq _ _); auto. rewrite (proj2 (Z.ltb_lt k i)), (proj2 (Z.leb_le i j)) by lia. cbn [andb]. intros F. apply (sf_sub_fin _ _ F).
Qed.
Lemma t_Mnum i j : k < i <= j -> j < m -> num (M i j).
Proof. intros Hi Hj. split; [apply VM; lia|]. apply t_Mback; auto. Qed.

Section NonZero.
Hypothesis Ha : fR a <> 0%R.
Let La := proj1 (Ra Ha).
Let Ua := proj2 (Ra Ha).
Lemma t_good : good m k0 v (sf_mul a (v k0)).
Proof. apply (hh_good pf m Hm Hkap k0 (M k)); [lia|exact t_xnum|exact Fa|]. split; [exact La|]. eapply Rle_trans; [exact Ua|]. apply bpow_le. lia. Qed.
Notation vr := (cut k0 v).
Let V := dot m vr vr.
Let L := vlen m vr.
Lemma t_vnum r : k0 <= r < m -> num (v r). Proof. destruct t_good as (N & _). apply N. Qed.
Lemma t_upd i j : k < i <= j -> M' i j = sf_sub (M i j) (sf_add (sf_mul (v i) (z2 j)) (sf_mul (z2 i) (v j))).
Proof.
  intros Hi. unfold td_M. rewrite (proj2 (Z.eqb_neq i k)) by lia. destruct (@feq SO a (@fzero SO)) eqn:E; [apply t_feq in E; contradiction|]. rewrite (proj2 (Z.ltb_lt k i)), (proj2 (Z.leb_le i j)) by lia. reflexivity.
Qed.
Lemma t_fins i : k < i < m -> num (z2 i) /\ num (z1 i) /\ num gamma /\ num beta /\ isfin (td_beta (O := SO) m M k) = true.
Proof.
  intros Hi. pose proof (FM i i ltac:(lia) ltac:(lia)) as F. rewrite t_upd in F by lia. apply sf_sub_fin in F as [_ F]. apply sf_add_fin in F as [F _]. apply sf_mul_fin in F as [_ F].
  pose proof F as F0. unfold td_z2 in F0. apply sf_sub_fin in F0 as [F1 F2]. apply sf_mul_fin in F2 as [F2 _]. pose proof F1 as F3. unfold td_z1 in F3. apply sf_mul_fin in F3 as [F3 _].
  repeat split; auto; [apply t_z2v; lia|apply t_z1v; lia|apply t_gv|apply t_betav].
Qed.
Lemma t_V : (0 < V)%R /\ (19 / 10 * (Rabs (fR a) * Rabs (fR a)) <= V <= 43 / 10 * (Rabs (fR a) * Rabs (fR a)))%R.
Proof.
  assert (Ua' : (Rabs (fR a) <= b2 511)%R) by (eapply Rle_trans; [exact Ua|]; apply bpow_le; lia).
  pose proof (V_bounds pf m Hm Hkap k0 ltac:(lia) (M k) t_xnum Fa La Ua') as B. pose proof (V_pos pf m Hm Hkap k0 ltac:(lia) (M k) t_xnum Fa La Ua') as P. split; [exact P|exact B].
Qed.
Let b0 := (2 / V)%R.
Lemma t_b0 : (b2 (-1003) <= b0)%R.
Proof.
  destruct t_V as [P [_ B]]. pose proof (Rabs_pos (fR a)). assert (A : (Rabs (fR a) * Rabs (fR a) <= b2 500 * b2 500)%R) by (apply Rmult_le_compat; auto). rewrite <- bpow_plus in A. change (500 + 500) with 1000 in A.
  unfold b0. apply (Rmult_le_reg_r V); auto. unfold Rdiv. rewrite Rmult_assoc, Rinv_l, Rmult_1_r by lra. apply Rle_trans with (b2 (-1003) * (8 * b2 1000))%R.
  - apply Rmult_le_compat_l; [apply bpow_ge_0|]. pose proof (bpow_gt_0 radix2 1000). lra.
  - rewrite (Rmult_comm 8), <- Rmult_assoc, <- bpow_plus. change (b2 (-1003 + 1000)) with (/ 8)%R. lra.
Qed.
Lemma t_tiny : (tiny <= / 1000 * ulp2 * b0)%R.
Proof.
  pose proof t_b0 as B. rewrite ulp2_b, tiny_b. apply Rle_trans with (/ 1000 * b2 (-53) * b2 (-1003))%R; [|apply Rmult_le_compat_l; auto; pose proof (bpow_gt_0 radix2 (-53)); lra].
  rewrite Rmult_assoc, <- bpow_plus. change (-1075) with (-10 + -1065). rewrite bpow_plus. change (b2 (-10)) with (/ 1024)%R. pose proof (bpow_gt_0 radix2 (-1065)). pose proof (bpow_le radix2 (-1065) (-53 + -1003) ltac:(lia)). lra.
Qed.
Lemma t_beta : (Rabs (fR beta - b0) <= 24 / 10 * kap m * b0)%R.
Proof.
  destruct (t_fins k0 ltac:(lia)) as (_ & _ & _ & Nb & Fb). destruct t_V as [P _]. destruct t_good as (_ & [Vc Fc] & _ & _ & HcV & _). fold V in HcV. set (c := sf_mul a (v k0)) in *.
  pose proof (kap_u m Hm) as Ku. pose proof ulp2_pos as Pu. assert (Pb : (0 < b0)%R) by (unfold b0; apply Rdiv_lt_0_compat; lra). pose proof t_tiny as Tt.
  apply abs_in in HcV. assert (KV : (kap m * (V / 2) <= / 1024 * (V / 2))%R) by (apply Rmult_le_compat_r; lra). assert (Cn : (fR c < 0)%R) by lra.
  assert (Ef : fR beta = fR (sf_div (SFopp (sf_of_Z 1)) c)) by reflexivity. assert (Fd : isfin (sf_div (SFopp (sf_of_Z 1)) c) = true) by exact Fb.
  destruct (div_ok (SFopp (sf_of_Z 1)) c ltac:(reflexivity) Vc Fd ltac:(lra)) as [D _]. rewrite <- Ef in D. assert (E1 : fR (SFopp (sf_of_Z 1)) = (-1)%R) by (rewrite opp_ok, fR_one; ring). rewrite E1 in D.
  set (i := (-1 / fR c)%R) in *. assert (Ei : (i * - fR c = 1)%R) by (unfold i; field; lra). assert (Eb : (b0 * (V / 2) = 1)%R) by (unfold b0; field; lra).
  assert (Pi : (0 < i)%R) by (destruct (Rle_lt_dec i 0) as [N|N]; auto; assert (i * - fR c <= 0 * - fR c)%R by (apply Rmult_le_compat_r; lra); lra).
  (* i - b0 = i b0 (V/2 + c) *)
  assert (H1 : (i - b0 = i * b0 * (V / 2 + fR c))%R) by (replace (i * b0 * (V / 2 + fR c))%R with (i * (b0 * (V / 2)) - b0 * (i * - fR c))%R by ring; rewrite Ei, Eb; ring).
  assert (IV : (i * (V / 2) <= 1003 / 1000)%R). { apply (Rmult_le_reg_r (- fR c)); [lra|]. replace (i * (V / 2) * - fR c)%R with ((V / 2) * (i * - fR c))%R by ring. rewrite Ei. lra. }
  assert (H2 : (Rabs (i - b0) <= 2107 / 1000 * kap m * b0)%R).
  { rewrite H1, !Rabs_mult, (Rabs_pos_eq i), (Rabs_pos_eq b0) by lra. assert (Rabs (V / 2 + fR c) <= 21 / 10 * kap m * (V / 2))%R by (unfold Rabs; destruct (Rcase_abs _); lra).
    apply Rle_trans with (i * b0 * (21 / 10 * kap m * (V / 2)))%R; [apply Rmult_le_compat_l; auto; apply Rmult_le_pos; lra|]. replace (i * b0 * (21 / 10 * kap m * (V / 2)))%R with (21 / 10 * kap m * b0 * (i * (V / 2)))%R by ring.
    apply Rle_trans with (21 / 10 * kap m * b0 * (1003 / 1000))%R; [apply Rmult_le_compat_l; auto; apply Rmult_le_pos; lra|]. assert (0 <= kap m * b0)%R by (apply Rmult_le_pos; lra). lra. }
  assert (Ib : (i <= 101 / 100 * b0)%R). { apply abs_in in H2. assert (kap m * b0 <= / 1024 * b0)%R by (apply Rmult_le_compat_r; lra). lra. }
  replace (fR beta - b0)%R with ((fR beta - i) + (i - b0))%R by ring. eapply Rle_trans; [apply Rabs_triang|]. rewrite (Rabs_pos_eq i) in D by lra.
  assert (ulp2 * i <= ulp2 * (101 / 100 * b0))%R by (apply Rmult_le_compat_l; lra). assert (0 <= ulp2 * b0)%R by (apply Rmult_le_pos; lra). assert (5 * (ulp2 * b0) <= kap m * b0)%R by (rewrite <- Rmult_assoc; apply Rmult_le_compat_r; lra). lra.
Qed.
Lemma t_beta2 : isfin (sf_div beta (sf_lit (2#1))) = true -> (Rabs (fR (sf_div beta (sf_lit (2#1))) - b0 / 2) <= 29 / 10 * kap m * (b0 / 2))%R.
Proof.
  intros F. destruct two_num as [N2 E2]. destruct (t_fins k0 ltac:(lia)) as (_ & _ & _ & Nb & _). destruct (div_ok beta _ (proj1 Nb) (proj1 N2) F ltac:(lra)) as [D _]. rewrite E2 in D. pose proof t_beta as B. pose proof t_tiny as Tt.
  destruct t_V as [P _]. assert (Pb : (0 < b0)%R) by (unfold b0; apply Rdiv_lt_0_compat; lra). pose proof (kap_u m Hm) as Ku. pose proof ulp2_pos as Pu.
  set (x := fR (sf_div beta (sf_lit (2#1)))) in *. replace (x - b0 / 2)%R with ((x - fR beta / 2) + (fR beta - b0) / 2)%R by field. eapply Rle_trans; [apply Rabs_triang|].
  assert (B2 : (Rabs ((fR beta - b0) / 2) <= 24 / 10 * kap m * (b0 / 2))%R). { unfold Rdiv at 1. rewrite Rabs_mult, (Rabs_pos_eq (/ 2)) by lra. lra. }
  assert (KB : (kap m * b0 <= / 1024 * b0)%R) by (apply Rmult_le_compat_r; lra).
  assert (B3 : (Rabs (fR beta / 2) <= 101 / 200 * b0)%R). { apply abs_in in B. rewrite Rabs_pos_eq by lra. lra. }
  assert (ulp2 * Rabs (fR beta / 2) <= ulp2 * (101 / 200 * b0))%R by (apply Rmult_le_compat_l; lra). assert (0 <= ulp2 * b0)%R by (apply Rmult_le_pos; lra). assert (5 * (ulp2 * b0) <= kap m * b0)%R by (rewrite <- Rmult_assoc; apply Rmult_le_compat_r; lra). lra.
Qed.
(** The sum of the product. *)
Definition t_sh (i : Z) : sf := sf_add (fadds (O := SO) (sf_zero : @F SO) k0 i (fun t => sf_mul (M t i) (v t))) (fadds (O := SO) (sf_mul (M i i) (v i) : @F SO) (i + 1) m (fun j => sf_mul (M i j) (v j))).
Hypothesis Ysym : forall i j, Y i j = Y j i.
Hypothesis YM : forall i j, k <= i <= j -> j < m -> Y i j = fR (M i j).
Let gg := (gw (Z.to_nat m) - 1)%R.
Let t1 := (gw (Z.to_nat m) * (IZR m * tiny))%R.
Lemma t_row i g : k0 <= i < m -> Rs 0 m (fun t => g (Y i t) (vr t)) = (Rs 0 k0 (fun t => g (Y i t) 0%R) + (Rs k0 i (fun t => g (fR (M t i)) (fR (v t))) + (g (fR (M i i)) (fR (v i)) + Rs (i + 1) m (fun t => g (fR (M i t)) (fR (v t))))))%R.
Proof.
  intros Hi. rewrite (Rs_split 0 k0 m) by lia. rewrite (Rs_split k0 i m) by lia. rewrite (Rs_first i m) by lia. f_equal; [|f_equal; [|f_equal]].
  - apply Rs_ext. intros t Ht. unfold cut. rewrite (proj2 (Z.ltb_lt _ _)) by lia. auto.
  - apply Rs_ext. intros t Ht. unfold cut. rewrite (proj2 (Z.ltb_ge _ _)) by lia. rewrite Ysym, YM by lia. auto.
  - unfold cut. rewrite (proj2 (Z.ltb_ge _ _)) by lia. rewrite YM by lia. auto.
  - apply Rs_ext. intros t Ht. unfold cut. rewrite (proj2 (Z.ltb_ge _ _)) by lia. rewrite YM by lia. auto.
Qed.
Lemma accum_Rs (g : Z -> R) lo hi x : lo <= hi -> accum (fun t s => (s + g (lo + t)%Z)%R) (Z.to_nat (hi - lo)) x = (x + Rs lo hi g)%R.
Proof. intros H. pose proof (fadds_R x lo hi g H) as K. exact K. Qed.
Lemma t_sum i : k0 <= i < m -> isfin (t_sh i) = true -> (Rabs (fR (t_sh i) - Rs 0 m (fun t => Y i t * vr t)) <= gg * Rs 0 m (fun t => Rabs (Y i t) * Rabs (vr t)) + t1)%R.
Proof.
  intros Hi Ft. rewrite (t_row i (fun x y => x * y)%R Hi), (t_row i (fun x y => Rabs x * Rabs y)%R Hi). rewrite (Rs_zero 0 k0 (fun t => Y i t * 0)%R) by (intros; ring). rewrite (Rs_zero 0 k0 (fun t => Rabs (Y i t) * Rabs 0)%R) by (intros; rewrite Rabs_R0; ring). rewrite !Rplus_0_l.
  assert (A1 : apx (Z.to_nat (i - k0)) (Rs k0 i (fun t => fR (M t i) * fR (v t))%R) (Rs k0 i (fun t => Rabs (fR (M t i)) * Rabs (fR (v t)))%R) (IZR (i - k0) * tiny) (fadds (O := SO) (sf_zero : @F SO) k0 i (fun t => sf_mul (M t i) (v t)))).
  { pose proof (fadds_apx pf k0 i 1 (fun t => sf_mul (M t i) (v t)) (fun t => fR (M t i) * fR (v t))%R (fun t => Rabs (fR (M t i)) * Rabs (fR (v t)))%R (fun _ => tiny) ltac:(lia)) as K.
    rewrite Rs_const in K by lia. replace (1 + Z.to_nat (i - k0) - 1)%nat with (Z.to_nat (i - k0)) in K by lia. apply K. intros t Ht. apply apx_mul; [apply t_Mnum; lia|apply t_vnum; lia]. }
  assert (A2 : apx (1 + Z.to_nat (m - (i + 1))) (fR (M i i) * fR (v i) + Rs (i + 1) m (fun t => fR (M i t) * fR (v t)))%R (Rabs (fR (M i i)) * Rabs (fR (v i)) + Rs (i + 1) m (fun t => Rabs (fR (M i t)) * Rabs (fR (v t))))%R (tiny + IZR (m - (i + 1)) * tiny)
     (fadds (O := SO) (sf_mul (M i i) (v i) : @F SO) (i + 1) m (fun j => sf_mul (M i j) (v j)))).
  { pose proof (accum_apx 1 (fun t => sf_mul (M i ((i + 1) + t)%Z) (v ((i + 1) + t)%Z)) (fun t => fR (M i ((i + 1) + t)%Z) * fR (v ((i + 1) + t)%Z))%R (fun t => Rabs (fR (M i ((i + 1) + t)%Z)) * Rabs (fR (v ((i + 1) + t)%Z)))%R (fun _ => tiny) 1 (Z.to_nat (m - (i + 1))) (sf_mul (M i i) (v i))
       (fR (M i i) * fR (v i))%R (Rabs (fR (M i i)) * Rabs (fR (v i)))%R tiny ltac:(lia)) as K. cbn beta in K.
    pose proof (accum_Rs (fun t => fR (M i t) * fR (v t))%R (i + 1) m (fR (M i i) * fR (v i))%R ltac:(lia)) as R1. cbn beta in R1. rewrite R1 in K.
    pose proof (accum_Rs (fun t => Rabs (fR (M i t)) * Rabs (fR (v t)))%R (i + 1) m (Rabs (fR (M i i)) * Rabs (fR (v i)))%R ltac:(lia)) as R2. cbn beta in R2. rewrite R2 in K.
    pose proof (accum_Rs (fun _ => tiny) (i + 1) m tiny ltac:(lia)) as R3. cbn beta in R3. rewrite R3, Rs_const in K by lia. apply K.
    - apply apx_mul; [apply t_Mnum; lia|apply t_vnum; lia].
    - intros t Ht. apply apx_mul; [apply t_Mnum; lia|apply t_vnum; lia]. }
  apply (apx_mono _ (Z.to_nat (m - 1))) in A1; [|lia]. apply (apx_mono _ (Z.to_nat (m - 1))) in A2; [|lia]. pose proof (apx_add _ _ _ _ _ _ _ _ _ A1 A2) as A. replace (S (Z.to_nat (m - 1))) with (Z.to_nat m) in A by lia.
  destruct A as (_ & _ & _ & A & _). specialize (A Ft). fold (t_sh i) in A. eapply Rle_trans; [exact A|]. apply Rplus_le_compat_l. unfold t1. apply Rmult_le_compat_l; [pose proof (gw_ge1 (Z.to_nat m)); lra|].
  rewrite <- (Rmult_1_l tiny) at 2. rewrite <- !Rmult_plus_distr_r. apply Rmult_le_compat_r; [pose proof tiny_pos; lra|]. rewrite <- !plus_IZR. apply IZR_le. lia.
Qed.

Lemma t_gg : (0 <= gg <= 1002 / 1000 * (kap m - 4 * ulp2))%R /\ (0 <= t1 <= 101 / 100 * (IZR m * tiny))%R.
Proof.
  pose proof (gw_kap m Hkap m ltac:(lia)) as G. pose proof (gw_ge1 (Z.to_nat m)) as G1. fold gg in G. pose proof (kap_u m Hm). pose proof ulp2_pos. pose proof tiny_pos. assert (Pm : (1 <= IZR m)%R) by (apply (IZR_le 1); lia).
  assert (P : (0 <= IZR m * tiny)%R) by (apply Rmult_le_pos; lra). unfold t1. replace (gw (Z.to_nat m)) with (1 + gg)%R in * by (unfold gg; ring). split; [lra|]. split; [apply Rmult_le_pos; lra|]. apply Rmult_le_compat_r; lra.
Qed.
Hypothesis Y'sym : forall i j, Y' i j = Y' j i.
Hypothesis YM' : forall i j, k < i <= j -> j < m -> Y' i j = fR (M' i j).
Let q := r2_q m k0 Y vr.
Let w := r2_w m k0 Y vr.
Let zr1 := cut k0 z1.
Let zr2 := cut k0 z2.
Lemma t_hi r (y : Z -> sf) : k0 <= r -> cut k0 y r = fR (y r). Proof. intros. unfold cut. rewrite (proj2 (Z.ltb_ge _ _)) by lia. auto. Qed.
Lemma t_lo r (y : Z -> sf) : r < k0 -> cut k0 y r = 0%R. Proof. intros. unfold cut. rewrite (proj2 (Z.ltb_lt _ _)) by lia. auto. Qed.
Lemma t_block : (frob m m (fun i j => if (k0 <=? i) && (k0 <=? j) then Y' i j - (Y i j - (vr i * w j + w i * vr j)) else 0)%R
   <= 516 / 10 * kap m * frob m m Y + 21 / 10 * (r2_e2 m vr t1 tiny) + 3 * (IZR m * tiny))%R.
Proof.
  destruct t_gg as [Gg Gt]. destruct t_V as [PV _]. pose proof (kap_u m Hm) as Ku. pose proof ulp2_pos as Pu. pose proof tiny_pos as Pt.
  destruct (t_fins k0 ltac:(lia)) as (_ & _ & Ng & Nb & _).
  (* gamma *)
  set (gs := fadds (O := SO) (sf_zero : @F SO) k0 m (fun i => sf_mul (z1 i) (v i))).
  assert (Eg : gamma = sf_mul gs (sf_div beta (sf_lit (2#1)))) by reflexivity. assert (Fg : isfin (sf_mul gs (sf_div beta (sf_lit (2#1)))) = true) by (rewrite <- Eg; apply Ng).
  destruct (sf_mul_fin _ _ Fg) as [Fs F2].
  pose proof (sums_err pf m k0 z1 v ltac:(lia) ltac:(intros r Hr; apply (t_fins r ltac:(lia))) t_vnum) as As. apply (apx_mono _ (Z.to_nat m)) in As; [|lia].
  destruct As as (Vgs & _ & _ & As & _). specialize (As Fs). fold gs in As, Vgs. fold gg in As.
  apply (r2_update m k0 Y vr zr1 zr2 (fun i => fR (t_sh i)) (fR beta) (fR gs) (fR (sf_div beta (sf_lit (2#1)))) (fR gamma) (kap m) ulp2 t1 tiny gg); try lia; try lra; auto.
  - intros i Hi. apply t_lo. auto.
  - intros i Hi. apply t_lo. auto.
  - intros i Hi. apply t_lo. auto.
  - apply t_beta.
  - apply t_beta2. auto.
  - intros i Hi. apply t_sum; auto. destruct (t_fins i ltac:(lia)) as (_ & [_ F1] & _). change (z1 i) with (sf_mul beta (t_sh i)) in F1. apply (sf_mul_fin _ _ F1).
  - intros i Hi. unfold zr1. rewrite t_hi by lia. destruct (t_fins i ltac:(lia)) as (_ & [_ F1] & _). change (z1 i) with (sf_mul beta (t_sh i)) in F1 |- *. destruct (sf_mul_fin _ _ F1) as [_ Fsh].
    assert (Vsh : sf_valid (t_sh i) = true). { unfold t_sh. apply add_valid; apply fadds_valid2; try reflexivity; intros; apply mul_valid; try (apply VM; lia); apply t_vv; lia. }
    apply mul_ok; auto. apply t_betav.
  - unfold zr1. rewrite (cut_dot m k0 ltac:(lia)). rewrite (Rs_ext k0 m (fun r => fR (z1 r) * cut k0 v r)%R (fun r => fR (z1 r) * fR (v r))%R) by (intros; rewrite t_hi by lia; auto).
    assert (A1 : (Rs k0 m (fun r => Rabs (fR (z1 r)) * Rabs (fR (v r))) <= vlen m (cut k0 z1) * vlen m vr)%R).
    { rewrite (Rs_ext k0 m _ (fun r => Rabs (cut k0 z1 r) * Rabs (vr r))%R) by (intros; rewrite !t_hi by lia; auto). apply abs_dot_le. lia. }
    eapply Rle_trans; [exact As|]. apply Rplus_le_compat; [apply Rmult_le_compat_l; lra|]. unfold t1. apply Rmult_le_compat_l; [pose proof (gw_ge1 (Z.to_nat m)); lra|]. apply Rmult_le_compat_r; [lra|]. apply IZR_le. lia.
  - rewrite Eg. apply mul_ok; auto. apply div_valid; [apply t_betav|apply two_num].
  - intros i Hi. unfold zr1, zr2. rewrite !t_hi by lia. destruct (t_fins i ltac:(lia)) as ([_ F1] & [V1 _] & _). unfold td_z2 in F1 |- *. change (isfin (sf_sub (z1 i) (sf_mul gamma (v i))) = true) in F1. change (@fsub SO (z1 i) (@fmul SO gamma (v i))) with (sf_sub (z1 i) (sf_mul gamma (v i))).
    destruct (sf_sub_fin _ _ F1) as [_ Fp]. rewrite sub_add in *. destruct (mul_ok gamma (v i) t_gv (t_vv i ltac:(lia)) Fp) as [Kp _].
    pose proof (entry_err (z1 i) (SFopp (sf_mul gamma (v i))) (sf_add (z1 i) (SFopp (sf_mul gamma (v i)))) (fR (z1 i)) (- fR gamma) (fR (v i)) V1) as K.
    assert (Vo : sf_valid (SFopp (sf_mul gamma (v i))) = true). { pose proof (mul_valid gamma (v i) t_gv (t_vv i ltac:(lia))) as Vm. destruct (sf_mul gamma (v i)); exact Vm. }
    specialize (K Vo eq_refl eq_refl F1). rewrite opp_ok in K. rewrite Rabs_Ropp in K.
    replace (fR (z1 i) - fR gamma * fR (v i))%R with (fR (z1 i) + - fR gamma * fR (v i))%R by ring. apply K.
    replace (- fR (sf_mul gamma (v i)) - - fR gamma * fR (v i))%R with (- (fR (sf_mul gamma (v i)) - fR gamma * fR (v i)))%R by ring. replace (- fR gamma * fR (v i))%R with (- (fR gamma * fR (v i)))%R by ring. rewrite !Rabs_Ropp. exact Kp.
  - assert (U : forall i j, k0 <= i <= j -> j < m -> (Rabs (Y' i j - (Y i j - (vr i * zr2 j + zr2 i * vr j))) <= ulp2 * Rabs (Y i j) + 4 * ulp2 * (Rabs (vr i) * Rabs (zr2 j) + Rabs (zr2 i) * Rabs (vr j)) + 3 * tiny)%R).
    { intros i j Hi Hj. unfold zr2. rewrite !t_hi by lia. rewrite YM', YM by lia. pose proof (FM i j ltac:(lia) ltac:(lia)) as F1. rewrite t_upd in F1 |- * by lia. apply upd_err; auto; first [apply VM; lia|apply t_vv; lia|apply t_z2v; lia]. }
    intros i j Hi Hj. destruct (Z_le_gt_dec i j) as [Hij|Hij]; [apply U; lia|]. specialize (U j i ltac:(lia) ltac:(lia)). rewrite Y'sym, (Ysym i j).
    replace (vr i * zr2 j + zr2 i * vr j)%R with (vr j * zr2 i + zr2 j * vr i)%R by ring. replace (Rabs (vr i) * Rabs (zr2 j) + Rabs (zr2 i) * Rabs (vr j))%R with (Rabs (vr j) * Rabs (zr2 i) + Rabs (zr2 j) * Rabs (vr i))%R by ring. exact U.
Qed.

(** The exact update. *)
Let sv (i : Z) : R := Rs 0 m (fun t => Y i t * vr t)%R.
Let S2 : R := dot m sv vr.
Lemma t_exact i j : 0 <= i < m -> 0 <= j < m -> mmul m (mmul m (rP m k0 v) Y) (rP m k0 v) i j = (Y i j - b0 * (vr i * sv j + sv i * vr j) + b0 * b0 * S2 * (vr i * vr j))%R.
Proof.
  intros Hi Hj. destruct t_V as [PV _]. unfold rP. fold V. rewrite refl_r by auto. rewrite refl_l by auto.
  assert (E1 : forall t, 0 <= t < m -> Rs 0 m (fun r => vr r * Y r t)%R = sv t) by (intros t Ht; unfold sv; apply Rs_ext; intros; rewrite (Ysym t); ring). rewrite E1 by auto.
  rewrite (Rs_ext 0 m (fun r => mmul m (refl vr (- (V / 2))) Y i r * vr r)%R (fun r => Y i r * vr r + (vr i / (- (V / 2))) * (sv r * vr r))%R).
  2:{ intros r Hr. rewrite refl_l by auto. rewrite E1 by auto. field. lra. }
  rewrite Rs_plus, Rs_scal_l. fold (sv i). change (Rs 0 m (fun r => sv r * vr r)%R) with S2. unfold b0. field. lra.
Qed.
Lemma t_w i j : k0 <= i < m -> k0 <= j < m -> (vr i * w j + w i * vr j = b0 * (vr i * sv j + sv i * vr j) - b0 * b0 * S2 * (vr i * vr j))%R.
Proof.
  intros Hi Hj. unfold w, r2_w. assert (Eq : forall r, k0 <= r -> r2_q m k0 Y vr r = (b0 * sv r)%R) by (intros r Hr; unfold r2_q; rewrite (proj2 (Z.ltb_ge _ _)) by lia; reflexivity). rewrite !Eq by lia.
  assert (Eg : r2_g0 m k0 Y vr = (b0 / 2 * (b0 * S2))%R).
  { unfold r2_g0. fold V b0. f_equal. unfold S2, dot. rewrite <- Rs_scal_l. apply Rs_ext. intros r Hr. destruct (Z_lt_ge_dec r k0); [rewrite (t_lo r v) by auto; ring|]. rewrite Eq by lia. ring. }
  rewrite Eg. field.
Qed.
Hypothesis Yz : forall i j, 0 <= i < k -> k < j < m -> Y i j = 0%R.
Hypothesis Yz' : forall i j, 0 <= i < k -> k < j < m -> Y' i j = 0%R.
Hypothesis Ylow : forall i j, 0 <= i <= j -> j <= k -> Y' i j = Y i j.
Hypothesis Ya : forall j, k < j < m -> Y' k j = if j =? k0 then fR a else 0%R.
Let b := frob m m Y.
Let oc (r : Z) : R := ((if r <? k0 then Y k r else if r =? k0 then fR a else 0) - mvec m (rP m k0 v) (Y k) r)%R.
Lemma t_ua : (Rabs (fR a) <= b2 511)%R. Proof. eapply Rle_trans; [exact Ua|]. apply bpow_le. lia. Qed.
Lemma t_oc : (vlen m oc <= 31 / 10 * kap m * b)%R.
Proof.
  pose proof (own_column pf m Hm Hkap k0 ltac:(lia) (M k) t_xnum Fa La t_ua (Y k) ltac:(intros; apply YM; lia)) as K. eapply Rle_trans; [exact K|]. apply Rmult_le_compat_l; [pose proof (kap_u m Hm); pose proof ulp2_pos; lra|].
  unfold b. rewrite frob_rows. pose proof (vlen_entry m (fun i => vlen m (Y i)) k ltac:(lia)) as E. rewrite Rabs_pos_eq in E by apply vlen_pos. exact E.
Qed.
Lemma t_split i j : 0 <= i < m -> 0 <= j < m -> (Y' i j - mmul m (mmul m (rP m k0 v) Y) (rP m k0 v) i j =
  (if (k0 <=? i) && (k0 <=? j) then Y' i j - (Y i j - (vr i * w j + w i * vr j)) else 0) + (if i =? k then oc j else 0) + (if j =? k then oc i else 0))%R.
Proof.
  assert (U : forall i j, 0 <= i <= j -> j < m -> (Y' i j - mmul m (mmul m (rP m k0 v) Y) (rP m k0 v) i j =
    (if (k0 <=? i) && (k0 <=? j) then Y' i j - (Y i j - (vr i * w j + w i * vr j)) else 0) + (if i =? k then oc j else 0) + (if j =? k then oc i else 0))%R).
  { clear i j. intros i j Hi Hj. rewrite t_exact by lia. assert (O0 : forall r, 0 <= r < k0 -> oc r = 0%R). { intros r Hr. unfold oc. rewrite rP_low by lia. rewrite (proj2 (Z.ltb_lt _ _)) by lia. ring. }
    destruct (Z_le_gt_dec j k) as [Lj|Lj].
    - rewrite Ylow by lia. rewrite !(t_lo _ v) by lia. rewrite (proj2 (Z.leb_gt k0 i)) by lia. cbn [andb]. rewrite (O0 i), (O0 j) by lia. destruct (i =? k), (j =? k); ring.
    - rewrite (proj2 (Z.eqb_neq j k)) by lia. destruct (Z_lt_ge_dec i k) as [Li|Li]; [|destruct (Z.eq_dec i k) as [->|Ni]].
      + rewrite Yz', Yz by lia. rewrite (t_lo i v) by lia. rewrite (proj2 (Z.leb_gt k0 i)), (proj2 (Z.eqb_neq i k)) by lia. cbn [andb].
        assert (E : sv i = 0%R). { unfold sv. apply Rs_zero. intros t Ht. destruct (Z_le_gt_dec t k); [rewrite (t_lo t v) by lia; ring|]. rewrite Yz by lia. ring. }
        rewrite E. ring.
      + rewrite Z.eqb_refl, (proj2 (Z.leb_gt k0 k)) by lia. cbn [andb]. rewrite (t_lo k v) by lia. unfold oc. rewrite (proj2 (Z.ltb_ge j k0)) by lia. rewrite Ya by lia. unfold rP. fold V. rewrite refl_vec by lia.
        rewrite (Rs_ext 0 m (fun r => vr r * Y k r)%R (fun t => Y k t * vr t)%R) by (intros; ring). fold (sv k). unfold b0. field. destruct t_V; lra.
      + rewrite (proj2 (Z.eqb_neq i k)) by lia. rewrite (proj2 (Z.leb_le k0 i)), (proj2 (Z.leb_le k0 j)) by lia. cbn [andb]. rewrite t_w by lia. ring. }
  intros Hi Hj. destruct (Z_le_gt_dec i j) as [Hij|Hij]; [apply U; lia|]. specialize (U j i ltac:(lia) ltac:(lia)). rewrite t_exact in * by lia. rewrite (Y'sym i j), (Ysym i j).
  replace (Y j i - b0 * (vr i * sv j + sv i * vr j) + b0 * b0 * S2 * (vr i * vr j))%R with (Y j i - b0 * (vr j * sv i + sv j * vr i) + b0 * b0 * S2 * (vr j * vr i))%R by ring. rewrite U. rewrite andb_comm.
  replace (vr j * w i + w j * vr i)%R with (vr i * w j + w i * vr j)%R by ring. ring.
Qed.
Lemma t_Lb : (L <= 21 / 10 * b)%R.
Proof.
  destruct t_V as [PV [_ BV]]. pose proof (a_sq pf m Hm Hkap k0 ltac:(lia) (M k) t_xnum Fa La) as A. set (s := Rs k0 m (fun r => fR (M k r) * fR (M k r))%R) in *.
  assert (Hs : (0 <= s <= b * b)%R).
  { split; [apply Rs_nonneg; intros; nra|]. apply Rle_trans with (vlen m (Y k) * vlen m (Y k))%R.
    - rewrite vlen_sq. unfold dot. rewrite (Rs_split 0 k0 m) by lia. assert (0 <= Rs 0 k0 (fun r => Y k r * Y k r))%R by (apply Rs_nonneg; intros; nra).
      assert (E : s = Rs k0 m (fun r => Y k r * Y k r)%R) by (apply Rs_ext; intros; rewrite YM by lia; auto). rewrite E. lra.
    - assert (K : (vlen m (Y k) <= b)%R). { unfold b. rewrite frob_rows. pose proof (vlen_entry m (fun i => vlen m (Y i)) k ltac:(lia)) as E. rewrite Rabs_pos_eq in E by apply vlen_pos. exact E. }
      apply Rmult_le_compat; auto; apply vlen_pos. }
  rewrite <- Rabs_mult, Rabs_pos_eq in BV by (rewrite <- (Rmult_0_l 0); nra). fold a in A. assert (KS : (kap m * s <= / 1024 * s)%R) by (apply Rmult_le_compat_r; lra). apply abs_in in A. change (hh_a (O := SO) m (M k) k0) with a in A.
  assert (Pb : (0 <= b)%R) by apply frob_pos. apply Rsqr_incr_0_var; [|lra]. unfold Rsqr, L. rewrite vlen_sq. fold V. lra.
Qed.
Lemma t_small : (21 / 10 * (r2_e2 m vr t1 tiny) + 3 * (IZR m * tiny) <= / 10 * kap m * b + omg m)%R.
Proof.
  destruct t_gg as [_ Gt]. destruct t_good as (_ & _ & _ & [L1 L2] & _). fold L in L1, L2. pose proof t_Lb as Lb. pose proof tiny_pos as Pt. assert (Pm : (1 <= IZR m)%R) by (apply (IZR_le 1); lia). pose proof (m_b43 m Hm Hkap) as Hm43.
  assert (Pb : (0 <= b)%R) by apply frob_pos. pose proof (bpow_gt_0 radix2 (-562)) as B0. set (c := b2 (-562)) in *. assert (PL : (0 < L)%R) by (pose proof (bpow_gt_0 radix2 (-450)); lra).
  assert (TL : (tiny * L <= c)%R). { apply Rle_trans with (tiny * b2 513)%R; [apply Rmult_le_compat_l; lra|]. rewrite tiny_b, <- bpow_plus. right. reflexivity. }
  assert (Tc : (tiny <= c)%R) by (rewrite tiny_b; apply bpow_le; lia).
  assert (TV : (tiny * V <= 21 / 10 * (c * b))%R). { assert (EV : V = (L * L)%R) by (unfold V, L; rewrite vlen_sq; auto). rewrite EV, <- Rmult_assoc. apply Rle_trans with (c * (21 / 10 * b))%R; [apply Rmult_le_compat; try lra; apply Rmult_le_pos; lra|lra]. }
  assert (Cu : (c <= / 1024 * ulp2)%R). { unfold c. rewrite ulp2_b. change (/ 1024)%R with (b2 (-10)). rewrite <- bpow_plus. apply bpow_le. lia. }
  assert (Cb : (c * b <= / 1024 * (ulp2 * b))%R) by (rewrite <- Rmult_assoc; apply Rmult_le_compat_r; lra). pose proof (kap_u m Hm) as Ku. pose proof ulp2_pos as Pu.
  assert (Kb : (5 * (ulp2 * b) <= kap m * b)%R) by (rewrite <- Rmult_assoc; apply Rmult_le_compat_r; lra). assert (Ub : (0 <= ulp2 * b)%R) by (apply Rmult_le_pos; lra).
  assert (T1 : (t1 / L <= 102 / 100 * c)%R).
  { apply (Rmult_le_reg_r L); auto. unfold Rdiv. rewrite Rmult_assoc, Rinv_l, Rmult_1_r by lra. apply Rle_trans with (101 / 100 * (b2 43 * tiny))%R; [eapply Rle_trans; [apply Gt|]; apply Rmult_le_compat_l; [lra|]; apply Rmult_le_compat_r; lra|].
    apply Rle_trans with (102 / 100 * c * b2 (-450))%R; [|apply Rmult_le_compat_l; lra]. rewrite tiny_b, <- bpow_plus. unfold c. rewrite (Rmult_assoc (102 / 100)), <- bpow_plus. pose proof (bpow_le radix2 (43 + -1075) (-562 + -450) ltac:(lia)). pose proof (bpow_gt_0 radix2 (43 + -1075)). lra. }
  assert (E1 : (r2_e1 m vr t1 tiny <= IZR m * (4 * c))%R).
  { unfold r2_e1. fold V L. replace (IZR m * (202 / 100 * t1 + tiny * V) / L)%R with (IZR m * (202 / 100 * (t1 / L) + tiny * L))%R; [apply Rmult_le_compat_l; lra|]. assert (EV : V = (L * L)%R) by (unfold V, L; rewrite vlen_sq; auto). rewrite EV. field. lra. }
  unfold r2_e2. fold V L. assert (M1 : (IZR m * tiny * L <= IZR m * c)%R) by (rewrite Rmult_assoc; apply Rmult_le_compat_l; lra). assert (M2 : (IZR m * tiny <= IZR m * c)%R) by (apply Rmult_le_compat_l; lra).
  assert (Mc : (0 <= IZR m * c)%R) by (apply Rmult_le_pos; lra).
  assert (Om : (64 * (IZR m * c) <= omg m)%R). { unfold omg, c. replace (64 * (IZR m * b2 (-562)))%R with (IZR m * (b2 6 * b2 (-562)))%R by (change (b2 6) with 64%R; ring). rewrite <- bpow_plus. apply Rmult_le_compat_l; [lra|]. apply bpow_le. lia. }
  lra.
Qed.
Lemma t_step_nz : (frob m m (fun i j => Y' i j - mmul m (mmul m (rP m k0 v) Y) (rP m k0 v) i j) <= 60 * kap m * b + omg m)%R.
Proof.
  rewrite (frob_eq m m _ _ t_split). pose proof t_block as A. fold b in A. pose proof t_oc as B. pose proof t_small as C.
  eapply Rle_trans; [apply (frob_add m m (fun i j => (if (k0 <=? i) && (k0 <=? j) then Y' i j - (Y i j - (vr i * w j + w i * vr j)) else 0) + (if i =? k then oc j else 0))%R (fun i j => if j =? k then oc i else 0)%R)|].
  eapply Rle_trans; [apply Rplus_le_compat_r; apply (frob_add m m (fun i j => if (k0 <=? i) && (k0 <=? j) then Y' i j - (Y i j - (vr i * w j + w i * vr j)) else 0)%R (fun i j => if i =? k then oc j else 0)%R)|].
  rewrite (frob_row0 m k oc) by lia. replace (frob m m (fun i j => if j =? k then oc i else 0)%R) with (vlen m oc); [|rewrite <- (frob_row0 m k oc) by lia; rewrite <- frob_trm; reflexivity].
  assert (0 <= kap m * b)%R by (apply Rmult_le_pos; [pose proof (kap_u m Hm); pose proof ulp2_pos; lra|apply frob_pos]). lra.
Qed.
End NonZero.

Hypothesis Ysym : forall i j, Y i j = Y j i.
Hypothesis YM : forall i j, k <= i <= j -> j < m -> Y i j = fR (M i j).
Hypothesis Y'sym : forall i j, Y' i j = Y' j i.
Hypothesis YM' : forall i j, k < i <= j -> j < m -> Y' i j = fR (M' i j).
Hypothesis Yz : forall i j, 0 <= i < k -> k < j < m -> Y i j = 0%R.
Hypothesis Yz' : forall i j, 0 <= i < k -> k < j < m -> Y' i j = 0%R.
Hypothesis Ylow : forall i j, 0 <= i <= j -> j <= k -> Y' i j = Y i j.
Hypothesis Ya : forall j, k < j < m -> Y' k j = if j =? k0 then fR a else 0%R.
Lemma t_step : (frob m m (fun i j => Y' i j - mmul m (mmul m (Pa pf m k0 (M k)) Y) (Pa pf m k0 (M k)) i j) <= 60 * kap m * frob m m Y + 2 * omg m)%R.
Proof.
  pose proof (omg_pos m Hm) as Po. pose proof (kap_u m Hm) as Ku. pose proof ulp2_pos as Pu. unfold Pa. change (hh_a (O := SO) m (M k) k0) with a. destruct (@feq SO a (@fzero SO)) eqn:Ef.
  - assert (E0 : fR a = 0%R) by (apply t_feq; auto). pose proof (a_zero pf m Hm Hkap k0 ltac:(lia) (M k) t_xnum Fa E0) as K. fold (omg m) in K.
    set (y := cut k0 (M k)).
    assert (Ly : (vlen m y <= omg m)%R). { eapply Rle_trans; [|exact K]. right. unfold vlen. f_equal. unfold y. rewrite (cut_dot m k0 ltac:(lia)). apply Rs_ext. intros r Hr. unfold cut. rewrite (proj2 (Z.ltb_ge _ _)) by lia. auto. }
    assert (Lo : vlen m (fun r => - y r)%R = vlen m y) by (rewrite (vlen_ext m _ (fun r => (-1) * y r)%R) by (intros; ring); rewrite vlen_scal, Rabs_left by lra; ring).
    assert (U : forall i j, 0 <= i <= j -> j < m -> (Y' i j - Y i j = (if i =? k then - y j else 0) + (if j =? k then - y i else 0))%R).
    { intros i j Hi Hj. unfold y, cut. destruct (Z_le_gt_dec j k) as [Lj|Lj].
      - rewrite Ylow by lia. rewrite !(proj2 (Z.ltb_lt _ _)) by lia. destruct (i =? k), (j =? k); ring.
      - rewrite (proj2 (Z.eqb_neq j k)) by lia. rewrite (proj2 (Z.ltb_ge j k0)) by lia. destruct (Z_lt_ge_dec i k) as [Li|Li]; [|destruct (Z.eq_dec i k) as [->|Ni]].
        + rewrite Yz', Yz by lia. rewrite (proj2 (Z.eqb_neq i k)) by lia. ring.
        + rewrite Z.eqb_refl. rewrite Ya, YM by lia. rewrite E0. destruct (j =? k0); ring.
        + rewrite (proj2 (Z.eqb_neq i k)) by lia. rewrite YM', YM by lia. unfold td_M. rewrite (proj2 (Z.eqb_neq i k)) by lia. rewrite Ef. ring. }
    rewrite (frob_eq m m _ (fun i j => (if i =? k then - y j else 0) + (if j =? k then - y i else 0))%R).
    2:{ intros i j Hi Hj. rewrite mmul_1_r by auto. rewrite mmul_1_l by auto. destruct (Z_le_gt_dec i j); [apply U; lia|]. rewrite Y'sym, (Ysym i j). rewrite U by lia. ring. }
    eapply Rle_trans; [apply (frob_add m m (fun i j => if i =? k then - y j else 0)%R (fun i j => if j =? k then - y i else 0)%R)|].
    rewrite (frob_row0 m k (fun j => - y j)%R) by lia. replace (frob m m (fun i j => if j =? k then - y i else 0)%R) with (vlen m (fun r => - y r)%R); [|rewrite <- (frob_row0 m k (fun r => - y r)%R) by lia; rewrite <- frob_trm; reflexivity].
    rewrite Lo. assert (0 <= 60 * kap m * frob m m Y)%R by (apply Rmult_le_pos; [lra|apply frob_pos]). lra.
  - assert (E0 : fR a <> 0%R) by (intros E; apply t_feq in E; congruence). change (hh_v (O := SO) m (M k) k0) with v.
    pose proof (t_step_nz E0 Ysym YM Y'sym YM' Yz Yz' Ylow Ya) as K. lra.
Qed.
End TdOne.

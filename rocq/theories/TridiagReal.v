(** The tridiagonal transform in exact arithmetic. *)
From Coq Require Import ZArith QArith List Lia Bool Reals Lra.
From Verif Require Import Base BaseLemmas Scalar Vector VecSpec VectorFacts Matrix MatSpec MatFacts TabTac FSum RealOps RSum Tri LUReal QR QRSpec QRFacts House QRReal QRReal2 CholFacts HessReal Tridiag TridiagFacts.
Open Scope Z_scope.

Ltac toR := match goal with |- @eq _ ?l ?r => change (@eq R l r) end.
(** The symmetric table with the same upper triangle. *)
Definition mirror (A : Z -> Z -> R) (i j : Z) : R := A (Z.min i j) (Z.max i j).
Lemma mirror_sym A i j : mirror A i j = mirror A j i.
Proof. unfold mirror. rewrite Z.min_comm, Z.max_comm. auto. Qed.

(** Conjugating a symmetric table by a reflection. *)
Lemma refl_conj n v c C i j : (forall a b, C a b = C b a) -> 0 <= i < n -> 0 <= j < n ->
  let y q := Rs 0 n (fun r => v r * C r q)%R in
  mmul n (mmul n (refl v c) C) (refl v c) i j = (C i j + v i * y j / c + v j * y i / c + v i * v j * Rs 0 n (fun r => v r * y r) / c / c)%R.
Proof.
  intros HC Hi Hj y. rewrite refl_r by auto. rewrite refl_l by auto. fold (y j).
  rewrite (Rs_ext 0 n _ (fun r => v r * C r i + (v i / c) * (v r * y r))%R).
  2:{ intros r Hr. rewrite refl_l by auto. fold (y r). rewrite (HC r i). unfold Rdiv. ring. }
  rewrite Rs_plus, Rs_scal_l. fold (y i). unfold Rdiv. ring.
Qed.

Section Inv.
Variable m : Z.
Definition td_W (M : Z -> Z -> R) (Sc : Z -> R) (k : Z) : Z -> Z -> R := refl (tail (M k) (k + 1)) (Sc k * M k (k + 1)%Z).
Definition td_G (M : Z -> Z -> R) (Sc : Z -> R) (k : Z) : Z -> Z -> R := accum (fun t T => mmul m (td_W M Sc t) T) (Z.to_nat k) idm.
(** The transformed matrix after k steps: upper triangle. *)
Definition td_U (M : Z -> Z -> R) (D Sc : Z -> R) (k p q : Z) : R :=
  if p <? k then (if p =? q then D p else if q =? p + 1 then Sc p else 0%R) else M p q.
Definition tinv (A : Z -> Z -> R) (k : Z) (M : Z -> Z -> R) (D Sc : Z -> R) : Prop :=
  (forall q, 0 <= q < k -> Rs 0 m (fun r => tail (M q) (q + 1) r * tail (M q) (q + 1) r)%R = (-2 * (Sc q * M q (q + 1)%Z))%R) /\
  meq m m (mirror (td_U M D Sc k)) (mmul m (mmul m (td_G M Sc k) (mirror A)) (trm (td_G M Sc k))).
Lemma td_G_S M Sc k : 0 <= k -> td_G M Sc (k + 1) = mmul m (td_W M Sc k) (td_G M Sc k).
Proof. intros H. unfold td_G. rewrite accum_S by auto. auto. Qed.
Lemma td_W_ext M Sc M' Sc' k i j : (forall r, M' k r = M k r) -> Sc' k = Sc k -> td_W M' Sc' k i j = td_W M Sc k i j.
Proof. intros HM HS. unfold td_W, refl, tail. rewrite !HM, HS. auto. Qed.
Lemma td_G_ext M Sc M' Sc' k : 0 <= k -> (forall q r, 0 <= q < k -> M' q r = M q r) -> (forall q, 0 <= q < k -> Sc' q = Sc q) ->
  meq m m (td_G M' Sc' k) (td_G M Sc k).
Proof.
  intros H. pattern k. apply natlike_ind; auto.
  - intros _ _ i j _ _. reflexivity.
  - intros t Ht IH HM HS. change (Z.succ t) with (t + 1) in *. rewrite !td_G_S by auto. intros i j Hi Hj.
    apply mmul_ext.
    + intros r Hr. apply td_W_ext; auto; intros; [apply HM|apply HS]; lia.
    + intros r Hr. apply IH; auto; intros; [apply HM|apply HS]; lia.
Qed.
Lemma td_G_orth M Sc k : 0 <= k -> (forall q, 0 <= q < k -> Rs 0 m (fun r => tail (M q) (q + 1) r * tail (M q) (q + 1) r)%R = (-2 * (Sc q * M q (q + 1)%Z))%R) ->
  orthogonal m (td_G M Sc k).
Proof.
  intros H. pattern k. apply natlike_ind; auto.
  - intros _. apply orth_id.
  - intros t Ht IH I1. change (Z.succ t) with (t + 1) in *. rewrite td_G_S by auto. apply orth_mmul.
    + apply refl_orth. apply I1. lia.
    + apply IH. intros. apply I1. lia.
Qed.
Lemma tinv_0 A D Sc : tinv A 0 A D Sc.
Proof.
  split; [intros; lia|]. intros i j Hi Hj. unfold td_G. cbn [Z.to_nat accum].
  rewrite (mmul_ext m (mmul m idm (mirror A)) (mirror A) (trm idm) idm) by (intros; solve [apply mmul_1_l; auto|apply trm_idm]). rewrite mmul_1_r by auto.
  unfold mirror, td_U. zbq; auto.
Qed.

Section Step.
Variable M : Z -> Z -> R.
Variables D Sc : Z -> R.
Variable k : Z.
Hypothesis Hk : 0 <= k < m - 1.
Notation C := (mirror (td_U M D Sc k)).
Notation a := (td_a (O := ROps) m M k).
Notation v := (td_v (O := ROps) m M k).
Notation M' := (td_M (O := ROps) m M k).
Notation D' := (td_upd (O := ROps) D k (M k k)).
Notation Sc' := (td_upd (O := ROps) Sc k (td_a (O := ROps) m M k)).
Lemma step_y i : k <= i < m -> Rs 0 m (fun r => tail v (k + 1) r * C r i)%R = Rs (k + 1) m (fun r => v r * M (Z.min r i) (Z.max r i))%R.
Proof.
  intros Hi. rewrite (Rs_low 0 (k + 1) m) by (try lia; intros; rewrite tail_lt by lia; ring). apply Rs_ext. intros r Hr. rewrite tail_ge by lia.
  unfold mirror, td_U. zbq; auto.
Qed.
Lemma step_z i : a <> 0%R -> k < i < m -> td_z1 (O := ROps) m M k i = (- (Rs 0 m (fun r => tail v (k + 1) r * C r i) / (a * v (k + 1)%Z)))%R.
Proof.
  intros Ha Hi. rewrite step_y by lia. unfold td_z1. rewrite !fadds_R by lia. rewrite (Rs_split (k + 1) i m) by lia. rewrite (Rs_first i m) by lia.
  rewrite (Rs_ext (k + 1) i (fun r => v r * M (Z.min r i) (Z.max r i))%R (fun r => M r i * v r)%R) by (intros; rewrite Z.min_l, Z.max_r by lia; ring).
  rewrite (Rs_ext (i + 1) m (fun r => v r * M (Z.min r i) (Z.max r i))%R (fun r => M i r * v r)%R) by (intros; rewrite Z.min_r, Z.max_l by lia; ring).
  rewrite Z.min_id, Z.max_id. unfold td_beta. change (@fneg ROps) with Ropp. change (@fadd ROps) with Rplus. change (@fmul ROps) with Rmult. change (@fdiv ROps) with Rdiv. change (@fzero ROps) with 0%R. change (@fone ROps) with 1%R.
  unfold Rdiv. toR. ring.
Qed.
Lemma step_gamma : a <> 0%R -> td_gamma (O := ROps) m M k = (Rs 0 m (fun i => tail v (k + 1) i * Rs 0 m (fun r => tail v (k + 1) r * C r i)) / (a * v (k + 1)%Z) / (a * v (k + 1)%Z) / 2)%R.
Proof.
  intros Ha. unfold td_gamma. rewrite fadds_R by lia. rewrite (Rs_low 0 (k + 1) m) by (try lia; intros; rewrite tail_lt by lia; ring).
  rewrite (Rs_ext (k + 1) m (fun i => td_z1 (O := ROps) m M k i * v i)%f (fun i => - / (a * v (k + 1)%Z) * (tail v (k + 1) i * Rs 0 m (fun r => tail v (k + 1) r * C r i)))%R).
  2:{ intros i Hi. rewrite step_z by (auto; lia). rewrite tail_ge by lia. change (@fmul ROps) with Rmult. unfold Rdiv. toR. ring. }
  rewrite Rs_scal_l. unfold td_beta. change (@fneg ROps) with Ropp. change (@fadd ROps) with Rplus. change (@fmul ROps) with Rmult. change (@fdiv ROps) with Rdiv. change (@fzero ROps) with 0%R. change (@fone ROps) with 1%R.
  change (@flit ROps 2) with (Q2R 2). replace (Q2R 2) with 2%R by (unfold Q2R; cbn; lra). unfold Rdiv.
  generalize (Rs (k + 1) m (fun i => tail v (k + 1) i * Rs 0 m (fun r => tail v (k + 1) r * C r i))%R). intros. toR. ring.
Qed.
Lemma M'_row j : M' k j = v j.
Proof. unfold td_M. rewrite Z.eqb_refl. auto. Qed.
Lemma step_B i j : 0 <= i <= j -> j < m -> td_U M' D' Sc' (k + 1) i j = mmul m (mmul m (refl (tail v (k + 1)) (a * v (k + 1)%Z)) C) (refl (tail v (k + 1)) (a * v (k + 1)%Z)) i j.
Proof.
  intros Hij Hj. rewrite (refl_conj m _ _ C) by (try lia; intros; apply mirror_sym).
  set (y := fun q => Rs 0 m (fun r => tail v (k + 1) r * C r q)%R). cbv zeta.
  change (Rs 0 m (fun r => tail v (k + 1) r * C r j)%R) with (y j). change (Rs 0 m (fun r => tail v (k + 1) r * C r i)%R) with (y i).
  change (Rs 0 m (fun r => tail v (k + 1) r * Rs 0 m (fun s => tail v (k + 1) s * C s r))%R) with (Rs 0 m (fun r => tail v (k + 1) r * y r)%R).
  assert (EC : C i j = td_U M D Sc k i j) by (unfold mirror; rewrite Z.min_l, Z.max_r by lia; auto). rewrite EC.
  destruct (Req_dec a 0) as [Ha|Ha].
  { assert (Ev : forall r, 0 <= r < m -> tail v (k + 1) r = 0%R).
    { intros r Hr. unfold tail. destruct (Z.ltb_spec r (k + 1)); auto. unfold td_v. rewrite v_eq0 by (auto; lia). apply (a_zero m (M k) (k + 1)); auto; lia. }
    rewrite !Ev by lia. unfold td_U, td_upd, td_M. change (@feq ROps) with Reqb. change (@fzero ROps) with 0%R. rewrite (proj2 (Reqb_true _ _) Ha).
    assert (Ex : forall r, k < r < m -> M k r = 0%R) by (intros; apply (a_zero m (M k) (k + 1)); auto; lia).
    zbq; subst; try lra; unfold Rdiv; rewrite ?Rmult_0_l, ?Rplus_0_r, ?Ha; try (rewrite Ex by lia); auto. }
  destruct (Z_le_gt_dec j k) as [Hjk|Hjk].
  { rewrite !tail_lt by lia. unfold td_U, td_upd. unfold Rdiv. rewrite !Rmult_0_l, !Rplus_0_r. zbq; subst; auto. }
  destruct (Z_lt_ge_dec k i) as [Hik|Hik].
  { rewrite !tail_ge by lia. unfold td_U, td_M. change (@feq ROps) with Reqb. change (@fzero ROps) with 0%R. rewrite (proj2 (Reqb_false _ _) Ha).
    destruct (Z.eqb_spec i k); [lia|]. destruct (Z.ltb_spec k i); [|lia]. destruct (Z.leb_spec i j); [|lia]. destruct (Z.ltb_spec i (k + 1)), (Z.ltb_spec i k); try lia. cbn [andb].
    unfold td_z2. rewrite step_gamma, !step_z by (auto; lia). fold (y i) (y j). change (Rs 0 m (fun r => tail v (k + 1) r * Rs 0 m (fun s => tail v (k + 1) s * C s r))%R) with (Rs 0 m (fun r => tail v (k + 1) r * y r)%R).
    generalize (Rs 0 m (fun r => tail v (k + 1) r * y r)%R) (y i) (y j) (v i) (v j). intros. change (@fsub ROps) with Rminus. change (@fadd ROps) with Rplus. change (@fmul ROps) with Rmult.
    pose proof (c_nonzero m (M k) (k + 1) Ha) as Hc. fold a in Hc. fold (td_v (O := ROps) m M k (k + 1)) in Hc. generalize dependent (a * v (k + 1)%Z)%R. intros. toR. field. auto. }
  rewrite (tail_lt _ _ i), (tail_ge _ _ j) by lia. unfold Rdiv. rewrite !Rmult_0_l, !Rplus_0_r.
  destruct (Z.eq_dec i k) as [->|Hne].
  - unfold y. rewrite step_y by lia.
    rewrite (Rs_ext (k + 1) m _ (fun r => hh_v (O := ROps) m (M k) (k + 1) r * M k r)%R) by (intros; rewrite Z.min_r, Z.max_l by lia; auto).
    rewrite v_x by (auto; lia). pose proof (c_nonzero m (M k) (k + 1) Ha) as Hc. fold a in Hc |- *. fold (td_v (O := ROps) m M k (k + 1)) in Hc |- *.
    replace (v j * - (a * v (k + 1)%Z) * / (a * v (k + 1)%Z))%R with (- v j)%R by (generalize dependent (a * v (k + 1)%Z)%R; intros; field; auto).
    unfold td_v. rewrite v_eq by auto. unfold td_U, td_upd. zbq; subst; auto; fold a; symmetry; toR; ring.
  - replace (y i) with 0%R.
    + rewrite Rmult_0_r, Rmult_0_l, Rplus_0_r. unfold td_U, td_upd. zbq; auto.
    + symmetry. apply Rs_zero. intros r Hr. unfold tail. destruct (Z.ltb_spec r (k + 1)); [ring|]. unfold mirror, td_U. zbq; try ring.
Qed.
End Step.
Lemma tinv_step A k M D Sc : 0 <= k < m - 1 -> tinv A k M D Sc -> let '(M', D', Sc') := td_stp (O := ROps) m k (M, D, Sc) in tinv A (k + 1) M' D' Sc'.
Proof.
  intros Hk [I1 I2]. cbn [td_stp]. set (M' := td_M (O := ROps) m M k). set (D' := td_upd (O := ROps) D k (M k k)). set (Sc' := td_upd (O := ROps) Sc k (td_a (O := ROps) m M k)).
  assert (EM : forall i j, i < k -> M' i j = M i j) by (intros; unfold M', td_M; zbq; destruct (feq _ _); auto).
  assert (ES : forall i, i < k -> Sc' i = Sc i) by (intros; unfold Sc', td_upd; zbq; auto).
  assert (EG : meq m m (td_G M' Sc' k) (td_G M Sc k)) by (apply td_G_ext; [lia| |]; intros; [apply EM|apply ES]; lia).
  assert (Sk : Sc' k = td_a (O := ROps) m M k) by (unfold Sc', td_upd; rewrite Z.eqb_refl; auto).
  assert (Mk : forall j, M' k j = td_v (O := ROps) m M k j) by (intros; apply M'_row).
  assert (EW : forall i j, td_W M' Sc' k i j = refl (tail (td_v (O := ROps) m M k) (k + 1)) (td_a (O := ROps) m M k * td_v (O := ROps) m M k (k + 1)%Z) i j).
  { intros. unfold td_W, refl, tail. rewrite Sk, !Mk. auto. }
  assert (HB : meq m m (mirror (td_U M' D' Sc' (k + 1))) (mmul m (mmul m (td_W M' Sc' k) (mirror (td_U M D Sc k))) (td_W M' Sc' k))).
  { intros i j Hi Hj.
    rewrite (mmul_ext m _ (mmul m (refl (tail (td_v (O := ROps) m M k) (k + 1)) (td_a (O := ROps) m M k * td_v (O := ROps) m M k (k + 1)%Z)) (mirror (td_U M D Sc k))) _ (refl (tail (td_v (O := ROps) m M k) (k + 1)) (td_a (O := ROps) m M k * td_v (O := ROps) m M k (k + 1)%Z))).
    2:{ intros r Hr. apply mmul_ext; auto. }
    2:{ intros r Hr. apply EW. }
    destruct (Z_le_gt_dec i j).
    - rewrite <- step_B by lia. unfold mirror. rewrite Z.min_l, Z.max_r by lia. auto.
    - rewrite mirror_sym. unfold mirror at 1. rewrite Z.min_l, Z.max_r by lia. unfold M', D', Sc'. rewrite step_B by lia.
      rewrite !refl_conj by (auto; intros; apply mirror_sym). rewrite (mirror_sym _ j i). unfold Rdiv. ring. }
  split.
  - intros q Hq. destruct (Z.eq_dec q k) as [->|].
    + rewrite Sk, Mk. etransitivity; [|apply (tail_sq m (M k) (k + 1)); lia]. apply Rs_ext. intros r Hr. unfold tail. rewrite Mk. auto.
    + rewrite ES, EM by lia. rewrite <- I1 by lia. apply Rs_ext. intros r Hr. unfold tail. rewrite EM by lia. auto.
  - intros i j Hi Hj. rewrite HB by auto. rewrite td_G_S by lia.
    transitivity (mmul m (mmul m (td_W M' Sc' k) (mmul m (mmul m (td_G M' Sc' k) (mirror A)) (trm (td_G M' Sc' k)))) (td_W M' Sc' k) i j).
    { apply meq_mmul with (r := m) (c := m); auto; [|apply meq_refl]. apply meq_mmul; [apply meq_refl|]. intros a b Ha Hb. rewrite I2 by auto.
      apply mmul_ext; [|intros; symmetry; apply (meq_tr m m _ _ EG); auto]. intros r Hr. apply mmul_ext; auto. intros. symmetry. apply EG; auto. }
    rewrite (mmul_ext m (mmul m (mmul m (td_W M' Sc' k) (td_G M' Sc' k)) (mirror A)) (mmul m (td_W M' Sc' k) (mmul m (td_G M' Sc' k) (mirror A))) (trm (mmul m (td_W M' Sc' k) (td_G M' Sc' k))) (mmul m (trm (td_G M' Sc' k)) (td_W M' Sc' k))).
    3:{ intros r Hr. rewrite trm_mmul. apply mmul_ext; auto. intros q Hq. unfold trm. apply refl_sym. }
    2:{ intros r Hr. apply mmul_assoc. }
    rewrite <- (mmul_assoc m m _ (trm (td_G M' Sc' k))). apply mmul_ext; auto. intros r Hr. rewrite mmul_assoc. auto.
Qed.
Lemma tinv_iter A k : 0 <= k -> k <= m - 1 -> let '(M, D, Sc) := td_iter (O := ROps) m A k in tinv A k M D Sc.
Proof.
  intros H. pattern k. apply natlike_ind; auto.
  - intros _. apply tinv_0.
  - intros t Ht IH Hk. change (Z.succ t) with (t + 1) in *. unfold td_iter. rewrite accum_S by auto. fold (td_iter (O := ROps) m A t). specialize (IH ltac:(lia)).
    destruct (td_iter (O := ROps) m A t) as [[M D] Sc]. apply (tinv_step A t M D Sc); auto. lia.
Qed.
Lemma tinv_fin A : 1 <= m -> let '(M, D, Sc) := td_fin (O := ROps) m A in tinv A (m - 1) M D Sc /\ D (m - 1)%Z = M (m - 1)%Z (m - 1)%Z.
Proof.
  intros Hm. unfold td_fin. pose proof (tinv_iter A (m - 1) ltac:(lia) ltac:(lia)) as K. destruct (td_iter (O := ROps) m A (m - 1)) as [[M D] Sc].
  split; [|unfold td_upd; rewrite Z.eqb_refl; auto]. destruct K as [K1 K2]. split; auto. intros i j Hi Hj. rewrite <- K2 by auto. unfold mirror, td_U, td_upd. zbq; auto.
Qed.
End Inv.

Section Done.
Variable m : Z.
Variable A M : Z -> Z -> R.
Variables D Sc : Z -> R.
Hypothesis Hm1 : 1 <= m.
Hypothesis Inv : tinv m A (m - 1) M D Sc.
Hypothesis Dlast : D (m - 1) = M (m - 1) (m - 1).
Notation QT := (td_tabQT (O := ROps) m M Sc).
Notation T := (td_tabT (O := ROps) D Sc).
Notation G := (td_G m M Sc (m - 1)).

Definition tqf (k i j : Z) : R := if (i <? k) || (j <? k) then idm i j else tq_iter (O := ROps) m M Sc k i j.
Lemma tq_zero k i j : 1 <= k <= m -> i < k \/ j < k -> tq_iter (O := ROps) m M Sc k i j = 0%R.
Proof.
  intros [Hk Hkm]. revert i j. replace k with (m - (m - k)) by lia. assert (Hq : 0 <= m - k) by lia. assert (Hq2 : m - k <= m - 1) by lia. revert Hq2. pattern (m - k).
  apply natlike_ind; auto.
  - intros _ i j Hij. rewrite Z.sub_0_r. unfold tq_iter. rewrite Z.sub_diag. auto.
  - intros t Ht IH Hq2 i j Hij. change (Z.succ t) with (t + 1) in *. rewrite tq_iter_S by lia. replace (m - (t + 1) + 1) with (m - t) by lia.
    unfold tq_step, tq_unit. specialize (IH ltac:(lia) i j ltac:(lia)). destruct (feq _ _); zbq; auto.
Qed.
Lemma tqf_step k : 1 <= k < m -> meq m m (tqf k) (mmul m (tqf (k + 1)) (td_W M Sc (k - 1))).
Proof.
  intros Hk i j Hi Hj. unfold td_W. replace (k - 1 + 1) with k by lia. rewrite refl_tail_r by lia.
  destruct (Z.ltb_spec i k) as [Hik|Hik].
  { rewrite Rs_zero; [|intros r Hr; unfold tqf; zbq; rewrite idm_diff by lia; ring]. unfold Rdiv. rewrite Rmult_0_r, Rmult_0_l, Rplus_0_r. unfold tqf. zbq; auto. }
  destruct (Z.leb_spec k j) as [Hjk|Hjk].
  2:{ unfold tqf. zbq; auto. }
  assert (EU : forall r, k <= r < m -> tq_unit (O := ROps) (tq_iter (O := ROps) m M Sc (k + 1)) k i r = tqf (k + 1) i r).
  { intros r Hr. unfold tq_unit, tqf. change (@fone ROps) with 1%R. destruct (Z.eqb_spec i k) as [->|], (Z.eqb_spec r k) as [->|]; cbn [andb].
    - zbq. rewrite idm_same. auto.
    - zbq. rewrite idm_diff by auto. apply tq_zero; lia.
    - zbq. rewrite idm_diff by auto. apply tq_zero; lia.
    - zbq. auto. }
  destruct Inv as [I1 _]. specialize (I1 (k - 1) ltac:(lia)). replace (k - 1 + 1) with k in I1 by lia.
  unfold tqf at 1. destruct (Z.ltb_spec i k), (Z.ltb_spec j k); try lia. cbn [orb]. rewrite tq_iter_S by lia.
  set (T0 := tq_iter (O := ROps) m M Sc (k + 1)) in *. unfold tq_step. change (@feq ROps) with Reqb. change (@fzero ROps) with 0%R. destruct (Reqb (M (k - 1) k) 0) eqn:E0.
  - apply Reqb_true in E0. rewrite EU by lia. rewrite E0, !Rmult_0_r in I1. pose proof (sq0 m _ I1 j Hj) as Ej. rewrite tail_ge in Ej by lia. rewrite Ej. unfold Rdiv. rewrite !Rmult_0_l. ring.
  - apply Reqb_false in E0.
    destruct (Req_dec (Sc (k - 1)) 0) as [ES|ES].
    { exfalso. rewrite ES, Rmult_0_l, Rmult_0_r in I1. pose proof (sq0 m _ I1 k ltac:(lia)) as Ej. rewrite tail_ge in Ej by lia. contradiction. }
    rewrite (Rs_first k m) by lia. destruct (Z.eqb_spec i k) as [->|].
    + rewrite <- (EU k) by lia. unfold tq_unit at 1. rewrite !Z.eqb_refl. cbn [andb].
      rewrite Rs_zero; [|intros r Hr; rewrite <- EU by lia; unfold tq_unit; zbq; unfold T0; rewrite tq_zero by lia; ring].
      change (@fadd ROps) with Rplus. change (@fmul ROps) with Rmult. change (@fdiv ROps) with Rdiv. change (@fone ROps) with 1%R.
      destruct (Z.eqb_spec j k) as [->|].
      * rewrite <- EU by lia. unfold tq_unit. rewrite Z.eqb_refl. cbn [andb]. change (@fone ROps) with 1%R. toR. field. auto.
      * zbq. rewrite <- EU by lia. unfold tq_unit. zbq. unfold T0. rewrite tq_zero by lia. toR. field. auto.
    + zbq.
      * subst j. rewrite <- EU by lia. unfold tq_unit. zbq. unfold T0. rewrite tq_zero by lia. fold T0.
        unfold tq_beta. rewrite fadds_R by lia. change (@fadd ROps) with Rplus. change (@fmul ROps) with Rmult. change (@fdiv ROps) with Rdiv. change (@fone ROps) with 1%R. change (@fzero ROps) with 0%R.
        rewrite (Rs_ext (k + 1) m (fun r => M (k - 1)%Z r * tqf (k + 1) i r)%R (fun r => T0 i r * M (k - 1)%Z r)%R) by (intros; rewrite <- EU by lia; unfold tq_unit; zbq; ring).
        generalize (Rs (k + 1) m (fun r => T0 i r * M (k - 1)%Z r)%R). intros. toR. field. auto.
      * rewrite <- !EU by lia. unfold tq_unit. zbq. assert (EZ : T0 i k = 0%R) by (apply tq_zero; lia). rewrite EZ.
        unfold tq_beta. rewrite fadds_R by lia. change (@fadd ROps) with Rplus. change (@fmul ROps) with Rmult. change (@fdiv ROps) with Rdiv. change (@fone ROps) with 1%R. change (@fzero ROps) with 0%R.
        rewrite (Rs_ext (k + 1) m (fun r => M (k - 1)%Z r * tqf (k + 1) i r)%R (fun r => T0 i r * M (k - 1)%Z r)%R) by (intros; rewrite <- EU by lia; unfold tq_unit; zbq; ring).
        generalize (Rs (k + 1) m (fun r => T0 i r * M (k - 1)%Z r)%R). intros. toR. field. auto.
Qed.
Lemma tqf_G k : 1 <= k <= m -> meq m m (mmul m (tqf k) (td_G m M Sc (k - 1))) G.
Proof.
  intros [Hk Hkm]. replace k with (m - (m - k)) by lia. assert (Hq : 0 <= m - k) by lia. assert (Hq2 : m - k <= m - 1) by lia. revert Hq2. pattern (m - k).
  apply natlike_ind; auto.
  - intros _. rewrite Z.sub_0_r. intros i j Hi Hj. rewrite (mmul_ext m _ idm _ G) by (auto; intros; unfold tqf; zbq; auto). apply mmul_1_l; auto.
  - intros t Ht IH Hq2. change (Z.succ t) with (t + 1) in *. specialize (IH ltac:(lia)). intros i j Hi Hj. rewrite <- IH by auto.
    set (q := m - (t + 1)). replace (m - t) with (q + 1) by lia. replace (q + 1 - 1) with (q - 1 + 1) by lia. rewrite td_G_S by lia. rewrite <- mmul_assoc.
    apply mmul_ext; auto. intros r Hr. apply tqf_step; auto. lia.
Qed.
Lemma td_QT_G : meq m m QT G.
Proof.
  intros i j Hi Hj. rewrite <- (tqf_G 1 ltac:(lia) i j Hi Hj). change (1 - 1) with 0. unfold td_G at 1. cbn [Z.to_nat accum]. rewrite mmul_1_r by auto.
  unfold td_tabQT, tq_unit, tqf. change (@fone ROps) with 1%R. zbq; subst; rewrite ?idm_same; auto; rewrite idm_diff by lia; apply tq_zero; lia.
Qed.
Lemma td_QT_orth : orthogonal m QT.
Proof. apply (orth_ext m G); [apply td_G_orth; [lia|apply (proj1 Inv)]|]. apply meq_sym, td_QT_G. Qed.
Lemma td_T_U : meq m m T (mmul m (mmul m G (mirror A)) (trm G)).
Proof.
  intros i j Hi Hj. rewrite <- (proj2 Inv) by auto. unfold mirror, td_U, td_tabT. change (@fzero ROps) with 0%R.
  destruct (Z_le_gt_dec i j); [rewrite Z.min_l, Z.max_r by lia|rewrite Z.min_r, Z.max_l by lia].
  - destruct (Z.ltb_spec i (m - 1)); [zbq; auto|]. replace i with (m - 1) by lia. replace j with (m - 1) by lia. rewrite Z.eqb_refl. auto.
  - zbq; auto.
Qed.
Lemma td_A : meq m m (mmul m (mmul m (trm QT) T) QT) (mirror A).
Proof.
  pose proof (td_G_orth m M Sc (m - 1) ltac:(lia) (proj1 Inv)) as [O1 O2].
  intros i j Hi Hj.
  rewrite (mmul_ext m _ (mmul m (trm G) (mmul m (mmul m G (mirror A)) (trm G))) _ G).
  2:{ intros r Hr. apply mmul_ext; intros; [apply (meq_tr m m _ _ td_QT_G)|apply td_T_U]; auto. }
  2:{ intros r Hr. apply td_QT_G; auto. }
  rewrite mmul_assoc. rewrite (mmul_ext m _ (trm G) _ (mmul m G (mirror A))); [|auto|].
  - rewrite <- mmul_assoc. rewrite (mmul_ext m _ idm (mirror A) (mirror A)) by (auto; intros; apply O1; auto). apply mmul_1_l; auto.
  - intros r Hr. rewrite mmul_assoc. rewrite (mmul_ext m _ (mmul m G (mirror A)) _ idm) by (auto; intros; apply O1; auto). apply mmul_1_r; auto.
Qed.
End Done.

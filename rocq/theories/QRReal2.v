(** Q, R and the solutions of linear systems by QR, in exact arithmetic. *)
From Coq Require Import ZArith List Lia Bool Reals Lra.
From Verif Require Import Base BaseLemmas Scalar Vector VecSpec VectorFacts Matrix MatSpec MatFacts TabTac FSum RealOps RSum Tri LUReal QR QRSpec QRFacts House QRReal CholFacts.
Open Scope Z_scope.

Lemma tail_lt v k i : i < k -> tail v k i = 0%R.
Proof. intros. unfold tail. destruct (Z.ltb_spec i k); [auto|lia]. Qed.
Lemma tail_ge v k i : k <= i -> tail v k i = v i.
Proof. intros. unfold tail. destruct (Z.ltb_spec i k); [lia|auto]. Qed.

Section Done.
Variables m n : Z.
Variable A : Z -> Z -> R.
Variable M : Z -> Z -> R.
Variable D : Z -> R.
Hypothesis Hm1 : 1 <= m.
Hypothesis Hn1 : 1 <= n.
Notation p := (Z.min m n).
Hypothesis Inv : qinv m n A p M D.
Notation QT := (tabQT (O := ROps) m n M D).
Notation RT := (tabR (O := ROps) m n M D).

Lemma Hm_zero k : 0 <= k < p -> (D k * M k k)%R = 0%R -> meq m m (Hm M D k) idm.
Proof.
  intros Hk Hz. destruct Inv as [I1 _]. specialize (I1 k Hk). rewrite Hz, Rmult_0_r in I1. apply refl_zero. apply sq0. auto.
Qed.
Definition Tf (k i j : Z) : R := if (i <? k) || (j <? k) then idm i j else qt_iter (O := ROps) m n M D k i j.

Lemma qt_zero k i j : 0 <= k <= p -> i < k \/ j < k -> (i < n \/ j <> i) -> qt_iter (O := ROps) m n M D k i j = 0%R.
Proof.
  intros [Hk Hkp]. revert i j. replace k with (p - (p - k)) by lia. assert (Hq : 0 <= p - k) by lia. assert (Hq2 : p - k <= p) by lia. revert Hq2. pattern (p - k).
  apply natlike_ind; auto.
  - intros _ i j Hij Hn. rewrite Z.sub_0_r. unfold qt_iter. rewrite Z.sub_diag. cbn [Z.to_nat accum]. unfold qt_init. zbq; auto.
  - intros t Ht IH Hq2 i j Hij Hn. change (Z.succ t) with (t + 1) in *. rewrite qt_iter_S by lia. replace (p - (t + 1) + 1) with (p - t) by lia.
    unfold qt_step, qt_unit. specialize (IH ltac:(lia) i j ltac:(lia) Hn). destruct (feq _ _); zbq; auto.
Qed.
Lemma Tf_p : meq m m (Tf p) idm.
Proof.
  intros i j Hi Hj. unfold Tf, qt_iter. rewrite Z.sub_diag. cbn [Z.to_nat accum]. unfold qt_init, idm. change (@fone ROps) with 1%R. change (@fzero ROps) with 0%R.
  destruct (i <? p) eqn:E1, (j <? p) eqn:E2; cbn [orb]; auto. apply Z.ltb_ge in E1, E2. zbq; auto.
Qed.
Lemma Tf_step k : 0 <= k < p -> meq m m (Tf k) (mmul m (Tf (k + 1)) (Hm M D k)).
Proof.
  intros Hk i j Hi Hj. unfold Hm. rewrite refl_r by auto.
  rewrite (Rs_low 0 k m) by (try lia; intros; rewrite tail_lt by lia; ring).
  destruct (Z.ltb_spec i k) as [Hik|Hik].
  { rewrite (Rs_zero k m) by (intros; unfold Tf; zbq; rewrite idm_diff by lia; ring). unfold Tf. zbq. unfold Rdiv. ring. }
  destruct (Z.ltb_spec j k) as [Hjk|Hjk].
  { rewrite (tail_lt _ _ j) by lia. unfold Tf. zbq; ring. }
  assert (EU : forall r, k <= r < m -> qt_unit (O := ROps) (qt_iter (O := ROps) m n M D (k + 1)) k i r = Tf (k + 1) i r).
  { intros r Hr. unfold qt_unit, Tf. change (@fone ROps) with 1%R. destruct (Z.eqb_spec i k) as [->|], (Z.eqb_spec r k) as [->|]; cbn [andb].
    - zbq. rewrite idm_same. auto.
    - zbq. rewrite idm_diff by auto. apply qt_zero; lia.
    - zbq. rewrite idm_diff by auto. apply qt_zero; lia.
    - zbq. auto. }
  rewrite (tail_ge _ _ j) by lia. unfold Tf at 1. destruct (Z.ltb_spec i k), (Z.ltb_spec j k); try lia. cbn [orb]. rewrite qt_iter_S by lia.
  unfold qt_step. change (@feq ROps) with Reqb. change (@fzero ROps) with 0%R. destruct (Reqb (M k k) 0) eqn:E0.
  - apply Reqb_true in E0. rewrite EU by lia. pose proof (Hm_zero k Hk ltac:(rewrite E0; ring)) as HZ.
    destruct Inv as [I1 _]. specialize (I1 k Hk). rewrite E0, !Rmult_0_r in I1. pose proof (sq0 m _ I1 j Hj) as Ej. rewrite tail_ge in Ej by lia. rewrite Ej. ring.
  - destruct (Z.leb_spec k i), (Z.leb_spec k j); try lia. cbn [andb]. rewrite EU by lia.
    unfold qt_alpha. rewrite fsubl_R by lia. change (@fneg ROps) with Ropp. change (@fadd ROps) with Rplus. change (@fmul ROps) with Rmult. change (@fdiv ROps) with Rdiv. change (@fzero ROps) with 0%R.
    rewrite (Rs_ext k m _ (fun r => Tf (k + 1) i r * tail (M k) k r)%R) by (intros r Hr; rewrite EU, tail_ge by lia; auto).
    unfold Rdiv. ring.
Qed.
Lemma Tf_G k : 0 <= k <= p -> meq m m (mmul m (Tf k) (Gk m M D k)) (Gk m M D p).
Proof.
  intros [Hk Hkp]. replace k with (p - (p - k)) by lia. assert (Hq : 0 <= p - k) by lia. assert (Hq2 : p - k <= p) by lia. revert Hq2. pattern (p - k).
  apply natlike_ind; auto.
  - intros _. rewrite Z.sub_0_r. intros i j Hi Hj. rewrite (mmul_ext m _ idm _ (Gk m M D p)) by (auto; intros; apply Tf_p; auto). apply mmul_1_l; auto.
  - intros t Ht IH Hq2. change (Z.succ t) with (t + 1) in *. specialize (IH ltac:(lia)). intros i j Hi Hj. rewrite <- IH by auto.
    set (k' := p - (t + 1)). replace (p - t) with (k' + 1) by lia. rewrite Gk_S by lia. rewrite <- mmul_assoc.
    apply mmul_ext; auto. intros r Hr. apply Tf_step; auto. lia.
Qed.
Lemma QT_G : meq m m QT (Gk m M D p).
Proof.
  intros i j Hi Hj. rewrite <- (Tf_G 0 ltac:(lia) i j Hi Hj). unfold Gk. cbn [Z.to_nat accum]. rewrite mmul_1_r by auto.
  unfold Tf, tabQT. zbq. auto.
Qed.
Lemma R_B : meq m n RT (Bk M D p).
Proof. intros i j Hi Hj. unfold tabR, Bk. change (@fzero ROps) with 0%R. zbq; subst; auto. Qed.

Lemma QT_orth : orthogonal m QT.
Proof. apply (orth_ext m (Gk m M D p)); [apply (Gk_orth m n A p M D); auto; lia|]. apply meq_sym, QT_G. Qed.
Lemma QT_A : meq m n (mmul m QT A) RT.
Proof.
  destruct Inv as [_ I2]. intros i j Hi Hj. rewrite R_B, I2 by auto. apply mmul_ext; auto. intros. apply QT_G; auto.
Qed.
Lemma Q_R : meq m n (mmul m (trm QT) RT) A.
Proof.
  intros i j Hi Hj. rewrite (mmul_ext m _ (trm QT) RT (mmul m QT A)) by (auto; intros; symmetry; apply QT_A; auto).
  rewrite <- mmul_assoc. rewrite (mmul_ext m _ idm A A) by (auto; intros; apply QT_orth; auto). apply mmul_1_l; auto.
Qed.
Lemma R_upper i j : 0 <= j < i -> i < m -> RT i j = 0%R.
Proof. intros. unfold tabR. change (@fzero ROps) with 0%R. zbq; auto. Qed.
Lemma R_diag i : 0 <= i < p -> RT i i = D i.
Proof. intros. unfold tabR. zbq. auto. Qed.
Lemma R_bottom i j : p <= i -> RT i j = 0%R.
Proof. intros. unfold tabR. change (@fzero ROps) with 0%R. zbq; auto. Qed.

(** Systems *)
Definition qsol (b x : Z -> R) : Prop :=
  (forall i, 0 <= i < p -> mvec n RT x i = mvec m QT b i) /\ (forall i, p <= i < n -> x i = 0%R).

Lemma step_refl k y i : 0 <= k < p -> 0 <= i < m ->
  (if k <=? i then (y i + Rs k m (fun r => y r * M k r) / (D k * M k k) * M k i)%R else y i) = mvec m (Hm M D k) y i.
Proof.
  intros Hk Hi. unfold Hm. rewrite refl_vec by auto. rewrite (Rs_low 0 k m) by (try lia; intros; rewrite tail_lt by lia; ring).
  rewrite (Rs_ext k m (fun r => tail (M k) k r * y r)%R (fun r => y r * M k r)%R) by (intros; rewrite tail_ge by lia; ring).
  destruct (Z.leb_spec k i); [rewrite tail_ge by lia; unfold Rdiv; ring|rewrite tail_lt by lia; unfold Rdiv; ring].
Qed.
Lemma y_G (step : Z -> (Z -> R) -> Z -> R) b :
  (forall k y i, 0 <= k < p -> 0 <= i < m -> step k y i = mvec m (Hm M D k) y i) ->
  forall i, 0 <= i < m -> accum step (Z.to_nat p) b i = mvec m QT b i.
Proof.
  intros Hs i Hi. rewrite (mvec_ext m QT (Gk m M D p) b b) by (auto; intros; apply QT_G; auto).
  assert (Hp : 0 <= p <= p) by lia. revert i Hi. destruct Hp as [Hp Hpp]. revert Hpp.
  apply (natlike_ind (fun k => k <= p -> forall i, 0 <= i < m -> accum step (Z.to_nat k) b i = mvec m (Gk m M D k) b i)); auto.
  - intros _ i Hi. unfold Gk. cbn [Z.to_nat accum]. rewrite mvec_1; auto.
  - intros t Ht IH Htp i Hi. change (Z.succ t) with (t + 1) in *. rewrite accum_S, Gk_S by lia. rewrite Hs by lia. rewrite mvec_mmul.
    apply mvec_ext; auto. intros r Hr. apply IH; auto. lia.
Qed.
Lemma sv_y_R b i : 0 <= i < m -> sv_y (O := ROps) m n M D b i = mvec m QT b i.
Proof.
  intros Hi. unfold sv_y. apply y_G; auto. intros k y r Hk Hr. rewrite <- step_refl by auto. unfold sv_step, sv_dot. rewrite fadds_R by lia.
  cbn. destruct (k <=? r); auto. rewrite Rplus_0_l. auto.
Qed.
Lemma sm_y_R b i : 0 <= i < m -> sm_y (O := ROps) m n M D b i = mvec m QT b i.
Proof.
  intros Hi. unfold sm_y. apply y_G; auto. intros k y r Hk Hr. rewrite <- step_refl by auto. unfold sm_step, sm_dot. rewrite fadds_R by lia.
  cbn. destruct (k <=? r); auto. rewrite Rplus_0_l. rewrite (Rs_ext k m (fun r0 => M k r0 * y r0)%R (fun r0 => y r0 * M k r0)%R) by (intros; ring). unfold Rdiv. ring.
Qed.
Lemma R_row x i : 0 <= i < p -> (forall j, p <= j < n -> x j = 0%R) -> mvec n RT x i = (D i * x i + Rs (i + 1) p (fun t => x t * M t i))%R.
Proof.
  intros Hi Hx. unfold mvec. rewrite (Rs_low 0 i n) by (try lia; intros; rewrite R_upper by lia; ring).
  rewrite (Rs_trunc i p n) by (try lia; intros; rewrite Hx by lia; ring). rewrite Rs_first by lia. rewrite R_diag by lia. f_equal.
  apply Rs_ext. intros t Ht. unfold tabR. zbq. ring.
Qed.
Hypothesis HD : forall i, 0 <= i < p -> D i <> 0%R.
Lemma sv_qsol b x : sv_sol (O := ROps) m n M D b x -> qsol b x.
Proof.
  intros [H1 H2]. split; auto. intros i Hi. rewrite R_row by auto. rewrite (H1 i Hi). rewrite fsubd_R by lia. rewrite sv_y_R by lia. cbn.
  field. apply HD. auto.
Qed.
Lemma sm_qsol b x : sm_sol (O := ROps) m n M D b x -> qsol b x.
Proof.
  intros [H1 H2]. split; auto. intros i Hi. rewrite R_row by auto. rewrite (H1 i Hi). rewrite fsubd_R by lia. rewrite sm_y_R by lia. cbn.
  field. apply HD. auto.
Qed.
Lemma qsol_unique b x x' : qsol b x -> qsol b x' -> forall i, 0 <= i < n -> x i = x' i.
Proof.
  intros [H1 H2] [H1' H2'] i Hi. destruct (Z_lt_le_dec i p) as [Hp|Hp]; [|rewrite H2, H2' by lia; auto].
  assert (E : (x i - x' i)%R = 0%R); [|lra]. revert Hp. cut (forall i, 0 <= i < p -> (fun k => x k - x' k)%R i = 0%R); [intros G Hp; apply (G i); lia|].
  apply (upper_inj p RT); auto.
  - intros q Hq. rewrite R_diag by auto. auto.
  - intros a c Hc Ha. apply R_upper; lia.
  - intros q Hq. pose proof (H1 q Hq) as E1. rewrite <- (H1' q Hq) in E1. rewrite mvec_minus.
    unfold mvec in *. rewrite (Rs_trunc 0 p n) in E1 by (try lia; intros; rewrite H2 by lia; ring). rewrite (Rs_trunc 0 p n (fun k => RT q k * x' k)%R) in E1 by (try lia; intros; rewrite H2' by lia; ring).
    lra.
Qed.
(** |A z - b| = |R z - QT b| *)
Lemma residual z b : norm2 m (fun i => mvec n A z i - b i)%R = norm2 m (fun i => mvec n RT z i - mvec m QT b i)%R.
Proof.
  rewrite <- (orth_norm m QT (fun i => mvec n A z i - b i)%R) by apply QT_orth. apply norm2_ext. intros i Hi.
  rewrite (mvec_minus m QT (mvec n A z) b). f_equal. rewrite <- mvec_mmul. apply mvec_ext; auto. intros. apply QT_A; auto.
Qed.
Lemma qsol_least b x z : n <= m -> qsol b x -> (norm2 m (fun i => mvec n A x i - b i) <= norm2 m (fun i => mvec n A z i - b i))%R.
Proof.
  intros Hnm [H1 _]. rewrite !residual. unfold norm2, dot. rewrite !(Rs_split 0 n m) by lia.
  rewrite (Rs_zero 0 n) by (intros; rewrite H1 by lia; ring).
  rewrite (Rs_ext n m (fun k => (mvec n RT x k - mvec m QT b k) * (mvec n RT x k - mvec m QT b k))%R (fun k => (mvec n RT z k - mvec m QT b k) * (mvec n RT z k - mvec m QT b k))%R).
  2:{ intros k Hk. assert (E : forall w, mvec n RT w k = 0%R) by (intros; apply Rs_zero; intros; rewrite R_bottom by lia; ring). rewrite !E. auto. }
  apply Rplus_le_compat_r. apply Rs_nonneg. intros. apply Rle_0_sqr.
Qed.
Lemma qsol_least_strict b x z : n <= m -> qsol b x -> (norm2 m (fun i => mvec n A z i - b i) <= norm2 m (fun i => mvec n A x i - b i))%R ->
  forall i, 0 <= i < n -> z i = x i.
Proof.
  intros Hnm Hx. pose proof Hx as [H1 _]. rewrite !residual. unfold norm2, dot. rewrite !(Rs_split 0 n m) by lia.
  rewrite (Rs_zero 0 n (fun k => (mvec n RT x k - mvec m QT b k) * (mvec n RT x k - mvec m QT b k))%R) by (intros; rewrite H1 by lia; ring).
  rewrite (Rs_ext n m (fun k => (mvec n RT x k - mvec m QT b k) * (mvec n RT x k - mvec m QT b k))%R (fun k => (mvec n RT z k - mvec m QT b k) * (mvec n RT z k - mvec m QT b k))%R).
  2:{ intros k Hk. assert (E : forall w, mvec n RT w k = 0%R) by (intros; apply Rs_zero; intros; rewrite R_bottom by lia; ring). rewrite !E. auto. }
  intros H. apply qsol_unique with (b := b); auto. split; [|intros; lia]. intros k Hk.
  assert (E : forall k, 0 <= k < n -> ((mvec n RT z k - mvec m QT b k) * (mvec n RT z k - mvec m QT b k))%R = 0%R).
  { apply Rs_eq0; [intros; apply Rle_0_sqr|]. apply Rplus_le_reg_r in H. apply Rle_antisym; [exact H|]. apply Rs_nonneg. intros. apply Rle_0_sqr. }
  specialize (E k ltac:(lia)). nra.
Qed.
Lemma qsol_exact b x : m <= n -> qsol b x -> forall i, 0 <= i < m -> mvec n A x i = b i.
Proof.
  intros Hmn [H1 _]. assert (E : norm2 m (fun i => mvec n A x i - b i)%R = 0%R).
  { rewrite residual. unfold norm2, dot. apply Rs_zero. intros k Hk. rewrite H1 by lia. ring. }
  intros i Hi. pose proof (sq0 m _ E i Hi) as E'. cbn beta in E'. lra.
Qed.
End Done.

(** For a tall or square matrix the R diagonal has no zero exactly when the
    columns are independent. *)
Lemma upper_singular n U k : 0 <= k < n -> U k k = 0%R -> (forall i, 0 <= i < k -> U i i <> 0%R) -> (forall i j, 0 <= j < i -> U i j = 0%R) ->
  exists w, w k = 1%R /\ (forall i, k < i -> w i = 0%R) /\ forall i, 0 <= i -> mvec n U w i = 0%R.
Proof.
  intros Hk Hz Hnz Hu. destruct (upper_solve k U (fun i => - U i k)%R ltac:(lia) Hnz) as (x & Hx); [intros; apply Hu; lia|].
  exists (fun i => if i <? k then x i else if i =? k then 1%R else 0%R). split; [zbq; auto|]. split; [intros; zbq; auto|].
  intros i Hi. unfold mvec. rewrite (Rs_trunc 0 (k + 1) n) by (try lia; intros; zbq; ring). rewrite Rs_last by lia.
  rewrite (Rs_ext 0 k _ (fun r => U i r * x r)%R) by (intros; zbq; auto). zbq.
  destruct (Z_lt_le_dec i k) as [Hik|Hik]; [pose proof (Hx i ltac:(lia)) as E; unfold mvec in E; rewrite E; ring|].
  rewrite Rs_zero by (intros; rewrite Hu by lia; ring). destruct (Z.eq_dec i k) as [->|]; [rewrite Hz|rewrite Hu by lia]; ring.
Qed.
Lemma first_zero (D : Z -> R) n : (forall i, 0 <= i < n -> D i <> 0%R) \/ exists k, 0 <= k < n /\ D k = 0%R /\ forall i, 0 <= i < k -> D i <> 0%R.
Proof.
  destruct (Z_lt_le_dec n 0) as [H|H]; [left; intros; lia|]. pattern n. apply natlike_ind; auto.
  - left. intros; lia.
  - intros k Hk [IH|(q & Hq & Hz & Hn)]; [|right; exists q; split; [lia|auto]].
    destruct (Req_dec (D k) 0) as [E|E]; [right; exists k; split; [lia|auto]|left]. intros i Hi. destruct (Z.eq_dec i k) as [->|]; auto. apply IH. lia.
Qed.
Lemma full_rank m n A M D : 1 <= n <= m -> qinv m n A (Z.min m n) M D ->
  ((forall i, 0 <= i < n -> D i <> 0%R) <-> independent m n A).
Proof.
  intros Hmn Inv. assert (Ep : Z.min m n = n) by lia.
  assert (EQ : forall w, (forall i, 0 <= i < m -> mvec n A w i = 0%R) <-> (forall i, 0 <= i < m -> mvec n (tabR (O := ROps) m n M D) w i = 0%R)).
  { intros w. split; intros H i Hi.
    - rewrite (mvec_ext n _ (mmul m (tabQT (O := ROps) m n M D) A) w w) by (auto; intros; symmetry; apply QT_A; auto; lia).
      rewrite mvec_mmul. apply mvec_zero. auto.
    - rewrite (mvec_ext n _ (mmul m (trm (tabQT (O := ROps) m n M D)) (tabR (O := ROps) m n M D)) w w) by (auto; intros; symmetry; apply Q_R; auto; lia).
      rewrite mvec_mmul. apply mvec_zero. auto. }
  split.
  - intros HD w Hw. apply (upper_inj n (tabR (O := ROps) m n M D)).
    + intros i Hi. rewrite R_diag by lia. auto.
    + intros. apply R_upper; lia.
    + intros i Hi. apply EQ; auto. lia.
  - intros Hind. destruct (first_zero D n) as [H|(k & Hk & Hz & Hnz)]; auto. exfalso.
    destruct (upper_singular n (fun i j => if i <? m then tabR (O := ROps) m n M D i j else 0%R) k) as (w & Hw1 & _ & Hw); auto.
    + zbq. rewrite R_diag by lia. auto.
    + intros i Hi. zbq. rewrite R_diag by lia. auto.
    + intros i j Hij. destruct (Z.ltb_spec i m); auto. apply R_upper; lia.
    + pose proof (Hind w) as G. rewrite (G (proj2 (EQ w) ltac:(intros i Hi; rewrite <- (Hw i) by lia; apply mvec_ext; auto; intros; cbn beta; zbq; auto)) k Hk) in Hw1. lra.
Qed.

(** The LU decomposition in exact arithmetic. *)
From Coq Require Import ZArith List Lia Bool Reals Lra.
From Verif Require Import Base BaseLemmas Scalar Vector VecSpec VectorFacts Matrix MatSpec MatFacts Array2D BlockM Diagonal RealMatrixM Array2DFacts MatrixOps TabTac LU LUSpec LUFacts LUFacts2 RealOps RSum Det Tri.
Import ListNotations.
Open Scope Z_scope.
#[local] Existing Instance ROps.

Lemma fsubs_R x n g : 0 <= n -> fsubs (O := ROps) x n g = (x - Rs 0 n g)%R.
Proof.
  intros Hn. pattern n. apply natlike_ind; auto.
  - rewrite fsubs_0, Rs_nil by lia. lra.
  - intros k Hk IH. change (Z.succ k) with (k + 1). rewrite fsubs_S, IH, Rs_last by lia. cbn. lra.
Qed.
Lemma fsubd_R x lo hi g : lo <= hi -> fsubd (O := ROps) x lo hi g = (x - Rs lo hi g)%R.
Proof.
  intros H. remember (Z.to_nat (hi - lo)) as k eqn:E. revert lo H E. induction k as [|k IH]; intros lo H E.
  - rewrite fsubd_nil, Rs_nil by lia. lra.
  - rewrite fsubd_S, (Rs_first lo hi), IH by lia. cbn. lra.
Qed.
Lemma accum_prod_R (g : Z -> R) n s : 0 <= n -> accum (fun i x => (x * g i)%R) (Z.to_nat n) s = (s * Rprod 0 n g)%R.
Proof.
  intros Hn. pattern n. apply natlike_ind; auto.
  - rewrite Rprod_nil by lia. cbn [Z.to_nat accum]. lra.
  - intros k Hk IH. change (Z.succ k) with (k + 1). rewrite accum_S, IH, Rprod_last by lia. ring.
Qed.
Lemma order_laws_R : order_laws (O := ROps).
Proof.
  split; [|split]; cbn.
  - intros x. apply Rltb_false. lra.
  - intros x y z H1 H2. apply Rltb_true in H1, H2. apply Rltb_true. lra.
  - discriminate.
Qed.

(** The tables L and U over the reals. *)
Definition LT (M : Z -> Z -> R) : Z -> Z -> R := tabL (O := ROps) M.
Definition UT (M : Z -> Z -> R) : Z -> Z -> R := tabU (O := ROps) M.
Lemma LT_low M i j : j < i -> LT M i j = M i j. Proof. intros. unfold LT, tabL. zb. auto. Qed.
Lemma LT_diag M i : LT M i i = 1%R. Proof. intros. unfold LT, tabL. zb. auto. Qed.
Lemma LT_up M i j : i < j -> LT M i j = 0%R. Proof. intros. unfold LT, tabL. zb. auto. Qed.
Lemma UT_up M i j : i <= j -> UT M i j = M i j. Proof. intros. unfold UT, tabU. zb. auto. Qed.
Lemma UT_low M i j : j < i -> UT M i j = 0%R. Proof. intros. unfold UT, tabU. zb. auto. Qed.

Section Done.
Variables (n : Z) (A : Z -> Z -> R) (thr : R) (M : Z -> Z -> R) (p : Z -> Z).
Hypothesis Hthr : (0 < thr)%R.

Lemma inv_pivot col : lu_inv (O := ROps) n A thr col M p -> forall j, 0 <= j < col -> M j j <> 0%R.
Proof.
  intros (_ & _ & I3 & _) j Hj E. specialize (I3 j Hj). cbn in I3. apply Rltb_false in I3. rewrite E, Rabs_R0 in I3. lra.
Qed.
(** Entry (i,j) of L*U for the columns already treated. *)
Lemma inv_entry col : col <= n -> lu_inv (O := ROps) n A thr col M p -> forall i j, 0 <= i < n -> 0 <= j < col ->
  Rs 0 col (fun t => LT M i t * UT M t j)%R = A (p i) j.
Proof.
  intros Hcol H i j Hi Hj. pose proof (inv_pivot col H) as Hp. destruct H as (I1 & I2 & _).
  destruct (Z.le_gt_cases i j) as [Hij|Hij].
  - rewrite (Rs_split 0 i col), (Rs_first i col), (Rs_zero (i + 1)) by (try lia; intros; rewrite LT_up by lia; ring).
    rewrite LT_diag, UT_up by lia. rewrite I1, fsubs_R by lia.
    rewrite (Rs_ext 0 i _ (fun t => M i t * M t j)%R) by (intros; rewrite LT_low, UT_up by lia; auto). cbn. ring.
  - destruct (I2 i j) as (c & Hc & Hv & _); try lia. rewrite fsubs_R in Hc by lia.
    rewrite (Rs_split 0 j col), (Rs_first j col), (Rs_zero (j + 1)) by (try lia; intros; rewrite (UT_low _ _ j) by lia; ring).
    rewrite LT_low, UT_up by lia. rewrite Hv. cbn [fdiv ROps].
    rewrite (Rs_ext 0 j _ (fun t => M i t * M t j)%R) by (intros; rewrite LT_low, UT_up by lia; auto). rewrite Hc. cbn. field. apply Hp. lia.
Qed.
Lemma inv_small col : lu_inv (O := ROps) n A thr col M p -> forall i j, 0 <= j < i -> i < n -> j < col -> (Rabs (M i j) <= 1)%R.
Proof.
  intros H i j Hj Hi Hc. pose proof (inv_pivot col H j ltac:(lia)) as Hp. destruct H as (_ & I2 & _). destruct (I2 i j) as (c & _ & Hv & Hm); try lia.
  specialize (Hm order_laws_R). cbn in Hm. apply Rltb_false in Hm. rewrite Hv. cbn. unfold Rdiv. rewrite Rabs_mult, Rabs_inv.
  pose proof (Rabs_pos_lt _ Hp). apply (Rmult_le_reg_r (Rabs (M j j))); auto. rewrite Rmult_assoc, Rinv_l by lra. lra.
Qed.

Hypothesis Hn : 0 <= n.
Hypothesis Inv : lu_inv (O := ROps) n A thr n M p.
Lemma done_LU : meq n n (mmul n (LT M) (UT M)) (fun i j => A (p i) j).
Proof. intros i j Hi Hj. apply (inv_entry n); auto. lia. Qed.
Lemma done_det e : swaps n e p -> det n A = ((if e then 1 else -1) * Rprod 0 n (fun i => M i i))%R.
Proof.
  intros Hs.
  assert (G : forall e q, swaps n e q -> det n (fun i j => A (q i) j) = ((if e then 1 else -1) * det n A)%R).
  { clear. induction 1 as [q H|e q q' k l Hs IH Hk Hl Hne Hq].
    - rewrite Rmult_1_l. apply det_ext. intros i j Hi Hj. rewrite H; auto.
    - rewrite (det_ext n _ (setrow2 (fun i j => A (q i) j) k l (fun j => A (q l) j) (fun j => A (q k) j))).
      + rewrite (det_swap n (fun i j => A (q i) j) k l) by auto. rewrite IH. destruct e; cbn; ring.
      + intros i j Hi Hj. rewrite Hq by auto. unfold setrow2, setrow, swp. zb; subst; auto; congruence. }
  specialize (G e p Hs). rewrite <- (det_ext n _ _ done_LU) in G.
  rewrite det_unit_lower in G by (auto; intros; first [apply LT_diag|apply LT_up; lia]).
  rewrite det_upper in G by (auto; intros; apply UT_low; lia).
  rewrite (Rprod_ext _ _ _ (fun i => M i i)) in G by (intros; apply UT_up; lia). destruct e; lra.
Qed.
Lemma done_solve b x : lu_sol (O := ROps) n M b x -> forall i, 0 <= i < n -> mvec n (mmul n (LT M) (UT M)) x i = b i.
Proof.
  intros (y & Hy & Hx) i Hi. rewrite mvec_mmul.
  assert (E : forall t, 0 <= t < n -> mvec n (UT M) x t = y t).
  { intros t Ht. unfold mvec. rewrite (Rs_split 0 t n), (Rs_first t n), (Rs_zero 0 t) by (try lia; intros; rewrite UT_low by lia; ring).
    rewrite UT_up by lia. rewrite (Rs_ext (t + 1) n _ (fun k => x k * M t k)%R) by (intros; rewrite UT_up by lia; ring).
    rewrite (Hx t) at 1 by auto. rewrite fsubd_R by lia. cbn. field. apply (inv_pivot n Inv); auto. }
  rewrite (mvec_ext n (LT M) (LT M) (mvec n (UT M) x) y) by auto. unfold mvec.
  rewrite (Rs_split 0 i n), (Rs_first i n), (Rs_zero (i + 1)) by (try lia; intros; rewrite LT_up by lia; ring). rewrite LT_diag.
  rewrite (Rs_ext 0 i _ (fun t => y t * M i t)%R) by (intros; rewrite LT_low by lia; ring).
  rewrite (Hy i) at 1 by auto. rewrite fsubs_R by lia. cbn. ring.
Qed.
Hypothesis Hp : permutes n p.
Lemma done_solve_A b x : lu_sol (O := ROps) n M (fun i => b (p i)) x -> forall i, 0 <= i < n -> mvec n A x i = b i.
Proof.
  intros Hs k Hk. destruct (proj2 (proj2 Hp) k Hk) as (i & Hi & <-). rewrite <- (done_solve _ _ Hs i Hi).
  change (mvec n A x (p i)) with (mvec n (fun i j => A (p i) j) x i). symmetry. apply mvec_ext; auto. intros. apply done_LU; auto.
Qed.
Lemma done_inj w : (forall i, 0 <= i < n -> mvec n A w i = 0%R) -> forall i, 0 <= i < n -> w i = 0%R.
Proof.
  intros H. apply (upper_inj n (UT M)).
  - intros. rewrite UT_up by lia. apply (inv_pivot n Inv); auto.
  - intros. apply UT_low. lia.
  - apply (lower_inj n (LT M)).
    + intros. rewrite LT_diag. lra.
    + intros. apply LT_up. lia.
    + intros i Hi. rewrite <- mvec_mmul. rewrite (mvec_ext n _ (fun i j => A (p i) j) w w); auto.
      * apply (H (p i)). apply Hp; auto.
      * intros. apply done_LU; auto.
Qed.
End Done.

(** A decomposition flagged singular exhibits an almost-null vector. *)
Lemma singular_witness n A thr M M0 p col max : (0 < thr)%R -> 0 <= col < n -> permutes n p -> lu_inv (O := ROps) n A thr col M0 p -> col <= max < n ->
  (forall i j, 0 <= i < n -> 0 <= j < col -> M i j = M0 i j) ->
  (forall i, 0 <= i < col -> M i col = fsubs (O := ROps) (A (p i) col) i (fun t => M0 i t * M t col)%R) ->
  (forall i, col <= i < n -> M i col = fsubs (O := ROps) (A (p i) col) col (fun t => M0 i t * M t col)%R) ->
  (forall i, col <= i < n -> Rltb (Rabs (M max col)) (Rabs (M i col)) = false) ->
  Rltb (Rabs (M max col)) thr = true ->
  exists x k, 0 <= k < n /\ x k = 1%R /\ forall i, 0 <= i < n -> (Rabs (mvec n A x i) < thr)%R.
Proof.
  intros Ht Hc Hp Inv Hm Ho Hup Hlo Hmx Hth.
  destruct (upper_solve col (UT M0) (fun t => - M t col)%R) as [z Hz]; [lia| | |].
  { intros. rewrite UT_up by lia. apply (inv_pivot n A thr M0 p Ht col Inv); auto. }
  { intros. apply UT_low. lia. }
  exists (fun t => if t <? col then z t else if t =? col then 1%R else 0%R), col. split; [auto|]. split; [zb; auto|].
  intros k Hk. destruct (proj2 (proj2 Hp) k Hk) as (i & Hi & <-). unfold mvec.
  rewrite (Rs_split 0 col n), (Rs_first col n), (Rs_zero (col + 1)) by (try lia; intros; zb; ring). zb. rewrite Rmult_1_r, Rplus_0_r.
  assert (E : Rs 0 col (fun t => A (p i) t * (if t <? col then z t else if t =? col then 1 else 0))%R = (- Rs 0 col (fun t => LT M0 i t * M t col))%R).
  { rewrite (Rs_ext 0 col _ (fun t => mmul col (LT M0) (UT M0) i t * z t)%R).
    - change (mvec col (mmul col (LT M0) (UT M0)) z i = (- Rs 0 col (fun t => LT M0 i t * M t col))%R). rewrite mvec_mmul. unfold mvec at 1.
      rewrite <- Rs_opp. apply Rs_ext. intros t Ht'. rewrite Hz by auto. ring.
    - intros t Ht'. zb. f_equal. symmetry. apply (inv_entry n A thr M0 p Ht col); auto; lia. }
  rewrite E. destruct (Z.lt_ge_cases i col) as [Hic|Hic].
  - rewrite (Rs_split 0 i col), (Rs_first i col), (Rs_zero (i + 1)) by (try lia; intros; rewrite LT_up by lia; ring).
    rewrite LT_diag, (Hup i), fsubs_R by lia. rewrite (Rs_ext 0 i _ (fun t => M0 i t * M t col)%R) by (intros; rewrite LT_low by lia; auto).
    match goal with |- (Rabs ?v < _)%R => replace v with 0%R by ring end. rewrite Rabs_R0. auto.
  - pose proof (Hlo i ltac:(lia)) as El. rewrite fsubs_R in El by lia. rewrite (Rs_ext 0 col _ (fun t => M0 i t * M t col)%R) by (intros; rewrite LT_low by lia; auto).
    replace (- Rs 0 col (fun t => M0 i t * M t col) + A (p i) col)%R with (M i col) by (rewrite Rplus_comm; exact El).
    specialize (Hmx i ltac:(lia)). apply Rltb_false in Hmx. apply Rltb_true in Hth. lra.
Qed.

(** The Cholesky decomposition in exact arithmetic. *)
From Coq Require Import ZArith List Lia Bool Reals Lra.
From Verif Require Import Base BaseLemmas Scalar Vector VecSpec VectorFacts Matrix MatSpec MatFacts Array2D BlockM Diagonal RealMatrixM Array2DFacts MatrixOps TabTac Cholesky CholSpec CholFacts RealOps RSum Det Tri LUReal.
Import ListNotations.
Open Scope Z_scope.
#[local] Existing Instance ROps.

(** Weighted sum of squares: the quadratic form of a table of the form
    sum_t M t i * M t j. *)
Lemma quad_gram n p (M : Z -> Z -> R) x : quad n (fun i j => Rs 0 p (fun t => M t i * M t j)%R) x = Rs 0 p (fun t => mvec n M x t * mvec n M x t)%R.
Proof.
  unfold quad, dot, mvec.
  rewrite (Rs_ext 0 n _ (fun i => Rs 0 p (fun t => (M t i * x i) * Rs 0 n (fun j => M t j * x j)))%R).
  - rewrite Rs_swap. apply Rs_ext. intros t Ht. rewrite Rs_scal_r. auto.
  - intros i Hi. rewrite (Rs_ext 0 n _ (fun j => Rs 0 p (fun t => M t i * (M t j * x j)))%R).
    + rewrite Rs_swap. rewrite <- Rs_scal_l. apply Rs_ext. intros t Ht. rewrite Rs_scal_l. ring.
    + intros j Hj. rewrite <- Rs_scal_r. apply Rs_ext. intros. ring.
Qed.
Lemma quad_ext n A B x y : meq n n A B -> (forall i, 0 <= i < n -> x i = y i) -> quad n A x = quad n B y.
Proof.
  intros H Hx. unfold quad, dot. apply Rs_ext. intros i Hi. rewrite Hx by auto. f_equal. apply mvec_ext; auto.
Qed.
(** Only the leading entries matter when [x] is zero from [p] on. *)
Lemma quad_lead n p A x : 0 <= p <= n -> (forall i, p <= i < n -> x i = 0%R) -> quad n A x = quad p A x.
Proof.
  intros Hp Hx. unfold quad, dot. rewrite (Rs_trunc 0 p n) by (auto; intros; rewrite Hx by auto; ring).
  apply Rs_ext. intros i Hi. f_equal. unfold mvec. apply Rs_trunc; auto. intros. rewrite Hx by auto. ring.
Qed.

Section Inv.
Variables (n : Z) (A : Z -> Z -> R) (pos : R) (M : Z -> Z -> R) (k : Z).
Hypothesis Hpos : (0 <= pos)%R.
Hypothesis Hk : 0 <= k <= n.
Hypothesis HI : ch_inv (O := ROps) n A pos k M.

Lemma ci_pivot i : 0 <= i < k -> (0 < M i i)%R /\ (pos < M i i * M i i)%R /\ (M i i * M i i = A i i - Rs 0 i (fun t => M t i * M t i))%R.
Proof.
  intros Hi. destruct HI as (I1 & _). destruct (I1 i Hi) as (x & Hx & Hp & E). cbn in Hp. apply Rleb_false in Hp. rewrite fsubs_R in Hx by lia. cbn in Hx.
  change (fsqrt x) with (sqrt x) in E. assert (0 < x)%R by lra. rewrite E. rewrite sqrt_sqrt by lra. split; [apply sqrt_lt_R0; auto|]. split; [auto|]. exact Hx.
Qed.
Lemma ci_low i j : 0 <= j < i -> i < n -> M i j = 0%R.
Proof. destruct HI as (_ & _ & _ & I4). apply I4. Qed.
Lemma ci_row i j : 0 <= i < k -> i <= j < n -> A i j = Rs 0 (i + 1) (fun t => M t i * M t j)%R.
Proof.
  intros Hi Hj. destruct (ci_pivot i Hi) as (P1 & P2 & P3). rewrite Rs_last by lia. destruct (Z.eq_dec j i) as [->|].
  - rewrite P3. ring.
  - destruct HI as (_ & I2 & _). rewrite (I2 i j) by lia. rewrite fsubs_R by lia. cbn. field. lra.
Qed.
Lemma ci_sum i j p : 0 <= i < k -> i <= j < n -> i < p <= n -> Rs 0 p (fun t => M t i * M t j)%R = A i j.
Proof.
  intros Hi Hj Hp. rewrite (ci_row i j) by auto. apply Rs_trunc; [lia|]. intros t Ht. rewrite (ci_low t i) by lia. ring.
Qed.
End Inv.

Section Done.
Variables (n : Z) (A : Z -> Z -> R) (pos : R) (M : Z -> Z -> R).
Hypothesis Hn : 0 <= n.
Hypothesis Hpos : (0 <= pos)%R.
Hypothesis HI : ch_inv (O := ROps) n A pos n M.

Lemma cd_gram : meq n n (fun i j => Rs 0 n (fun t => M t i * M t j)%R) (mirror A).
Proof.
  intros i j Hi Hj. unfold mirror. destruct (Z.le_gt_cases i j).
  - rewrite Z.min_l, Z.max_r by lia. apply (ci_sum n A pos M n); auto; lia.
  - rewrite Z.min_r, Z.max_l by lia. transitivity (Rs 0 n (fun t => M t j * M t i)%R); [apply Rs_ext; intros; ring|]. apply (ci_sum n A pos M n); auto; lia.
Qed.
Lemma cd_quad x : quad n (mirror A) x = Rs 0 n (fun t => mvec n M x t * mvec n M x t)%R.
Proof. rewrite <- quad_gram. apply quad_ext; auto. apply meq_sym. apply cd_gram. Qed.
Lemma cd_diag i : 0 <= i < n -> (0 < M i i)%R.
Proof. intros Hi. apply (ci_pivot n A pos M n); auto; lia. Qed.
Lemma cd_low i j : 0 <= j < i -> i < n -> M i j = 0%R.
Proof. intros. apply (ci_low n A pos M n); auto; lia. Qed.
Lemma cd_above k x : 0 <= k < n -> x k = 1%R -> (forall j, k < j < n -> x j = 0%R) -> (pos < quad n (mirror A) x)%R.
Proof.
  intros Hk H1 H0. rewrite cd_quad. assert (P : (pos < M k k * M k k)%R) by (apply (ci_pivot n A pos M n); auto; lia).
  eapply Rlt_le_trans; [exact P|].
  replace (M k k * M k k)%R with (mvec n M x k * mvec n M x k)%R; [apply (Rs_term 0 n (fun t => mvec n M x t * mvec n M x t)%R k); auto; intros; apply Rle_0_sqr|].
  assert (E : mvec n M x k = M k k); [|rewrite E; auto]. unfold mvec. rewrite (Rs_pick 0 n k); auto; [rewrite H1; ring|].
  intros i Hi Hne. destruct (Z.lt_ge_cases i k); [rewrite cd_low by lia|rewrite H0 by lia]; ring.
Qed.
Lemma cd_definite x : (exists i, 0 <= i < n /\ x i <> 0%R) -> (0 < quad n (mirror A) x)%R.
Proof.
  intros (i & Hi & Hx). rewrite cd_quad. destruct (Rle_lt_dec (Rs 0 n (fun t => mvec n M x t * mvec n M x t)%R) 0) as [Hle|]; auto. exfalso. apply Hx.
  assert (E0 : Rs 0 n (fun t => mvec n M x t * mvec n M x t)%R = 0%R).
  { apply Rle_antisym; auto. apply Rs_nonneg. intros. apply Rle_0_sqr. }
  apply (upper_inj n M x); auto.
  - intros j Hj. pose proof (cd_diag j Hj). lra.
  - intros a b Ha Hb. apply cd_low; auto.
  - intros j Hj. assert (E := Rs_eq0 0 n _ (fun k _ => Rle_0_sqr (mvec n M x k)) E0 j Hj). cbn beta in E. unfold Rsqr in E. apply Rmult_integral in E. tauto.
Qed.
Lemma cd_det : det n (mirror A) = Rprod 0 n (fun i => M i i * M i i)%R.
Proof.
  set (L := fun i j => (M j i / M j j)%R). set (U := fun i j => (M i i * M i j)%R).
  rewrite (det_ext n (mirror A) (mmul n L U)).
  - rewrite det_unit_lower; auto.
    + rewrite det_upper; auto. intros i j Hj Hi. unfold U. rewrite (cd_low i j) by lia. ring.
    + intros i Hi. unfold L. pose proof (cd_diag i Hi). field. lra.
    + intros i j Hi Hj. unfold L. rewrite (cd_low j i) by lia. unfold Rdiv. ring.
  - eapply meq_trans; [apply meq_sym; apply cd_gram|]. intros i j Hi Hj. unfold mmul. apply Rs_ext. intros t Ht. unfold L, U. pose proof (cd_diag t Ht). field. lra.
Qed.
Lemma cd_solve b x : ch_sol (O := ROps) n M b x -> forall i, 0 <= i < n -> mvec n (mirror A) x i = b i.
Proof.
  intros (y & Hy & Hx).
  assert (E1 : forall i, 0 <= i < n -> mvec n M x i = y i).
  { intros i Hi. unfold mvec. rewrite (Rs_split 0 i n), (Rs_zero 0 i), (Rs_first i n) by (try lia; intros; rewrite cd_low by lia; ring).
    rewrite (Hx i Hi) at 1. rewrite fsubd_R by lia. cbn. rewrite (Rs_ext (i + 1) n (fun t => M i t * x t)%R (fun t => x t * M i t)%R) by (intros; ring).
    pose proof (cd_diag i Hi). field. lra. }
  intros i Hi. rewrite (mvec_ext n _ (mmul n (fun a b => M b a) M) x x i) by (intros; auto; rewrite <- (cd_gram i k) by auto; reflexivity).
  rewrite mvec_mmul. rewrite (mvec_ext n _ (fun a b => M b a) _ y i) by auto. unfold mvec.
  rewrite (Rs_split 0 (i + 1) n), (Rs_zero (i + 1) n) by (try lia; intros; rewrite cd_low by lia; ring). rewrite Rs_last by lia.
  rewrite (Hy i Hi) at 1. rewrite fsubs_R by lia. cbn. rewrite (Rs_ext 0 i (fun t => M t i * y t)%R (fun t => y t * M t i)%R) by (intros; ring).
  pose proof (cd_diag i Hi). field. lra.
Qed.
Lemma cd_inj w : (forall i, 0 <= i < n -> mvec n (mirror A) w i = 0%R) -> forall i, 0 <= i < n -> w i = 0%R.
Proof.
  intros H i Hi. destruct (Req_dec (w i) 0) as [|Hne]; auto. exfalso.
  pose proof (cd_definite w (ex_intro _ i (conj Hi Hne))) as K. unfold quad, dot in K. rewrite Rs_zero in K; [lra|]. intros j Hj. rewrite H by auto. ring.
Qed.
End Done.

(** A rejected pivot. *)
Lemma ci_witness n A pos M k : (0 <= pos)%R -> 0 <= k < n -> ch_inv (O := ROps) n A pos k M -> (M k k <= pos)%R ->
  exists x, x k = 1%R /\ (forall j, k < j < n -> x j = 0%R) /\ (quad n (mirror A) x <= pos)%R.
Proof.
  intros Hpos Hk HI Hp.
  destruct (upper_solve k M (fun t => - M t k)%R ltac:(lia)) as (y & Hy).
  { intros i Hi. assert (0 < M i i)%R by (apply (ci_pivot n A pos M k); auto; lia). lra. }
  { intros i j Hj Hi. apply (ci_low n A pos M k); auto; lia. }
  set (x := fun j => if j <? k then y j else if j =? k then 1%R else 0%R). exists x.
  assert (X1 : x k = 1%R) by (unfold x; zb; auto). assert (X0 : forall j, k < j < n -> x j = 0%R) by (intros; unfold x; zb; auto).
  assert (Xy : forall j, 0 <= j < k -> x j = y j) by (intros; unfold x; zb; auto). clearbody x.
  split; [auto|]. split; [auto|]. rewrite (quad_lead n (k + 1)) by (try lia; intros; apply X0; lia).
  assert (G : forall i j, 0 <= i < k + 1 -> 0 <= j < k + 1 -> mirror A i j = (Rs 0 k (fun t => M t i * M t j) + (if (i =? k) && (j =? k) then M k k else 0))%R).
  { assert (G0 : forall i j, 0 <= i <= j -> j <= k -> A i j = (Rs 0 k (fun t => M t i * M t j) + (if (i =? k) && (j =? k) then M k k else 0))%R).
    { intros i j Hi Hj. destruct (Z.eqb_spec i k) as [->|].
      - assert (j = k) as -> by lia. rewrite Z.eqb_refl. cbn [andb]. destruct HI as (_ & _ & I3 & _). pose proof (I3 k k ltac:(lia) ltac:(lia)) as E3. rewrite fsubs_R in E3 by lia. change (M k k = A k k - Rs 0 k (fun t => M t k * M t k))%R in E3. lra.
      - cbn [andb]. rewrite Rplus_0_r. symmetry. apply (ci_sum n A pos M k); auto; lia. }
    intros i j Hi Hj. unfold mirror. destruct (Z.le_gt_cases i j).
    - rewrite Z.min_l, Z.max_r by lia. apply G0; lia.
    - rewrite Z.min_r, Z.max_l by lia. rewrite G0 by lia. rewrite andb_comm. f_equal. apply Rs_ext. intros. ring. }
  assert (E : quad (k + 1) (mirror A) x = (Rs 0 k (fun t => mvec (k + 1) M x t * mvec (k + 1) M x t) + M k k)%R).
  { rewrite (quad_ext _ _ _ x x G) by auto. rewrite <- quad_gram. unfold quad, dot.
    rewrite (Rs_ext 0 (k + 1) _ (fun i => x i * mvec (k + 1) (fun i j => Rs 0 k (fun t => M t i * M t j)) x i + (if i =? k then M k k else 0))%R).
    - rewrite Rs_plus. f_equal. rewrite (Rs_pick 0 (k + 1) k) by (try lia; intros; zb; auto). rewrite Z.eqb_refl. auto.
    - intros i Hi. unfold mvec. rewrite (Rs_ext 0 (k + 1) _ (fun j => Rs 0 k (fun t => M t i * M t j) * x j + (if (i =? k) && (j =? k) then M k k else 0) * x j)%R) by (intros; ring).
      rewrite Rs_plus, Rmult_plus_distr_l. f_equal. destruct (Z.eqb_spec i k) as [->|]; cbn [andb].
      + rewrite (Rs_pick 0 (k + 1) k) by (try lia; intros; zb; ring). rewrite Z.eqb_refl, X1. ring.
      + rewrite Rs_zero by (intros; ring). ring. }
  rewrite E. rewrite Rs_zero; [lra|]. intros t Ht. replace (mvec (k + 1) M x t) with 0%R; [ring|]. symmetry. unfold mvec. rewrite Rs_last by lia. rewrite X1.
  rewrite (Rs_ext 0 k _ (fun j => M t j * y j)%R) by (intros; rewrite Xy by auto; auto). specialize (Hy t Ht). unfold mvec in Hy. rewrite Hy. ring.
Qed.

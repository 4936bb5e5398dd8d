(** The bidiagonal transform in exact arithmetic. *)
From Coq Require Import ZArith List Lia Bool Reals Lra.
From Verif Require Import Base BaseLemmas Scalar Vector VecSpec VectorFacts Matrix MatSpec MatFacts TabTac FSum RealOps RSum Tri LUReal QR QRSpec QRFacts House QRReal QRReal2 CholFacts HessReal TridiagFacts TridiagReal Bidiag BidiagFacts.
Open Scope Z_scope.

Lemma bh_a_R m x k : bh_a (O := ROps) m x k = hh_a (O := ROps) m x k.
Proof.
  unfold bh_a, hh_a. destruct (fgt _ _); auto. change (@fneg ROps) with Ropp. change (@fmul ROps) with Rmult. change (@fone ROps) with 1%R.
  generalize (hh_norm (O := ROps) m x k). intros y. change (@F ROps) with R in y. toR. ring.
Qed.
Lemma bh_v_R m x k r : bh_v (O := ROps) m x k r = hh_v (O := ROps) m x k r.
Proof. unfold bh_v, hh_v. rewrite !bh_a_R. auto. Qed.
Lemma bh_alpha_R m x z k : k <= m -> bh_alpha (O := ROps) m x z k = hh_alpha (O := ROps) m x z k.
Proof.
  intros Hk. unfold bh_alpha, hh_alpha. rewrite bh_a_R, bh_v_R, !fsubl_R by auto. f_equal. f_equal. apply Rs_ext. intros. rewrite bh_v_R. auto.
Qed.

(** Products of reflections. *)
Section G.
Variables N off : Z.
Definition bW (W : Z -> Z -> R) (D : Z -> R) (q : Z) : Z -> Z -> R := refl (tail (W q) (q + off)) (D q * W q (q + off)%Z).
Definition bG (W : Z -> Z -> R) (D : Z -> R) (k : Z) : Z -> Z -> R := accum (fun t T => mmul N (bW W D t) T) (Z.to_nat k) idm.
Definition bsq (W : Z -> Z -> R) (D : Z -> R) (q : Z) : Prop :=
  Rs 0 N (fun r => tail (W q) (q + off) r * tail (W q) (q + off) r)%R = (-2 * (D q * W q (q + off)%Z))%R.
Lemma bG_S W D k : 0 <= k -> bG W D (k + 1) = mmul N (bW W D k) (bG W D k).
Proof. intros H. unfold bG. rewrite accum_S by auto. auto. Qed.
Lemma bW_ext W D W' D' q i j : 0 <= i < N -> 0 <= j < N -> q + off < N -> 0 <= q + off -> (forall r, q + off <= r < N -> W' q r = W q r) -> D' q = D q -> bW W' D' q i j = bW W D q i j.
Proof.
  intros Hi Hj Hq Hq0 HW HD. unfold bW, refl. rewrite HD, (HW (q + off)) by lia.
  assert (E : forall r, 0 <= r < N -> tail (W' q) (q + off) r = tail (W q) (q + off) r) by (intros r Hr; unfold tail; zbq; auto; apply HW; lia).
  rewrite !E by auto. auto.
Qed.
Lemma bG_ext W D W' D' k : 0 <= k -> 0 <= off -> k + off <= N -> (forall q r, 0 <= q < k -> q + off <= r < N -> W' q r = W q r) -> (forall q, 0 <= q < k -> D' q = D q) ->
  meq N N (bG W' D' k) (bG W D k).
Proof.
  intros H Ho. pattern k. apply natlike_ind; auto.
  - intros _ _ _ i j _ _. reflexivity.
  - intros t Ht IH Htn HW HD. change (Z.succ t) with (t + 1) in *. rewrite !bG_S by auto. intros i j Hi Hj.
    apply mmul_ext.
    + intros r Hr. apply bW_ext; auto; try lia; intros; [apply HW|apply HD]; lia.
    + intros r Hr. apply IH; auto; try lia; intros; [apply HW|apply HD]; lia.
Qed.
Lemma bsq_ext W D W' D' q : q + off < N -> 0 <= q + off -> (forall r, q + off <= r < N -> W' q r = W q r) -> D' q = D q -> bsq W D q -> bsq W' D' q.
Proof.
  intros Hq Hq0 HW HD H. unfold bsq. rewrite HD, HW by lia. rewrite <- H. apply Rs_ext. intros r Hr. unfold tail. zbq; auto. rewrite HW by lia. auto.
Qed.
Lemma bG_orth W D k : 0 <= k -> (forall q, 0 <= q < k -> bsq W D q) -> orthogonal N (bG W D k).
Proof.
  intros H. pattern k. apply natlike_ind; auto.
  - intros _. apply orth_id.
  - intros t Ht IH I1. change (Z.succ t) with (t + 1) in *. rewrite bG_S by auto. apply orth_mmul.
    + apply refl_orth. apply I1. lia.
    + apply IH. intros. apply I1. lia.
Qed.

(** The tables of U and V. *)
Variable p : Z.
Variable W : Z -> Z -> R.
Variable D : Z -> R.
Hypothesis Ho : 0 <= off <= 1.
Hypothesis Hp : 1 <= p <= N.
Hypothesis Hop : off <= p.
Hypothesis Sq : forall q, 0 <= q < p - off -> bsq W D q.
Definition baf (k i j : Z) : R := if (i <? k) || (j <? k) then idm i j else ba_iter (O := ROps) N p off W D k i j.
Lemma ba_zero k i j : 0 <= k <= p -> i < k \/ j < k -> i < p \/ j <> i -> ba_iter (O := ROps) N p off W D k i j = 0%R.
Proof.
  intros [Hk Hkp]. revert i j. replace k with (p - (p - k)) by lia. assert (Hq : 0 <= p - k) by lia. assert (Hq2 : p - k <= p) by lia. revert Hq2. pattern (p - k).
  apply natlike_ind; auto.
  - intros _ i j Hij Hn. rewrite Z.sub_0_r. unfold ba_iter. rewrite Z.sub_diag. cbn [Z.to_nat accum]. unfold ba_init. zbq; auto.
  - intros t Ht IH Hq2 i j Hij Hn. change (Z.succ t) with (t + 1) in *. rewrite ba_iter_S by lia. replace (p - (t + 1) + 1) with (p - t) by lia.
    unfold ba_step, tq_unit. specialize (IH ltac:(lia) i j ltac:(lia) Hn). destruct (feq _ _); zbq; auto.
Qed.
Lemma baf_p : meq N N (baf p) idm.
Proof.
  intros i j Hi Hj. unfold baf, ba_iter. rewrite Z.sub_diag. cbn [Z.to_nat accum]. unfold ba_init, idm. change (@fone ROps) with 1%R. change (@fzero ROps) with 0%R. zbq; auto.
Qed.
Lemma baf_step k : off <= k < p -> meq N N (baf k) (mmul N (bW W D (k - off)) (baf (k + 1))).
Proof.
  intros Hk i j Hi Hj. unfold bW. replace (k - off + off) with k by lia. rewrite refl_tail_l by lia.
  destruct (Z.leb_spec k i) as [Hik|Hik]; [|unfold baf; zbq; auto].
  destruct (Z.ltb_spec j k) as [Hjk|Hjk].
  { rewrite Rs_zero; [|intros r Hr; unfold baf; zbq; rewrite idm_diff by lia; ring]. unfold Rdiv. rewrite Rmult_0_r, Rmult_0_l, Rplus_0_r. unfold baf. zbq; auto. }
  assert (EU : forall r, k <= r < N -> tq_unit (O := ROps) (ba_iter (O := ROps) N p off W D (k + 1)) k r j = baf (k + 1) r j).
  { intros r Hr. unfold tq_unit, baf. change (@fone ROps) with 1%R. destruct (Z.eqb_spec r k) as [->|], (Z.eqb_spec j k) as [->|]; cbn [andb].
    - zbq. rewrite idm_same. auto.
    - zbq. rewrite idm_diff by auto. apply ba_zero; lia.
    - zbq. rewrite idm_diff by auto. apply ba_zero; lia.
    - zbq. auto. }
  pose proof (Sq (k - off) ltac:(lia)) as I1. unfold bsq in I1. replace (k - off + off) with k in I1 by lia.
  unfold baf at 1. destruct (Z.ltb_spec i k), (Z.ltb_spec j k); try lia. cbn [orb]. rewrite ba_iter_S by lia.
  unfold ba_step. change (@feq ROps) with Reqb. change (@fzero ROps) with 0%R. destruct (Reqb (W (k - off) k) 0) eqn:E0.
  - apply Reqb_true in E0. rewrite EU by lia. rewrite E0, !Rmult_0_r in I1. pose proof (sq0 N _ I1 i Hi) as Ej. rewrite tail_ge in Ej by lia. rewrite Ej. unfold Rdiv. rewrite !Rmult_0_l. ring.
  - destruct (Z.leb_spec k i), (Z.leb_spec k j); try lia. cbn [andb]. rewrite EU by lia.
    unfold ba_alpha. rewrite fsubl_R by lia. change (@fneg ROps) with Ropp. change (@fadd ROps) with Rplus. change (@fmul ROps) with Rmult. change (@fdiv ROps) with Rdiv. change (@fzero ROps) with 0%R.
    rewrite (Rs_ext k N _ (fun r => W (k - off)%Z r * baf (k + 1) r j)%R) by (intros r Hr; rewrite EU by lia; apply Rmult_comm).
    unfold Rdiv. toR. ring.
Qed.
Lemma baf_G k : off <= k <= p -> meq N N (mmul N (trm (bG W D (k - off))) (baf k)) (trm (bG W D (p - off))).
Proof.
  intros [Hk Hkp]. replace k with (p - (p - k)) by lia. assert (Hq : 0 <= p - k) by lia. assert (Hq2 : p - k <= p - off) by lia. revert Hq2. pattern (p - k).
  apply natlike_ind; auto.
  - intros _. rewrite Z.sub_0_r. intros i j Hi Hj. rewrite (mmul_ext N _ (trm (bG W D (p - off))) _ idm) by (auto; intros; apply baf_p; auto). apply mmul_1_r; auto.
  - intros t Ht IH Hq2. change (Z.succ t) with (t + 1) in *. specialize (IH ltac:(lia)). intros i j Hi Hj. rewrite <- IH by auto.
    set (q := p - (t + 1)). replace (p - t) with (q + 1) by lia. replace (q + 1 - off) with (q - off + 1) by lia. rewrite bG_S by lia.
    rewrite (mmul_ext N (trm (mmul N (bW W D (q - off)) (bG W D (q - off)))) (mmul N (trm (bG W D (q - off))) (bW W D (q - off))) _ (baf (q + 1))).
    3: auto. 2:{ intros r Hr. rewrite trm_mmul. apply mmul_ext; auto. intros. unfold trm. apply refl_sym. }
    rewrite mmul_assoc. apply mmul_ext; auto. intros r Hr. apply baf_step; auto. lia.
Qed.
Lemma ba_G : meq N N (ba_tab (O := ROps) N p off W D) (trm (bG W D (p - off))).
Proof.
  intros i j Hi Hj. rewrite <- (baf_G off ltac:(lia) i j Hi Hj). rewrite Z.sub_diag. unfold bG. cbn [Z.to_nat accum].
  rewrite (mmul_ext N (trm idm) idm _ (baf off)) by (auto; intros; apply trm_idm). rewrite mmul_1_l by auto.
  unfold ba_tab, baf. destruct (Z.ltb_spec 0 off); [|zbq; auto]. assert (Eo : off = 1) by lia. unfold tq_unit. change (@fone ROps) with 1%R.
  zbq; subst; rewrite ?idm_same; auto; rewrite idm_diff by lia; apply ba_zero; lia.
Qed.
End G.

Section Inv.
Variables m n : Z.
Hypothesis Hmn : 1 <= n <= m.
Definition BB (M : Z -> Z -> R) (D Sc : Z -> R) (kr kc i j : Z) : R :=
  if i <? kr then (if i =? j then D i else if j =? i + 1 then Sc i else 0%R) else
  if j <? kc then (if i =? j then D j else 0%R) else M i j.
Notation GL M D k := (bG m 0 (flip (O := ROps) M) D k).
Notation GR M Sc k := (bG n 1 M Sc k).
Definition binv (A : Z -> Z -> R) (k : Z) (M : Z -> Z -> R) (D Sc : Z -> R) : Prop :=
  (forall q, 0 <= q < k -> bsq m 0 (flip (O := ROps) M) D q) /\
  (forall q, 0 <= q < Z.min k (n - 1) -> bsq n 1 M Sc q) /\
  meq m n (BB M D Sc k k) (mmul n (mmul m (GL M D k) A) (trm (GR M Sc (Z.min k (n - 1))))).

(** The column step. *)
Lemma col_W M D k : 0 <= k < n -> let x := fun r => M r k in
  let M' := bc_M (O := ROps) m k k M in let D' := td_upd (O := ROps) D k (bh_a (O := ROps) m x k) in
  (forall r, M' r k = hh_v (O := ROps) m x k r) /\ D' k = hh_a (O := ROps) m x k /\
  (forall i j, i < k \/ j < k -> M' i j = M i j) /\ (forall q, q < k -> D' q = D q).
Proof.
  intros Hk x M' D'. refine (conj _ (conj _ (conj _ _))).
  - intros r. unfold M', bc_M. fold x. rewrite Z.eqb_refl, bh_v_R. change (@feq ROps) with Reqb. change (@fzero ROps) with 0%R.
    destruct (Reqb (bh_a (O := ROps) m x k) 0) eqn:E; auto. unfold hh_v. rewrite <- bh_a_R. change (@feq ROps) with Reqb. change (@fzero ROps) with 0%R. rewrite E. auto.
  - unfold D', td_upd. rewrite Z.eqb_refl. apply bh_a_R.
  - intros i j Hij. unfold M', bc_M. fold x. destruct (feq _ _); auto. destruct (Z.eqb_spec j k) as [->|]; [|zbq; auto].
    rewrite bh_v_R. unfold hh_v. destruct (feq _ _); auto. zbq; auto.
  - intros q Hq. unfold D', td_upd. zbq; auto.
Qed.
Lemma col_B M D Sc k : 0 <= k < n ->
  let M' := bc_M (O := ROps) m k k M in let D' := td_upd (O := ROps) D k (bh_a (O := ROps) m (fun r => M r k) k) in
  meq m n (BB M' D' Sc k (k + 1)) (mmul m (bW 0 (flip (O := ROps) M') D' k) (BB M D Sc k k)).
Proof.
  intros Hk M' D' i j Hi Hj. destruct (col_W M D k Hk) as (C1 & C2 & C3 & C4). set (x := fun r => M r k) in *. fold M' D' in C1, C2, C3, C4.
  assert (EW : forall i j, bW 0 (flip (O := ROps) M') D' k i j = refl (tail (hh_v (O := ROps) m x k) k) (hh_a (O := ROps) m x k * hh_v (O := ROps) m x k k) i j).
  { intros a b. unfold bW, refl, flip, tail. rewrite Z.add_0_r, C2, !C1. auto. }
  rewrite (mmul_ext m _ (refl (tail (hh_v (O := ROps) m x k) k) (hh_a (O := ROps) m x k * hh_v (O := ROps) m x k k)) _ (BB M D Sc k k)) by (auto; intros; apply EW).
  set (z := fun r => BB M D Sc k k r j).
  change (mmul m (refl (tail (hh_v (O := ROps) m x k) k) (hh_a (O := ROps) m x k * hh_v (O := ROps) m x k k)) (BB M D Sc k k) i j)
    with (mvec m (refl (tail (hh_v (O := ROps) m x k) k) (hh_a (O := ROps) m x k * hh_v (O := ROps) m x k k)) z i).
  destruct (Z.ltb_spec i k) as [Hik|Hik].
  { (* above: unchanged *)
    rewrite refl_vec by auto. rewrite (tail_lt _ _ i) by lia. unfold z, BB, Rdiv. rewrite !Rmult_0_l, Rplus_0_r. zbq; auto. }
  destruct (Z.ltb_spec j k) as [Hjk|Hjk].
  { rewrite refl_vec by auto. rewrite Rs_zero.
    - unfold z, BB, Rdiv. rewrite Rmult_0_r, Rmult_0_l, Rplus_0_r. zbq; auto.
    - intros r Hr. unfold tail, z, BB. zbq; try ring. }
  assert (Ez : forall r, k <= r < m -> z r = M r j) by (intros r Hr; unfold z, BB; zbq; auto).
  destruct (Z.eqb_spec j k) as [->|Hjk'].
  - (* the column itself *)
    assert (E1 : mvec m (refl (tail (hh_v (O := ROps) m x k) k) (hh_a (O := ROps) m x k * hh_v (O := ROps) m x k k)) z i =
                 mvec m (refl (tail (hh_v (O := ROps) m x k) k) (hh_a (O := ROps) m x k * hh_v (O := ROps) m x k k)) x i).
    { rewrite !refl_vec by auto. rewrite Ez by lia. change (M i k) with (x i). f_equal. f_equal. f_equal. apply Rs_ext. intros r Hr. unfold tail. zbq; [ring|]. rewrite Ez by lia. auto. }
    rewrite E1, refl_x by lia. unfold BB. rewrite C2. zbq; auto.
  - assert (EM : M' i j = if Reqb (hh_a (O := ROps) m x k) 0 then M i j else (M i j - hh_alpha (O := ROps) m x (fun r => M r j) k * hh_v (O := ROps) m x k i)%R).
    { unfold M', bc_M. fold x. change (@feq ROps) with Reqb. change (@fzero ROps) with 0%R. rewrite bh_a_R. destruct (Reqb _ _); auto. zbq. rewrite bh_alpha_R, bh_v_R by lia. auto. }
    unfold BB. destruct (Z.ltb_spec i k); [lia|]. destruct (Z.ltb_spec j (k + 1)); [lia|]. rewrite EM. destruct (Reqb (hh_a (O := ROps) m x k) 0) eqn:Ea.
    + apply Reqb_true in Ea. rewrite refl_z0 by (auto; lia). rewrite Ez by lia. auto.
    + apply Reqb_false in Ea. rewrite refl_z by (auto; lia). zbq. rewrite Ez by lia. f_equal. f_equal. unfold hh_alpha. rewrite !fsubl_R by lia. f_equal. f_equal.
      apply Rs_ext. intros r Hr. rewrite Ez by lia. auto.
Qed.
(** The row step. *)
Lemma row_W M Sc k : 0 <= k < n - 1 ->
  let M' := br_M (O := ROps) n k (k + 1) M in let Sc' := td_upd (O := ROps) Sc k (bh_a (O := ROps) n (M k) (k + 1)) in
  (forall r, M' k r = hh_v (O := ROps) n (M k) (k + 1) r) /\ Sc' k = hh_a (O := ROps) n (M k) (k + 1) /\
  (forall i j, i < k \/ j < k + 1 -> M' i j = M i j) /\ (forall q, q < k -> Sc' q = Sc q).
Proof.
  intros Hk M' Sc'. refine (conj _ (conj _ (conj _ _))).
  - intros r. unfold M', br_M, flip, bc_M. change (fun r => M k r) with (M k). rewrite Z.eqb_refl, bh_v_R. change (@feq ROps) with Reqb. change (@fzero ROps) with 0%R.
    destruct (Reqb (bh_a (O := ROps) n (M k) (k + 1)) 0) eqn:E; auto. unfold hh_v. rewrite <- bh_a_R. change (@feq ROps) with Reqb. change (@fzero ROps) with 0%R. rewrite E. auto.
  - unfold Sc', td_upd. rewrite Z.eqb_refl. apply bh_a_R.
  - intros i j Hij. unfold M', br_M, flip, bc_M. change (fun r => M k r) with (M k). destruct (feq _ _); auto. destruct (Z.eqb_spec i k) as [->|]; [|zbq; auto].
    rewrite bh_v_R. unfold hh_v. destruct (feq _ _); auto. zbq; auto.
  - intros q Hq. unfold Sc', td_upd. zbq; auto.
Qed.
Lemma row_B M D Sc k : 0 <= k < n - 1 ->
  let M' := br_M (O := ROps) n k (k + 1) M in let Sc' := td_upd (O := ROps) Sc k (bh_a (O := ROps) n (M k) (k + 1)) in
  meq m n (BB M' D Sc' (k + 1) (k + 1)) (mmul n (BB M D Sc k (k + 1)) (bW 1 M' Sc' k)).
Proof.
  intros Hk M' Sc' i j Hi Hj. destruct (row_W M Sc k Hk) as (C1 & C2 & C3 & C4). fold M' Sc' in C1, C2, C3, C4. set (x := M k) in *.
  set (H := refl (tail (hh_v (O := ROps) n x (k + 1)) (k + 1)) (hh_a (O := ROps) n x (k + 1) * hh_v (O := ROps) n x (k + 1) (k + 1)%Z)).
  assert (EW : forall i j, bW 1 M' Sc' k i j = H i j).
  { intros a b. unfold H, bW, refl, tail. rewrite C2, !C1. auto. }
  set (z := fun r => BB M D Sc k (k + 1) i r).
  transitivity (mvec n H z j).
  2:{ unfold mvec, mmul. apply Rs_ext. intros r Hr. rewrite EW. unfold H. rewrite refl_sym. apply Rmult_comm. }
  destruct (Z.ltb_spec j (k + 1)) as [Hjk|Hjk].
  { unfold H. rewrite refl_vec by auto. rewrite (tail_lt _ _ j) by lia. unfold z, BB, Rdiv. rewrite !Rmult_0_l, Rplus_0_r. unfold Sc', td_upd. zbq; auto. subst; auto. }
  destruct (Z.ltb_spec i k) as [Hik|Hik].
  { unfold H. rewrite refl_vec by auto. rewrite Rs_zero.
    - unfold z, BB, Rdiv. rewrite Rmult_0_r, Rmult_0_l, Rplus_0_r. zbq; auto.
    - intros r Hr. unfold tail, z, BB. zbq; try ring. }
  assert (Ez : forall r, k + 1 <= r < n -> z r = M i r) by (intros r Hr; unfold z, BB; zbq; auto).
  destruct (Z.eqb_spec i k) as [->|Hik'].
  - assert (E1 : mvec n H z j = mvec n H x j).
    { unfold H. rewrite !refl_vec by auto. rewrite Ez by lia. change (M k j) with (x j). f_equal. f_equal. f_equal. apply Rs_ext. intros r Hr. unfold tail. zbq; [ring|]. rewrite Ez by lia. auto. }
    rewrite E1. unfold H. rewrite refl_x by lia. unfold BB. rewrite C2. zbq; auto.
  - assert (EM : M' i j = if Reqb (hh_a (O := ROps) n x (k + 1)) 0 then M i j else (M i j - hh_alpha (O := ROps) n x (M i) (k + 1) * hh_v (O := ROps) n x (k + 1) j)%R).
    { unfold M', br_M, flip, bc_M. change (fun r => M k r) with x. change (@feq ROps) with Reqb. change (@fzero ROps) with 0%R. rewrite bh_a_R. destruct (Reqb _ _); auto. zbq. rewrite bh_alpha_R, bh_v_R by lia. auto. }
    unfold BB. destruct (Z.ltb_spec i (k + 1)); [lia|]. destruct (Z.ltb_spec j (k + 1)); [lia|]. rewrite EM. destruct (Reqb (hh_a (O := ROps) n x (k + 1)) 0) eqn:Ea.
    + apply Reqb_true in Ea. unfold H. rewrite refl_z0 by (auto; lia). rewrite Ez by lia. auto.
    + apply Reqb_false in Ea. unfold H. rewrite refl_z by (auto; lia). zbq. rewrite Ez by lia. f_equal. f_equal. unfold hh_alpha. rewrite !fsubl_R by lia. f_equal. f_equal.
      apply Rs_ext. intros r Hr. rewrite Ez by lia. auto.
Qed.
Lemma binv_0 A D Sc : binv A 0 A D Sc.
Proof.
  split; [intros; lia|]. split; [intros; lia|]. intros i j Hi Hj. rewrite Z.min_l by lia. unfold bG. cbn [Z.to_nat accum].
  rewrite (mmul_ext n (mmul m idm A) A (trm idm) idm) by (intros; solve [apply mmul_1_l; auto|apply trm_idm]). rewrite mmul_1_r by auto.
  unfold BB. zbq; auto.
Qed.
Lemma binv_step A k M D Sc : 0 <= k < n -> binv A k M D Sc -> let '(M', D', Sc') := bu_step (O := ROps) m n k (M, D, Sc) in binv A (k + 1) M' D' Sc'.
Proof.
  intros Hk (I1 & I2 & I3). cbn [bu_step]. rewrite (Z.min_l k (n - 1)) in I2, I3 by lia.
  set (M1 := bc_M (O := ROps) m k k M). set (D1 := td_upd (O := ROps) D k (bh_a (O := ROps) m (fun r => M r k) k)).
  destruct (col_W M D k Hk) as (C1 & C2 & C3 & C4). fold M1 D1 in C1, C2, C3, C4.
  pose proof (col_B M D Sc k Hk) as HB. cbn zeta in HB. fold M1 D1 in HB.
  (* facts after the column step, for any table agreeing with M1 on the columns <= k *)
  assert (L : forall M2, (forall i j, j < k + 1 -> M2 i j = M1 i j) ->
     (forall q, 0 <= q < k + 1 -> bsq m 0 (flip (O := ROps) M2) D1 q) /\ meq m m (GL M2 D1 (k + 1)) (mmul m (bW 0 (flip (O := ROps) M1) D1 k) (GL M D k))).
  { intros M2 E2. split.
    - intros q Hq. destruct (Z.eq_dec q k) as [->|].
      + unfold bsq, flip. rewrite Z.add_0_r. rewrite C2. rewrite (E2 k k), C1 by lia. rewrite <- (tail_sq m (fun r => M r k) k) by lia.
        apply Rs_ext. intros r Hr. unfold tail. zbq; auto. rewrite E2, C1 by lia. auto.
      + apply (bsq_ext m 0 (flip (O := ROps) M) D); try lia; [|apply C4; lia|apply I1; lia].
        intros r Hr. unfold flip. rewrite E2 by lia. apply C3. lia.
    - intros i j Hi Hj. rewrite bG_S by lia. apply mmul_ext.
      + intros r Hr. apply (bW_ext m); auto; try lia. intros s Hs. unfold flip. apply E2. lia.
      + intros r Hr. apply bG_ext; auto; try lia; intros; [|apply C4; lia]. unfold flip. rewrite E2 by lia. apply C3. lia. }
  assert (HB1 : meq m n (BB M1 D1 Sc k (k + 1)) (mmul n (mmul m (mmul m (bW 0 (flip (O := ROps) M1) D1 k) (GL M D k)) A) (trm (GR M Sc k)))).
  { intros i j Hi Hj. rewrite HB by auto.
    transitivity (mmul m (bW 0 (flip (O := ROps) M1) D1 k) (mmul n (mmul m (GL M D k) A) (trm (GR M Sc k))) i j).
    { apply mmul_ext; auto. }
    rewrite <- mmul_assoc. apply mmul_ext; auto. intros r Hr. rewrite mmul_assoc. auto. }
  destruct (Z.ltb_spec k (n - 1)) as [Hkn|Hkn].
  - set (M2 := br_M (O := ROps) n k (k + 1) M1). set (S1 := td_upd (O := ROps) Sc k (bh_a (O := ROps) n (M1 k) (k + 1))).
    destruct (row_W M1 Sc k ltac:(lia)) as (R1 & R2 & R3 & R4). fold M2 S1 in R1, R2, R3, R4.
    pose proof (row_B M1 D1 Sc k ltac:(lia)) as HR. cbn zeta in HR. fold M2 S1 in HR.
    destruct (L M2) as [L1 L2]; [intros; apply R3; lia|].
    assert (ER : meq n n (GR M2 S1 k) (GR M Sc k)).
    { apply bG_ext; try lia; intros; [|apply R4; lia]. rewrite R3, C3 by lia. auto. }
    unfold binv. rewrite (Z.min_l (k + 1) (n - 1)) by lia. split; [exact L1|]. split.
    + intros q Hq. destruct (Z.eq_dec q k) as [->|].
      * unfold bsq. rewrite R2, R1. rewrite <- (tail_sq n (M1 k) (k + 1)) by lia. apply Rs_ext. intros r Hr. unfold tail. rewrite R1. auto.
      * apply (bsq_ext n 1 M Sc); try lia; [|apply R4; lia|apply I2; lia]. intros r Hr. rewrite R3, C3 by lia. auto.
    + intros i j Hi Hj. rewrite HR by auto. rewrite (bG_S n 1) by lia.
      transitivity (mmul n (mmul n (mmul m (mmul m (bW 0 (flip (O := ROps) M1) D1 k) (GL M D k)) A) (trm (GR M Sc k))) (bW 1 M2 S1 k) i j).
      { apply mmul_ext; auto. }
      rewrite mmul_assoc. apply mmul_ext.
      * intros r Hr. apply mmul_ext; auto. intros s Hs. symmetry. apply L2; auto.
      * intros r Hr. rewrite trm_mmul. apply mmul_ext; [intros s Hs; symmetry; apply (meq_tr n n _ _ ER); auto|]. intros s Hs. unfold trm, bW. apply refl_sym.
  - destruct (L M1 ltac:(auto)) as [L1 L2]. assert (k = n - 1) by lia. unfold binv. rewrite (Z.min_r (k + 1) (n - 1)) by lia. split; [exact L1|].
    assert (ER : meq n n (GR M1 Sc (n - 1)) (GR M Sc k)).
    { replace (n - 1) with k by lia. apply bG_ext; try lia; auto. intros. apply C3. lia. }
    split.
    + intros q Hq. apply (bsq_ext n 1 M Sc); try lia; auto; [|apply I2; lia]. intros r Hr. apply C3. lia.
    + intros i j Hi Hj. transitivity (BB M1 D1 Sc k (k + 1) i j). { unfold BB. zbq; auto. subst; auto. }
      rewrite HB1 by auto. apply mmul_ext.
      * intros r Hr. apply mmul_ext; auto. intros s Hs. symmetry. apply L2; auto.
      * intros r Hr. symmetry. apply (meq_tr n n _ _ ER); auto.
Qed.
Lemma binv_iter A k : 0 <= k -> k <= n -> let '(M, D, Sc) := bu_iter (O := ROps) m n A k in binv A k M D Sc.
Proof.
  intros H. pattern k. apply natlike_ind; auto.
  - intros _. apply binv_0.
  - intros t Ht IH Hk. change (Z.succ t) with (t + 1) in *. unfold bu_iter. rewrite accum_S by auto. fold (bu_iter (O := ROps) m n A t). specialize (IH ltac:(lia)).
    destruct (bu_iter (O := ROps) m n A t) as [[M D] Sc]. apply (binv_step A t M D Sc); auto. lia.
Qed.

(** The three factors. *)
Lemma bidiag_A A M D Sc : binv A n M D Sc ->
  let U := ba_tab (O := ROps) m n 0 (flip (O := ROps) M) D in let V := ba_tab (O := ROps) n n 1 M Sc in
  orthogonal m U /\ orthogonal n V /\ meq m n (mmul n (mmul m U (bu_tabB (O := ROps) D Sc)) (trm V)) A.
Proof.
  intros (I1 & I2 & I3) U V. rewrite (Z.min_r n (n - 1)) in I2, I3 by lia.
  pose proof (ba_G m 0 n (flip (O := ROps) M) D ltac:(lia) ltac:(lia) ltac:(lia) ltac:(intros; apply I1; lia)) as EU. fold U in EU. rewrite Z.sub_0_r in EU.
  pose proof (ba_G n 1 n M Sc ltac:(lia) ltac:(lia) ltac:(lia) ltac:(intros; apply I2; lia)) as EV. fold V in EV.
  set (L := GL M D n) in *. set (R := GR M Sc (n - 1)) in *.
  assert (OL : orthogonal m L) by (apply bG_orth; [lia|auto]). assert (OR : orthogonal n R) by (apply bG_orth; [lia|auto]).
  split; [eapply orth_ext; [apply orth_tr; exact OL|apply meq_sym; exact EU]|]. split; [eapply orth_ext; [apply orth_tr; exact OR|apply meq_sym; exact EV]|].
  assert (EB : meq m n (bu_tabB (O := ROps) D Sc) (mmul n (mmul m L A) (trm R))).
  { intros i j Hi Hj. rewrite <- I3 by auto. unfold bu_tabB, BB. change (@fzero ROps) with 0%R. zbq; subst; auto. }
  intros i j Hi Hj.
  rewrite (mmul_ext n _ (mmul m (trm L) (mmul n (mmul m L A) (trm R))) _ R).
  2:{ intros r Hr. apply mmul_ext; intros; [apply EU|apply EB]; auto. }
  2:{ intros r Hr. unfold trm. rewrite EV by auto. auto. }
  rewrite mmul_assoc. rewrite (mmul_ext m _ (trm L) _ (mmul m L A)); [|auto|].
  - rewrite <- mmul_assoc. rewrite (mmul_ext m _ idm A A) by (auto; intros; apply OL; auto). apply mmul_1_l; auto.
  - intros r Hr. rewrite mmul_assoc. rewrite (mmul_ext n _ (mmul m L A) _ idm) by (auto; intros; apply OR; auto). apply mmul_1_r; auto.
Qed.
End Inv.

(** Any table. *)
Lemma bidiag_real m n A : 1 <= m -> 1 <= n -> let '(M, D, Sc) := bd_fin (O := ROps) m n A in
  orthogonal m (bd_tabU (O := ROps) m n M D Sc) /\ orthogonal n (bd_tabV (O := ROps) m n M D Sc) /\
  meq m n (mmul n (mmul m (bd_tabU (O := ROps) m n M D Sc) (bd_tabB (O := ROps) m n D Sc)) (trm (bd_tabV (O := ROps) m n M D Sc))) A.
Proof.
  intros Hm Hn. unfold bd_fin, bd_tabU, bd_tabV, bd_tabB. destruct (Z.leb_spec n m) as [H|H].
  - pose proof (binv_iter m n ltac:(lia) A n ltac:(lia) ltac:(lia)) as K. destruct (bu_iter (O := ROps) m n A n) as [[M D] Sc]. rewrite Z.min_r by lia.
    apply (bidiag_A m n ltac:(lia) A M D Sc K).
  - pose proof (binv_iter n m ltac:(lia) (flip (O := ROps) A) m ltac:(lia) ltac:(lia)) as K. destruct (bu_iter (O := ROps) n m (flip (O := ROps) A) m) as [[M D] Sc]. rewrite Z.min_l by lia.
    destruct (bidiag_A n m ltac:(lia) _ M D Sc K) as (K1 & K2 & K3).
    change (flip (O := ROps) (flip (O := ROps) M)) with M.
    set (U := ba_tab (O := ROps) m m 1 M Sc) in *. set (V := ba_tab (O := ROps) n m 0 (flip (O := ROps) M) D) in *.
    split; [exact K2|]. split; [exact K1|]. intros i j Hi Hj. etransitivity; [|exact (K3 j i Hj Hi)].
    rewrite mmul_assoc.
    transitivity (trm (mmul m (mmul n V (bu_tabB (O := ROps) D Sc)) (trm U)) i j); [|reflexivity].
    rewrite trm_mmul. apply mmul_ext; auto. intros r Hr. rewrite trm_mmul. reflexivity.
Qed.

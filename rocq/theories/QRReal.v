(** The QR decomposition in exact arithmetic. *)
From Coq Require Import ZArith List Lia Bool Reals Lra.
From Verif Require Import Base BaseLemmas Scalar Vector VecSpec VectorFacts Matrix MatSpec MatFacts TabTac FSum RealOps RSum Tri LUReal QR QRFacts House.
Open Scope Z_scope.

Lemma fadds_R x lo hi g : lo <= hi -> fadds (O := ROps) x lo hi g = (x + Rs lo hi g)%R.
Proof.
  intros H. apply (Rs_ind (fun hi => fadds (O := ROps) x lo hi g = (x + Rs lo hi g)%R) lo hi H).
  - rewrite fadds_nil, Rs_nil by lia. lra.
  - intros k Hk IH. rewrite fadds_S, Rs_last, IH by lia. cbn. lra.
Qed.
Lemma fsubl_R x lo hi g : lo <= hi -> fsubl (O := ROps) x lo hi g = (x - Rs lo hi g)%R.
Proof.
  intros H. apply (Rs_ind (fun hi => fsubl (O := ROps) x lo hi g = (x - Rs lo hi g)%R) lo hi H).
  - rewrite fsubl_nil, Rs_nil by lia. lra.
  - intros k Hk IH. rewrite fsubl_S, Rs_last, IH by lia. cbn. lra.
Qed.

(** One reflection. *)
Section Step.
Variable m : Z.
Variable x : Z -> R.
Variable k : Z.
Hypothesis Hk : 0 <= k < m.
Notation a := (hh_a (O := ROps) m x k).
Notation v := (hh_v (O := ROps) m x k).
Definition tail (v : Z -> R) (k r : Z) : R := if r <? k then 0%R else v r.

Lemma norm_sq : (a * a)%R = Rs k m (fun r => x r * x r)%R.
Proof.
  assert (E : (hh_norm (O := ROps) m x k * hh_norm (O := ROps) m x k)%R = Rs k m (fun r => x r * x r)%R).
  { unfold hh_norm. rewrite fadds_R by lia. change (@fsqrt ROps) with sqrt. rewrite sqrt_sqrt; [cbn; lra|]. cbn. rewrite Rplus_0_l. apply Rs_nonneg. intros. nra. }
  unfold hh_a. destruct (fgt _ _); auto. rewrite <- E. cbn. ring.
Qed.
Lemma a_zero : a = 0%R -> forall r, k <= r < m -> x r = 0%R.
Proof.
  intros H r Hr. pose proof norm_sq as E. rewrite H, Rmult_0_l in E.
  pose proof (Rs_eq0 k m (fun r => x r * x r)%R ltac:(intros; nra) (eq_sym E) r Hr) as E'. cbn beta in E'. nra.
Qed.
Lemma hh_norm_nonneg : (0 <= hh_norm (O := ROps) m x k)%R.
Proof. unfold hh_norm. apply sqrt_pos. Qed.
Lemma v_eq r : a <> 0%R -> v r = if r =? k then (x k - a)%R else x r.
Proof. intros Ha. unfold hh_v. change (@feq ROps) with Reqb. destruct (Reqb _ _) eqn:E; auto. apply Reqb_true in E. contradiction. Qed.
Lemma v_eq0 r : a = 0%R -> v r = x r.
Proof. intros Ha. unfold hh_v. change (@feq ROps) with Reqb. destruct (Reqb _ _) eqn:E; auto. apply Reqb_false in E. contradiction. Qed.
Lemma c_nonzero : a <> 0%R -> (a * v k)%R <> 0%R.
Proof.
  intros Ha. rewrite v_eq, Z.eqb_refl by auto. pose proof hh_norm_nonneg as Hn. apply Rmult_integral_contrapositive_currified; auto.
  unfold hh_a in *. generalize dependent (hh_norm (O := ROps) m x k). intros N Ha HN. change (@F ROps) with R in N. unfold fgt in *. change (@flt ROps) with Rltb in *. destruct (Rltb _ _) eqn:E.
  - apply Rltb_true in E. change (@fzero ROps) with 0%R in E. cbn in Ha |- *. intros Q. apply Ha. lra.
  - apply Rltb_false in E. change (@fzero ROps) with 0%R in E. cbn in Ha |- *. intros Q. apply Ha. lra.
Qed.
Lemma v_sq : Rs k m (fun r => v r * v r)%R = (-2 * (a * v k))%R.
Proof.
  destruct (Req_dec a 0) as [Ha|Ha].
  - rewrite Ha. rewrite Rs_zero; [ring|]. intros r Hr. rewrite v_eq0, a_zero by auto. ring.
  - rewrite v_eq, Z.eqb_refl by auto. pose proof norm_sq as E. rewrite Rs_first in E |- * by lia.
    rewrite (Rs_ext (k + 1) m (fun r => v r * v r)%R (fun r => x r * x r)%R) by (intros r Hr; rewrite v_eq by auto; destruct (Z.eqb_spec r k); [lia|auto]).
    cbn beta. rewrite v_eq, Z.eqb_refl by auto. nra.
Qed.
Lemma v_x : a <> 0%R -> Rs k m (fun r => v r * x r)%R = (- (a * v k))%R.
Proof.
  intros Ha. rewrite v_eq, Z.eqb_refl by auto. pose proof norm_sq as E. rewrite Rs_first in E |- * by lia.
  rewrite (Rs_ext (k + 1) m (fun r => v r * x r)%R (fun r => x r * x r)%R) by (intros r Hr; rewrite v_eq by auto; destruct (Z.eqb_spec r k); [lia|auto]).
  cbn beta. rewrite v_eq, Z.eqb_refl by auto. nra.
Qed.
(** The reflector takes x to (x_0, ..., x_{k-1}, a, 0, ..., 0). *)
Lemma refl_x i : 0 <= i < m -> mvec m (refl (tail v k) (a * v k)) x i = if i <? k then x i else if i =? k then a else 0%R.
Proof.
  intros Hi. rewrite refl_vec by auto. rewrite (Rs_low 0 k m) by (try lia; intros; unfold tail; destruct (Z.ltb_spec k0 k); try lia; ring).
  rewrite (Rs_ext k m _ (fun r => v r * x r)%R) by (intros; unfold tail; destruct (Z.ltb_spec k0 k); [lia|auto]).
  unfold tail. destruct (Z.ltb_spec i k); [unfold Rdiv; ring|]. destruct (Req_dec a 0) as [Ha|Ha].
  - rewrite (v_eq0 i), (a_zero Ha i), Ha by (auto; lia). destruct (i =? k); unfold Rdiv; ring.
  - rewrite v_x by auto. pose proof (c_nonzero Ha) as Hc. replace (v i * - (a * v k) / (a * v k))%R with (- v i)%R by (set (c := (a * v k)%R) in *; field; auto).
    rewrite v_eq by auto. destruct (Z.eqb_spec i k) as [->|]; ring.
Qed.
Lemma tail_sq : Rs 0 m (fun r => tail v k r * tail v k r)%R = (-2 * (a * v k))%R.
Proof.
  rewrite (Rs_low 0 k m) by (try lia; intros; unfold tail; destruct (Z.ltb_spec k0 k); try lia; ring).
  rewrite <- v_sq. apply Rs_ext. intros r Hr. unfold tail. destruct (Z.ltb_spec r k); [lia|auto].
Qed.
(** ... and any z to z - alpha v. *)
Lemma refl_z z i : 0 <= i < m -> a <> 0%R ->
  mvec m (refl (tail v k) (a * v k)) z i = if k <=? i then (z i - hh_alpha (O := ROps) m x z k * v i)%R else z i.
Proof.
  intros Hi Ha. rewrite refl_vec by auto. rewrite (Rs_low 0 k m) by (try lia; intros; unfold tail; destruct (Z.ltb_spec k0 k); try lia; ring).
  rewrite (Rs_ext k m _ (fun r => z r * v r)%R) by (intros; unfold tail; destruct (Z.ltb_spec k0 k); [lia|ring]).
  unfold tail. destruct (Z.ltb_spec i k), (Z.leb_spec k i); try lia; [unfold Rdiv; ring|].
  unfold hh_alpha. rewrite fsubl_R by lia. cbn. field. pose proof (c_nonzero Ha) as Hc. split; intros E; apply Hc; rewrite E; ring.
Qed.
Lemma refl_z0 c z i : 0 <= i < m -> a = 0%R -> mvec m (refl (tail v k) c) z i = z i.
Proof.
  intros Hi Ha. rewrite (mvec_ext m _ idm z z); [apply mvec_1; auto| |auto].
  intros r Hr. apply (refl_zero m); auto. intros q Hq. unfold tail. destruct (Z.ltb_spec q k); auto. rewrite v_eq0, a_zero by (auto; lia). auto.
Qed.
End Step.

(** The invariant of the decomposition. *)
Section Inv.
Variables m n : Z.
Definition Hm (M : Z -> Z -> R) (D : Z -> R) (k : Z) : Z -> Z -> R := refl (tail (M k) k) (D k * M k k).
Definition Gk (M : Z -> Z -> R) (D : Z -> R) (k : Z) : Z -> Z -> R := accum (fun t T => mmul m (Hm M D t) T) (Z.to_nat k) idm.
(** The transformed matrix after k steps. *)
Definition Bk (M : Z -> Z -> R) (D : Z -> R) (k i j : Z) : R :=
  if j <? k then (if i <? j then M j i else if i =? j then D j else 0%R) else M j i.
Definition qinv (A : Z -> Z -> R) (k : Z) (M : Z -> Z -> R) (D : Z -> R) : Prop :=
  (forall j, 0 <= j < k -> Rs 0 m (fun r => tail (M j) j r * tail (M j) j r)%R = (-2 * (D j * M j j))%R) /\
  meq m n (Bk M D k) (mmul m (Gk M D k) A).

Lemma Gk_S M D k : 0 <= k -> Gk M D (k + 1) = mmul m (Hm M D k) (Gk M D k).
Proof. intros H. unfold Gk. rewrite accum_S by auto. auto. Qed.
Lemma Gk_ext M D M' D' k : 0 <= k -> k <= m -> (forall j r, 0 <= j < k -> 0 <= r < m -> M' j r = M j r) -> (forall j, 0 <= j < k -> D' j = D j) ->
  meq m m (Gk M' D' k) (Gk M D k).
Proof.
  intros H Hkm HM HD. revert Hkm HM HD. pattern k. apply natlike_ind; auto.
  - intros _ _ _ i j _ _. reflexivity.
  - intros t Ht IH Hkm HM HD. change (Z.succ t) with (t + 1) in *. rewrite !Gk_S by auto. intros i j Hi Hj.
    apply mmul_ext.
    + intros r Hr. unfold Hm, refl, tail. rewrite HD, !HM by lia. destruct (i <? t), (r <? t); auto.
    + intros r Hr. apply IH; auto; try lia; intros; [apply HM|apply HD]; lia.
Qed.
Lemma Gk_orth A k M D : 0 <= k -> qinv A k M D -> orthogonal m (Gk M D k).
Proof.
  intros H [I1 _]. revert I1. pattern k. apply natlike_ind; auto.
  - intros _. apply orth_id.
  - intros t Ht IH I1. change (Z.succ t) with (t + 1) in *. rewrite Gk_S by auto. apply orth_mmul.
    + apply refl_orth. apply I1. lia.
    + apply IH. intros. apply I1. lia.
Qed.
Lemma qinv_0 A D : qinv A 0 (fun j r => A r j) D.
Proof.
  split; [intros; lia|]. intros i j Hi Hj. unfold Bk, Gk. cbn [Z.to_nat accum]. rewrite mmul_1_l by auto.
  destruct (Z.ltb_spec j 0); [lia|auto].
Qed.
Lemma qinv_step A k M D : 0 <= k < m -> k < n -> qinv A k M D -> qinv A (k + 1) (hh_M (O := ROps) m M k) (hh_D (O := ROps) m M D k).
Proof.
  intros Hk Hkn [I1 I2]. set (M' := hh_M (O := ROps) m M k). set (D' := hh_D (O := ROps) m M D k).
  assert (EM : forall j r, j < k -> M' j r = M j r).
  { intros j r Hj. unfold M', hh_M. destruct (feq _ _); auto. destruct (Z.eqb_spec j k), (Z.ltb_spec k j); try lia. auto. }
  assert (ED : forall j, j < k -> D' j = D j) by (intros; unfold D', hh_D; destruct (Z.eqb_spec j k); [lia|auto]).
  assert (EMk : forall r, M' k r = hh_v (O := ROps) m (M k) k r).
  { intros r. unfold M', hh_M. rewrite Z.eqb_refl. unfold hh_v. destruct (feq _ _); auto. }
  assert (EDk : D' k = hh_a (O := ROps) m (M k) k) by (unfold D', hh_D; rewrite Z.eqb_refl; auto).
  assert (Et : forall i, tail (M' k) k i = tail (hh_v (O := ROps) m (M k) k) k i) by (intros; unfold tail; rewrite EMk; auto).
  split.
  - intros j Hj. destruct (Z.eq_dec j k) as [->|].
    + rewrite EDk, EMk. rewrite (Rs_ext 0 m _ (fun r => tail (hh_v (O := ROps) m (M k) k) k r * tail (hh_v (O := ROps) m (M k) k) k r)%R) by (intros; rewrite Et; auto).
      apply tail_sq. auto.
    + rewrite ED, EM by lia. rewrite (Rs_ext 0 m _ (fun r => tail (M j) j r * tail (M j) j r)%R) by (intros; unfold tail; rewrite EM by lia; auto).
      apply I1. lia.
  - rewrite Gk_S by lia. intros i j Hi Hj. rewrite mmul_assoc.
    rewrite (mmul_ext m (Hm M' D' k) (refl (tail (hh_v (O := ROps) m (M k) k) k) (hh_a (O := ROps) m (M k) k * hh_v (O := ROps) m (M k) k k)) (mmul m (Gk M' D' k) A) (Bk M D k)).
    2:{ intros r Hr. unfold Hm, refl. rewrite !Et, EDk, EMk. auto. }
    2:{ intros r Hr. rewrite I2 by lia. apply mmul_ext; auto. intros q Hq. apply Gk_ext; auto; try lia; intros; [apply EM|apply ED]; lia. }
    change (mmul m ?R ?B i j) with (mvec m R (fun r => B r j) i).
    unfold Bk at 1. destruct (Z.ltb_spec j (k + 1)); [destruct (Z.eq_dec j k) as [->|]|].
    + rewrite (mvec_ext m _ (refl (tail (hh_v (O := ROps) m (M k) k) k) (hh_a (O := ROps) m (M k) k * hh_v (O := ROps) m (M k) k k)) _ (M k)) by (intros; auto; unfold Bk; destruct (Z.ltb_spec k k); try lia; auto).
      rewrite refl_x by auto. destruct (Z.ltb_spec i k).
      * rewrite EMk. unfold hh_v. destruct (feq _ _); auto. destruct (Z.eqb_spec i k); [lia|auto].
      * destruct (Z.eqb_spec i k); auto.
    + rewrite refl_vec by auto. rewrite (Rs_zero 0 m).
      * unfold Bk. destruct (Z.ltb_spec j k); [|lia]. rewrite ED, EM by lia. unfold Rdiv. ring.
      * intros r Hr. unfold tail, Bk. destruct (Z.ltb_spec r k); [ring|]. destruct (Z.ltb_spec j k), (Z.ltb_spec r j), (Z.eqb_spec r j); try lia; ring.
    + rewrite (mvec_ext m _ (refl (tail (hh_v (O := ROps) m (M k) k) k) (hh_a (O := ROps) m (M k) k * hh_v (O := ROps) m (M k) k k)) _ (M j)) by (intros; auto; unfold Bk; destruct (Z.ltb_spec j k); try lia; auto).
      destruct (Req_dec (hh_a (O := ROps) m (M k) k) 0) as [Ha|Ha].
      * rewrite refl_z0 by auto. unfold M', hh_M. change (@feq ROps) with Reqb. change (@fzero ROps) with 0%R. rewrite (proj2 (Reqb_true _ _) Ha). auto.
      * rewrite refl_z by auto. unfold M', hh_M. change (@feq ROps) with Reqb. change (@fzero ROps) with 0%R. rewrite (proj2 (Reqb_false _ _) Ha).
        destruct (Z.eqb_spec j k), (Z.ltb_spec k j); try lia. cbn [andb]. auto.
Qed.
Lemma qinv_iter A k : 0 <= k <= Z.min m n -> qinv A k (fst (hh_iter (O := ROps) m A k)) (snd (hh_iter (O := ROps) m A k)).
Proof.
  intros [H Hk]. revert Hk. pattern k. apply natlike_ind; auto.
  - intros _. apply qinv_0.
  - intros t Ht IH Hk. change (Z.succ t) with (t + 1) in *. unfold hh_iter. rewrite accum_S by auto. cbn [fst snd hh_step].
    apply qinv_step; try lia. apply IH. lia.
Qed.
End Inv.

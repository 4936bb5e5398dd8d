(** The singular value decomposition in exact arithmetic: the reduction to
    bidiagonal form. *)
From Coq Require Import ZArith QArith List Lia Bool Reals Lra.
From Verif Require Import Base BaseLemmas Scalar Vector VecSpec VectorFacts Matrix MatSpec MatFacts TabTac FSum RealOps RSum Tri LUReal QR QRSpec QRFacts House QRReal QRReal2 CholFacts HessReal Frob Tridiag TridiagFacts TridiagReal EigenFacts BidiagFacts SchurReal SVD SVDFacts SVDFacts2 SVDFacts3.
Open Scope Z_scope.

Lemma fne_R (x y : R) : fne (O := ROps) x y = negb (Reqb x y).
Proof. reflexivity. Qed.
Lemma fne_R_true (x y : R) : fne (O := ROps) x y = true <-> x <> y.
Proof. rewrite fne_R, negb_true_iff. apply Reqb_false. Qed.
Lemma fne_R_false (x y : R) : fne (O := ROps) x y = false <-> x = y.
Proof. rewrite fne_R, negb_false_iff. apply Reqb_true. Qed.
Lemma fhyps_R lo hi g : lo <= hi -> fhyps (O := ROps) lo hi g = sqrt (Rs lo hi (fun r => g r * g r)%R).
Proof.
  intros H. apply (Rs_ind (fun hi => fhyps (O := ROps) lo hi g = sqrt (Rs lo hi (fun r => g r * g r)%R)) lo hi H).
  - rewrite fhyps_nil, Rs_nil by lia. symmetry. apply sqrt_0.
  - intros k Hk IH. rewrite fhyps_S, Rs_last, IH by lia. cbn [fhypot ROps]. rewrite sqrt_sqrt; auto. apply Rs_nonneg. intros. apply Rle_0_sqr.
Qed.

Lemma sq0 (x : R) : (x * x = 0)%R -> x = 0%R.
Proof. intros H. destruct (Rmult_integral _ _ H); auto. Qed.

(** The reflection of a stored vector. *)
Definition hR (b : bool) (v : Z -> R) (k : Z) : Z -> Z -> R := if b then refl (tail v k) (- v k) else idm.
Lemma hR_app m b v k A i j : 0 <= k <= m -> 0 <= i < m -> mmul m (hR b v k) A i j = if b && (k <=? i) then hap (O := ROps) m k v (fun r => A r j) i else A i j.
Proof.
  intros Hk Hi. unfold hR. destruct b; cbn [andb]; [|apply mmul_1_l; auto]. rewrite refl_tail_l by lia. destruct (k <=? i); auto.
  unfold hap. rewrite fadds_R by lia. rops. unfold Rdiv. rewrite Rplus_0_l, Rinv_opp. ring.
Qed.
Lemma hR_app_r n b v k A i j : 0 <= k <= n -> 0 <= j < n -> mmul n A (hR b v k) i j = if b && (k <=? j) then (A i j + - v j / v k * Rs k n (fun r => v r * A i r))%R else A i j.
Proof.
  intros Hk Hj. unfold hR. destruct b; cbn [andb]; [|apply mmul_1_r; auto]. rewrite refl_tail_r by lia. destruct (k <=? j); auto.
  unfold Rdiv. rewrite Rinv_opp. ring.
Qed.
Lemma hR_sym b v k i j : hR b v k i j = hR b v k j i.
Proof. unfold hR. destruct b; [apply refl_sym|apply idm_sym]. Qed.
Lemma hR_ext m b v w k : 0 <= k < m -> (forall r, k <= r < m -> v r = w r) -> meq m m (hR b v k) (hR b w k).
Proof.
  intros Hk H i j Hi Hj. unfold hR. destruct b; auto. unfold refl. rewrite (H k) by lia. unfold tail. zbq; auto; rewrite ?H by lia; auto.
Qed.
(** It is orthogonal. *)
Definition hsq (m : Z) (b : bool) (v : Z -> R) (k : Z) : Prop := b = true -> Rs k m (fun r => v r * v r)%R = (2 * v k)%R.
Lemma hR_orth m b v k : 0 <= k <= m -> hsq m b v k -> orthogonal m (hR b v k).
Proof.
  intros Hk H. unfold hR. destruct b; [|apply orth_id]. apply refl_orth. rewrite (Rs_low 0 k m) by (try lia; intros; unfold tail; zbq; ring).
  rewrite (Rs_ext k m _ (fun r => v r * v r)%R) by (intros; unfold tail; zbq; auto). rewrite (H eq_refl). ring.
Qed.
Lemma hR_inv m b v k : 0 <= k <= m -> hsq m b v k -> meq m m (mmul m (hR b v k) (hR b v k)) idm.
Proof.
  intros Hk H i j Hi Hj. destruct (hR_orth m b v k Hk H) as [_ K]. rewrite <- (K i j Hi Hj). apply mmul_ext; auto. intros. unfold trm. apply hR_sym.
Qed.

Section Vec.
Variables m k : Z.
Variable x : Z -> R.
Hypothesis Hk : 0 <= k < m.
Let h : R := fhyps (O := ROps) k m x.
Let b : bool := fne (O := ROps) h fzero.
Let v : Z -> R := hv (O := ROps) m x k.
Let s : R := sg (O := ROps) m x k.
Lemma hh_sq : (h * h = Rs k m (fun r => x r * x r))%R.
Proof. unfold h. rewrite fhyps_R by lia. apply sqrt_sqrt. apply Rs_nonneg. intros. apply Rle_0_sqr. Qed.
Lemma sg_sq : (s * s = h * h)%R.
Proof. unfold s, sg. fold h. destruct (fne _ _); auto. destruct (flt _ _); auto. rops. ring. Qed.
Lemma sg_ne : fne (O := ROps) (- s)%R 0%R = b.
Proof.
  pose proof sg_sq as E. destruct b eqn:Eb; unfold b in Eb.
  - apply fne_R_true in Eb. apply fne_R_true. intros K. apply Eb. assert (s = 0%R) by lra. rewrite H in E. apply sq0. lra.
  - apply fne_R_false in Eb. apply fne_R_false. rewrite Eb in E. cbn [fzero ROps] in E. assert (s = 0%R) by (apply sq0; lra). lra.
Qed.
Lemma b_false : b = false -> forall r, k <= r < m -> x r = 0%R.
Proof.
  intros Eb. apply fne_R_false in Eb. intros r Hr. pose proof hh_sq as E. rewrite Eb in E. cbn [fzero ROps] in E. assert (E2 : Rs k m (fun r => x r * x r)%R = 0%R) by lra.
  pose proof (Rs_eq0 k m (fun r => x r * x r)%R ltac:(intros; apply Rle_0_sqr) E2 r Hr) as K. apply sq0. auto.
Qed.
Lemma v_eq : b = true -> s <> 0%R /\ (v k = x k / s + 1)%R /\ (forall r, r <> k -> (v r = x r / s)%R) /\ (0 <= x k / s)%R.
Proof.
  intros Eb. assert (Hs : s <> 0%R) by (pose proof sg_ne as K; rewrite Eb in K; apply fne_R_true in K; lra). split; auto.
  unfold v, hv. fold h. fold b. rewrite Eb. fold s. rewrite Z.eqb_refl. split; [reflexivity|]. split.
  - intros r Hr. zbq; auto.
  - unfold s, sg. fold h. fold b. rewrite Eb. assert (Hh : (0 < h)%R). { assert (0 <= h)%R by (unfold h; rewrite fhyps_R by lia; apply sqrt_pos). apply fne_R_true in Eb. cbn [fzero ROps] in Eb. lra. }
    rops. destruct (Rltb (x k) 0) eqn:El.
    + apply Rltb_true in El. unfold Rdiv. rewrite Rinv_opp. pose proof (Rinv_0_lt_compat h Hh). nra.
    + apply Rltb_false in El. unfold Rdiv. pose proof (Rinv_0_lt_compat h Hh). nra.
Qed.
Lemma v_pos : b = true -> (1 <= v k)%R.
Proof. intros Eb. destruct (v_eq Eb) as (_ & E & _ & H). lra. Qed.
Lemma v_sq : hsq m b v k.
Proof.
  intros Eb. destruct (v_eq Eb) as (Hs & E1 & E2 & _). pose proof hh_sq as Eh. rewrite <- sg_sq in Eh. rewrite Rs_first in Eh |- * by lia. rewrite E1.
  rewrite (Rs_ext (k + 1) m _ (fun r => (x r * x r) * (/ s * / s))%R) by (intros r Hr; rewrite (E2 r) by lia; unfold Rdiv; ring). rewrite Rs_scal_r.
  assert (K : Rs (k + 1) m (fun r => x r * x r)%R = (s * s - x k * x k)%R) by lra. rewrite K. field. auto.
Qed.
Lemma hR_col A i j : (forall r, k <= r < m -> A r j = x r) -> 0 <= i < m -> mmul m (hR b v k) A i j = if i <? k then A i j else if i =? k then (- s)%R else 0%R.
Proof.
  intros HA Hi. rewrite hR_app by lia. destruct b eqn:Eb; cbn [andb].
  2:{ destruct (Z.ltb_spec i k); auto. rewrite HA by lia. rewrite (b_false Eb) by lia. destruct (Z.eqb_spec i k); auto.
      pose proof sg_ne as K. rewrite Eb in K. apply fne_R_false in K. auto. }
  destruct (Z.ltb_spec i k); [zbq; auto|]. destruct (Z.leb_spec k i); [|lia].
  destruct (v_eq Eb) as (Hs & E1 & E2 & _). pose proof (v_pos Eb) as Hv. unfold hap. rewrite fadds_R by lia. rops.
  rewrite (Rs_ext k m _ (fun r => v r * x r)%R) by (intros r Hr; rewrite HA by auto; auto).
  assert (K : Rs k m (fun r => v r * x r)%R = (s * v k)%R).
  { pose proof hh_sq as Eh. rewrite <- sg_sq in Eh. rewrite Rs_first in Eh |- * by lia. rewrite E1.
    rewrite (Rs_ext (k + 1) m _ (fun r => (x r * x r) * / s)%R) by (intros r Hr; rewrite (E2 r) by lia; unfold Rdiv; ring). rewrite Rs_scal_r.
    assert (K : Rs (k + 1) m (fun r => x r * x r)%R = (s * s - x k * x k)%R) by lra. rewrite K. field. auto. }
  rewrite K, HA by lia. destruct (Z.eqb_spec i k) as [->|].
  - rewrite E1. field. split; auto. rewrite E1 in Hv. intros N. assert (x k / s + 1 = 0)%R; [|lra]. replace (x k / s + 1)%R with ((x k + s) / s)%R by (field; auto). unfold Rdiv. rewrite N. ring.
  - rewrite (E2 i) by auto. field. split; auto. lra.
Qed.
End Vec.

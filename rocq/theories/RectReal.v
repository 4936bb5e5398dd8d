(** The rectangular Cholesky decomposition in exact arithmetic. *)
From Coq Require Import ZArith List Lia Bool Reals Lra.
From Verif Require Import Base BaseLemmas Wpe Scalar Vector VecSpec VectorFacts Matrix MatSpec MatFacts Array2D BlockM Diagonal RealMatrixM Array2DFacts MatrixOps TabTac FSum Cholesky CholSpec CholFacts CholReal RealOps RSum Tri LUSpec QRSpec QRFacts3 QRReal3 RectChol RectFacts.
Import ListNotations.
Open Scope Z_scope.
#[local] Existing Instance ROps.

(** Bilinear forms. *)
Definition bil (n : Z) (E : Z -> Z -> R) (u v : Z -> R) : R := dot n u (mvec n E v).
Lemma bil_plus_l n E u u' c v : bil n E (fun i => u i + c * u' i)%R v = (bil n E u v + c * bil n E u' v)%R.
Proof. unfold bil, dot. rewrite <- Rs_scal_l, <- Rs_plus. apply Rs_ext. intros. ring. Qed.
Lemma bil_plus_r n E u v v' c : bil n E u (fun i => v i + c * v' i)%R = (bil n E u v + c * bil n E u v')%R.
Proof.
  unfold bil, dot. rewrite <- Rs_scal_l, <- Rs_plus. apply Rs_ext. intros. unfold mvec. rewrite <- Rmult_assoc, (Rmult_comm c), Rmult_assoc, <- Rmult_plus_distr_l. f_equal.
  rewrite <- Rs_scal_l, <- Rs_plus. apply Rs_ext. intros. ring.
Qed.
Lemma mvec_basis n E b i : 0 <= b < n -> mvec n E (fun k => idm k b) i = E i b.
Proof. intros Hb. unfold mvec. rewrite (Rs_pick 0 n b) by (auto; intros k Hk Hne; rewrite idm_diff by auto; ring). rewrite idm_same. ring. Qed.
Lemma bil_basis n E a v : 0 <= a < n -> bil n E (fun k => idm k a) v = mvec n E v a.
Proof. intros Ha. unfold bil, dot. rewrite (Rs_pick 0 n a) by (auto; intros k Hk Hne; rewrite idm_diff by auto; ring). rewrite idm_same. ring. Qed.
Lemma bil_basis_r n E u b : symmetric n E -> 0 <= b < n -> bil n E u (fun k => idm k b) = mvec n E u b.
Proof. intros HS Hb. unfold bil, dot. apply Rs_ext. intros i Hi. rewrite mvec_basis by auto. rewrite (HS i b) by auto. ring. Qed.
Lemma quad_shift n E x c k : symmetric n E -> 0 <= k < n -> quad n E (fun i => x i + c * idm i k)%R = (quad n E x + 2 * c * mvec n E x k + c * c * E k k)%R.
Proof.
  intros HS Hk. change (bil n E (fun i => x i + c * idm i k)%R (fun i => x i + c * idm i k)%R = (bil n E x x + 2 * c * mvec n E x k + c * c * E k k)%R).
  rewrite bil_plus_l, !bil_plus_r, !bil_basis, bil_basis_r, mvec_basis by auto. ring.
Qed.
(** One elimination step keeps semidefiniteness, in both directions. *)
Definition elim (E : Z -> Z -> R) (k : Z) (a b : Z) : R := (E a b - E a k * E b k / E k k)%R.
Lemma quad_elim n E k x : symmetric n E -> 0 <= k < n -> quad n (elim E k) x = (quad n E x - mvec n E x k * mvec n E x k / E k k)%R.
Proof.
  intros HS Hk. unfold quad, dot. rewrite (Rs_ext 0 n (fun i => x i * mvec n (elim E k) x i)%R (fun i => x i * mvec n E x i - (E k i * x i) * (mvec n E x k / E k k))%R).
  - rewrite Rs_minus, Rs_scal_r. unfold Rdiv. fold (mvec n E x k). ring.
  - intros i Hi. unfold mvec at 1. rewrite (Rs_ext 0 n _ (fun j => E i j * x j - (E i k / E k k) * (E k j * x j))%R).
    + rewrite Rs_minus, Rs_scal_l. fold (mvec n E x i). fold (mvec n E x k). rewrite (HS i k) by auto. unfold Rdiv. ring.
    + intros j Hj. unfold elim. rewrite (HS j k) by auto. unfold Rdiv. ring.
Qed.
Lemma psd_elim n E k : symmetric n E -> 0 <= k < n -> (0 < E k k)%R -> ((forall x, 0 <= quad n E x)%R <-> forall x, (0 <= quad n (elim E k) x)%R).
Proof.
  intros HS Hk Hp. split; intros H x.
  - specialize (H (fun i => x i + (- (mvec n E x k / E k k)) * idm i k)%R). rewrite quad_shift in H by auto. rewrite quad_elim by auto.
    replace (quad n E x - mvec n E x k * mvec n E x k / E k k)%R with (quad n E x + 2 * - (mvec n E x k / E k k) * mvec n E x k + - (mvec n E x k / E k k) * - (mvec n E x k / E k k) * E k k)%R; auto.
    field. lra.
  - specialize (H x). rewrite quad_elim in H by auto. enough (0 <= mvec n E x k * mvec n E x k / E k k)%R by lra.
    apply Rmult_le_pos; [apply Rle_0_sqr|]. left. apply Rinv_0_lt_compat. auto.
Qed.
Lemma psd_ext n E E' : meq n n E E' -> (forall x, 0 <= quad n E x)%R -> forall x, (0 <= quad n E' x)%R.
Proof. intros H G x. rewrite <- (quad_ext n E E' x x) by auto. auto. Qed.
(** Entries of a semidefinite table are bounded by its diagonal. *)
Lemma psd_diag n E a : symmetric n E -> (forall x, 0 <= quad n E x)%R -> 0 <= a < n -> (0 <= E a a)%R.
Proof.
  intros HS H Ha. specialize (H (fun k => idm k a)). change (quad n E (fun k => idm k a)) with (bil n E (fun k => idm k a) (fun k => idm k a)) in H.
  rewrite bil_basis, mvec_basis in H by auto. auto.
Qed.
Lemma psd_bound n E s : symmetric n E -> (forall x, 0 <= quad n E x)%R -> (forall a, 0 <= a < n -> (E a a <= s)%R) -> forall a b, 0 <= a < n -> 0 <= b < n -> (Rabs (E a b) <= s)%R.
Proof.
  intros HS H Hd a b Ha Hb. assert (G : forall c, (0 <= E a a + 2 * c * E b a + c * c * E b b)%R).
  { intros c. specialize (H (fun i => idm i a + c * idm i b)%R). rewrite quad_shift in H by auto. rewrite mvec_basis in H by auto.
    change (quad n E (fun k => idm k a)) with (bil n E (fun k => idm k a) (fun k => idm k a)) in H. rewrite bil_basis, mvec_basis in H by auto. auto. }
  pose proof (G 1%R). pose proof (G (-1)%R). pose proof (Hd a Ha). pose proof (Hd b Hb). rewrite (HS a b) by auto. apply Rabs_le. lra.
Qed.

Section Rect.
Variables (n : Z) (A : Z -> Z -> R) (small : R).
Hypothesis Hn : 1 <= n.
Hypothesis HS : symmetric n A.
Hypothesis Hsmall : (0 <= small)%R.

(** What remains of [A] after the columns 0..r-1 of [W]. *)
Definition rest (W : Z -> Z -> R) (r a b : Z) : R := (A a b - Rs 0 r (fun t => W a t * W b t))%R.
Lemma rest_sym W r : symmetric n (rest W r).
Proof. intros a b Ha Hb. unfold rest. rewrite (HS a b) by auto. f_equal. apply Rs_ext. intros. ring. Qed.

Definition J (r : Z) (p : Z -> Z) (D B : Z -> Z -> R) : Prop := exists W,
  (forall i j, r <= i < n -> r <= j < n -> D i j = rest W r (p i) (p j)) /\
  (forall i t, 0 <= i < n -> 0 <= t < r -> B i t = W (p i) t) /\
  (forall i t, 0 <= i < n -> r <= t < n -> B i t = 0%R) /\
  (forall i b, 0 <= i < r -> 0 <= b < n -> rest W r (p i) b = 0%R) /\
  (forall i, 0 <= i < r -> (0 < W (p i) i)%R /\ forall t, i < t < r -> W (p i) t = 0%R) /\
  ((forall x, 0 <= quad n A x)%R <-> forall x, (0 <= quad n (rest W r) x)%R).

Lemma swp_id k s i : i < k -> k <= s -> swp k s i = i.
Proof. intros. unfold swp. zbq; auto. Qed.
Lemma J_swap r s p D B : 0 <= r < n -> r <= s < n -> permutes n p -> J r p D B ->
  J r (fun i => p (swp r s i)) (fun i j => D (swp r s i) (swp r s j)) (fun i j => B (swp r s i) j).
Proof.
  intros Hr Hs Hp (W & H1 & H2 & H3 & H4 & H5 & H6). exists W.
  assert (G : forall i, r <= i < n -> r <= swp r s i < n) by (intros i Hi; unfold swp; zbq; lia).
  assert (G0 : forall i, 0 <= i < n -> 0 <= swp r s i < n) by (intros; apply swp_range; auto; lia).
  split; [intros; apply H1; auto|]. split; [intros; apply H2; auto|]. split; [intros; apply H3; auto|]. split; [|split; [|auto]].
  - intros i b Hi Hb. rewrite swp_id by lia. auto.
  - intros i Hi. rewrite swp_id by lia. auto.
Qed.
Lemma J_step r p D B : 0 <= r < n -> permutes n p -> J r p D B -> fle (D r r) small = false -> J (r + 1) p (rc_D D r) (rc_B D B r).
Proof.
  intros Hr Hp (W & H1 & H2 & H3 & H4 & H5 & H6) Hf. change (Rleb (D r r) small = false) in Hf. apply Rleb_false in Hf.
  pose proof Hp as (P1 & P2 & P3). set (k := p r). assert (Hk : 0 <= k < n) by (apply P1; auto).
  set (E := rest W r) in *. assert (HE : symmetric n E) by apply rest_sym.
  assert (Hd : D r r = E k k) by (apply H1; lia). assert (Hpos : (0 < E k k)%R) by lra. assert (Hq : (0 < sqrt (E k k))%R) by (apply sqrt_lt_R0; auto).
  assert (Hss : (sqrt (E k k) * sqrt (E k k) = E k k)%R) by (apply sqrt_sqrt; lra).
  set (W' := fun a t => if t =? r then (E a k / sqrt (E k k))%R else W a t).
  assert (HW : forall a t, t < r -> W' a t = W a t) by (intros; unfold W'; zbq; auto).
  assert (HW' : forall a, W' a r = (E a k / sqrt (E k k))%R) by (intros; unfold W'; rewrite Z.eqb_refl; auto).
  assert (HR : forall a b, rest W' (r + 1) a b = elim E k a b).
  { intros a b. unfold rest at 1. rewrite Rs_last by lia. rewrite (Rs_ext 0 r _ (fun t => W a t * W b t)%R) by (intros; rewrite !HW by lia; auto). rewrite !HW'. unfold elim.
    replace (E a k / sqrt (E k k) * (E b k / sqrt (E k k)))%R with (E a k * E b k / (sqrt (E k k) * sqrt (E k k)))%R by (field; lra). rewrite Hss. unfold E, rest. ring. }
  assert (He : forall i, r < i < n -> rc_e (O := ROps) D r i = (E (p i) k / sqrt (E k k))%R).
  { intros i Hi. unfold rc_e. change (1 / sqrt (D r r) * D i r = E (p i) k / sqrt (E k k))%R. rewrite Hd, (H1 i r) by lia. fold k E. field. lra. }
  exists W'. split; [|split; [|split; [|split; [|split]]]].
  - intros i j Hi Hj. rewrite HR. unfold rc_D. destruct (Z.ltb_spec r i); [|lia]. destruct (Z.ltb_spec r j); [|lia]. cbn [andb].
    destruct (Z.eqb_spec i j) as [->|Hne].
    + change ((D j j - D j r * D j r * (1 / D r r))%R = elim E k (p j) (p j)). rewrite Hd, !H1 by lia. fold k E. unfold elim. field. lra.
    + change ((D (Z.max i j) (Z.min i j) - rc_e (O := ROps) D r (Z.max i j) * rc_e (O := ROps) D r (Z.min i j))%R = elim E k (p i) (p j)). rewrite !He by lia. rewrite H1 by lia. fold k E. unfold elim.
      replace (E (p (Z.max i j)) k / sqrt (E k k) * (E (p (Z.min i j)) k / sqrt (E k k)))%R with (E (p (Z.max i j)) k * E (p (Z.min i j)) k / (sqrt (E k k) * sqrt (E k k)))%R by (field; lra). rewrite Hss.
      destruct (Z.max_spec i j) as [[? ->]|[? ->]]; destruct (Z.min_spec i j) as [[? ->]|[? ->]]; try lia; [|auto].
      rewrite (HE (p j) (p i)) by (apply P1; lia). unfold Rdiv. ring.
  - intros i t Hi Ht. unfold rc_B. destruct (Z.eqb_spec t r) as [->|].
    + rewrite HW'. destruct (Z.eqb_spec i r) as [->|].
      * change (sqrt (D r r) = (E k k / sqrt (E k k))%R). rewrite Hd. rewrite <- Hss at 2. field. lra.
      * destruct (Z.ltb_spec r i); [apply He; lia|]. rewrite H3 by lia. rewrite (H4 i k) by (auto; lia). unfold Rdiv. ring.
    + rewrite HW by lia. apply H2; lia.
  - intros i t Hi Ht. unfold rc_B. destruct (Z.eqb_spec t r); [lia|]. apply H3; lia.
  - intros i b Hi Hb. rewrite HR. unfold elim. destruct (Z.eq_dec i r) as [->|].
    + fold k. rewrite (HE b k) by auto. field. lra.
    + rewrite !(H4 i) by (auto; lia). unfold Rdiv. ring.
  - intros i Hi. destruct (Z.eq_dec i r) as [->|].
    + split; [|intros; lia]. rewrite HW'. fold k. rewrite <- Hss at 1. replace (sqrt (E k k) * sqrt (E k k) / sqrt (E k k))%R with (sqrt (E k k)) by (field; lra). auto.
    + destruct (H5 i ltac:(lia)) as [G1 G2]. rewrite HW by lia. split; auto. intros t Ht. destruct (Z.eq_dec t r) as [->|]; [|rewrite HW by lia; apply G2; lia].
      rewrite HW', (H4 i k) by (auto; lia). unfold Rdiv. ring.
  - rewrite H6. fold E. rewrite (psd_elim n E k HE Hk Hpos). split; apply psd_ext; intros a b Ha Hb; rewrite HR; auto.
Qed.
Lemma J_0 : J 0 (fun i => i) A (fun _ _ => 0%R).
Proof.
  exists (fun _ _ => 0%R). assert (E : forall a b, rest (fun _ _ => 0%R) 0 a b = A a b) by (intros; unfold rest; rewrite Rs_nil by lia; ring).
  split; [intros; rewrite E; auto|]. split; [intros; lia|]. split; [auto|]. split; [intros; lia|]. split; [intros; lia|].
  split; apply psd_ext; intros a b Ha Hb; rewrite E; auto.
Qed.

(** The chosen pivot is the largest remaining diagonal element. *)
Lemma argmax_max r (D : Z -> Z -> R) i : 0 <= r < n -> r <= i < n -> (D i i <= D (rc_argmax (O := ROps) n r D) (rc_argmax (O := ROps) n r D))%R.
Proof.
  intros Hr Hi. unfold rc_argmax. set (step := fun t s => _).
  enough (G : forall k, 0 <= k -> forall i, r <= i < r + 1 + k -> (D i i <= D (accum step (Z.to_nat k) r) (accum step (Z.to_nat k) r))%R) by (apply G; lia).
  apply (natlike_ind (fun k => forall i, r <= i < r + 1 + k -> (D i i <= D (accum step (Z.to_nat k) r) (accum step (Z.to_nat k) r))%R)).
  - intros j Hj. replace j with r by lia. cbn. lra.
  - intros k Hk IH j Hj. change (Z.succ k) with (k + 1) in *. rewrite accum_S by auto. set (s := accum step (Z.to_nat k) r) in *. unfold step.
    unfold fgt. change (@flt ROps) with Rltb. destruct (Rltb (D s s) (D (r + 1 + k) (r + 1 + k))) eqn:E.
    + apply Rltb_true in E. destruct (Z.eq_dec j (r + 1 + k)) as [->|]; [lra|]. specialize (IH j ltac:(lia)). lra.
    + apply Rltb_false in E. destruct (Z.eq_dec j (r + 1 + k)) as [->|]; [lra|]. apply IH; lia.
Qed.
Lemma pivoted_max r (D : Z -> Z -> R) i : 0 <= r < n -> pivoted_at (O := ROps) n r D -> r <= i < n -> (D i i <= D r r)%R.
Proof.
  intros Hr (D0 & Hs & E) Hi. rewrite !E. set (s := rc_argmax (O := ROps) n r D0) in *.
  replace (swp r s r) with s by (unfold swp; rewrite Z.eqb_refl; auto). apply argmax_max; auto. unfold swp. zbq; lia.
Qed.
End Rect.

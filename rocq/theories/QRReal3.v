(** The rank-revealing QR decomposition in exact arithmetic. *)
From Coq Require Import ZArith List Lia Bool Reals Lra.
From Verif Require Import Base BaseLemmas Scalar Vector VecSpec VectorFacts Matrix MatSpec MatFacts TabTac FSum RealOps RSum Tri LUReal LUSpec QR QRSpec QRFacts QRFacts3 House QRReal QRReal2 CholFacts.
Open Scope Z_scope.

Lemma swp_lt k ix j : j < k -> k <= ix -> swp k ix j = j.
Proof. intros. unfold swp. zbq; auto. Qed.
Lemma swp_ge k ix j : k <= j -> k <= ix -> k <= swp k ix j.
Proof. intros. unfold swp. zbq; lia. Qed.

Section RR.
Variables m n : Z.

Lemma qinv_swap A k M D ix : 0 <= k -> k <= m -> k <= ix < n -> qinv m n A k M D -> qinv m n (fun i j => A i (swp k ix j)) k (fun j r => M (swp k ix j) r) D.
Proof.
  intros Hk Hkm Hix [I1 I2]. split.
  - intros j Hj. cbn beta. rewrite swp_lt by lia. apply I1. auto.
  - intros i j Hi Hj. rewrite (mmul_ext m _ (Gk m M D k) _ (fun a b => A a (swp k ix b))) by (auto; intros; apply Gk_ext; try lia; intros; auto; rewrite swp_lt by lia; auto).
    change (mmul m (Gk m M D k) (fun a b => A a (swp k ix b)) i j) with (mmul m (Gk m M D k) A i (swp k ix j)).
    rewrite <- I2 by (auto; apply swp_range; lia). unfold Bk. destruct (Z.ltb_spec j k).
    + rewrite swp_lt by lia. destruct (Z.ltb_spec j k); [auto|lia].
    + destruct (Z.ltb_spec (swp k ix j) k); [|auto]. pose proof (swp_ge k ix j). lia.
Qed.

(** The pivot has the largest tail. *)
Lemma pick_max M k i : 0 <= k < n -> k <= m -> k <= i < n -> (rr_l2 (O := ROps) m M k i <= rr_l2 (O := ROps) m M k (snd (rr_pick (O := ROps) m n M k)))%R.
Proof.
  intros Hk Hkm Hi. unfold rr_pick.
  set (st := fun t s => if fgt (rr_l2 (O := ROps) m M k (k + t)) (fst s) then (rr_l2 (O := ROps) m M k (k + t), k + t) else s).
  assert (NN : forall i, (0 <= rr_l2 (O := ROps) m M k i)%R).
  { intros q. unfold rr_l2. rewrite fadds_R by lia. change (@fzero ROps) with 0%R. rewrite Rplus_0_l. apply Rs_nonneg. intros. apply Rle_0_sqr. }
  enough (G : forall t, 0 <= t -> (fst (accum st (Z.to_nat t) (@fzero ROps, k)) <= rr_l2 (O := ROps) m M k (snd (accum st (Z.to_nat t) (@fzero ROps, k))))%R /\
    forall i, k <= i < k + t -> (rr_l2 (O := ROps) m M k i <= fst (accum st (Z.to_nat t) (@fzero ROps, k)))%R).
  { destruct (G (n - k) ltac:(lia)) as [G1 G2]. eapply Rle_trans; [apply G2; lia|exact G1]. }
  intros t Ht. pattern t. apply natlike_ind; auto.
  - cbn [Z.to_nat accum fst snd]. split; [apply NN|intros; lia].
  - intros x Hx [I1 I2]. change (Z.succ x) with (x + 1). rewrite accum_S by lia. set (s := accum st (Z.to_nat x) _) in *. unfold st at 1 2 3.
    change (@fgt ROps (rr_l2 m M k (k + x)) (fst s)) with (Rltb (fst s) (rr_l2 (O := ROps) m M k (k + x))).
    destruct (Rltb (fst s) (rr_l2 (O := ROps) m M k (k + x))) eqn:E; cbn [fst snd].
    + apply Rltb_true in E. split; [apply Rle_refl|]. intros q Hq. destruct (Z.eq_dec q (k + x)) as [->|]; [apply Rle_refl|]. eapply Rle_trans; [apply I2; lia|]. left. exact E.
    + apply Rltb_false in E. split; auto. intros q Hq. destruct (Z.eq_dec q (k + x)) as [->|]; [exact E|apply I2; lia].
Qed.

(** Squared norm of rows t.. of a column. *)
Definition tn2 (t : Z) (y : Z -> R) : R := Rs t m (fun i => y i * y i)%R.
Lemma tn2_nonneg t y : (0 <= tn2 t y)%R.
Proof. apply Rs_nonneg. intros. apply Rle_0_sqr. Qed.
Lemma tn2_ext t y z : 0 <= t -> (forall i, 0 <= i < m -> y i = z i) -> tn2 t y = tn2 t z.
Proof. intros Ht H. apply Rs_ext. intros i Hi. rewrite H by lia. auto. Qed.
Lemma tn2_refl t H y : 0 <= t <= m -> orthogonal m H -> (forall i, 0 <= i < t -> mvec m H y i = y i) -> tn2 t (mvec m H y) = tn2 t y.
Proof.
  intros Ht Ho Hs. pose proof (orth_norm m H y Ho) as E. unfold norm2, dot in E. rewrite !(Rs_split 0 t m) in E by lia.
  rewrite (Rs_ext 0 t (fun k => mvec m H y k * mvec m H y k)%R (fun k => y k * y k)%R) in E by (intros; rewrite Hs by lia; auto). unfold tn2. lra.
Qed.
Definition pivoted (k : Z) (M : Z -> Z -> R) (D : Z -> R) : Prop :=
  forall t j, 0 <= t < k -> t < j < n -> (tn2 t (fun i => Bk M D k i j) <= D t * D t)%R.

Lemma pivoted_step A k M D : 0 <= k < m -> k < n -> qinv m n A k M D -> pivoted k M D ->
  (forall i, k <= i < n -> (rr_l2 (O := ROps) m M k i <= rr_l2 (O := ROps) m M k k)%R) ->
  pivoted (k + 1) (hh_M (O := ROps) m M k) (hh_D (O := ROps) m M D k).
Proof.
  intros Hk Hkn Inv Piv Hmax t j Ht Hj. pose proof (qinv_step m n A k M D Hk Hkn Inv) as Inv'. 
  set (M' := hh_M (O := ROps) m M k) in *. set (D' := hh_D (O := ROps) m M D k) in *.
  assert (EM : forall j r, j < k -> M' j r = M j r).
  { intros q r Hq. unfold M', hh_M. destruct (feq _ _); auto. destruct (Z.eqb_spec q k), (Z.ltb_spec k q); try lia. auto. }
  assert (ED : forall j, j < k -> D' j = D j) by (intros; unfold D', hh_D; destruct (Z.eqb_spec j0 k); [lia|auto]).
  (* the new columns are the reflected old ones *)
  assert (EB : forall i, 0 <= i < m -> Bk M' D' (k + 1) i j = mvec m (Hm M' D' k) (fun r => Bk M D k r j) i).
  { intros i Hi. destruct Inv as [_ I2], Inv' as [_ I2']. rewrite I2' by lia. rewrite Gk_S by lia. rewrite mmul_assoc.
    change (mmul m (Hm M' D' k) (mmul m (Gk m M' D' k) A) i j) with (mvec m (Hm M' D' k) (fun r => mmul m (Gk m M' D' k) A r j) i).
    apply mvec_ext; auto. intros r Hr. rewrite I2 by lia. apply mmul_ext; auto. intros q Hq. apply Gk_ext; try lia; auto. intros; apply EM; lia. intros; apply ED; lia. }
  assert (HO : orthogonal m (Hm M' D' k)) by (apply refl_orth; apply (proj1 Inv'); lia).
  rewrite (tn2_ext t _ _ ltac:(lia) EB). rewrite tn2_refl; auto; try lia.
  2:{ intros i Hi. unfold Hm. rewrite refl_vec by lia. rewrite tail_lt by lia. unfold Rdiv. ring. }
  destruct (Z.eq_dec t k) as [->|].
  - unfold D', hh_D. rewrite Z.eqb_refl. rewrite norm_sq by lia.
    assert (L : forall i, rr_l2 (O := ROps) m M k i = Rs k m (fun r => M i r * M i r)%R) by (intros; unfold rr_l2; rewrite fadds_R by lia; change (@fzero ROps) with 0%R; rewrite Rplus_0_l; auto).
    pose proof (Hmax j ltac:(lia)) as HH. rewrite !L in HH. unfold tn2. rewrite (Rs_ext k m _ (fun r => M j r * M j r)%R); [exact HH|].
    intros i Hi. unfold Bk. destruct (Z.ltb_spec j k); [lia|auto].
  - rewrite ED by lia. apply Piv; lia.
Qed.
Lemma pivoted_swap k M D ix : 0 <= k -> k <= ix < n -> pivoted k M D -> pivoted k (fun j r => M (swp k ix j) r) D.
Proof.
  intros Hk Hix Piv t j Ht Hj. assert (E : forall i, Bk (fun j r => M (swp k ix j) r) D k i j = Bk M D k i (swp k ix j)).
  { intros i. unfold Bk. destruct (Z.ltb_spec j k).
    - rewrite swp_lt by lia. destruct (Z.ltb_spec j k); [auto|lia].
    - destruct (Z.ltb_spec (swp k ix j) k); [|auto]. pose proof (swp_ge k ix j). lia. }
  unfold tn2. rewrite (Rs_ext t m _ (fun i => Bk M D k i (swp k ix j) * Bk M D k i (swp k ix j))%R) by (intros; rewrite E; auto).
  apply (Piv t (swp k ix j)); auto. pose proof (swp_range n k ix j ltac:(lia) ltac:(lia) ltac:(lia)). split; [|lia].
  destruct (Z_lt_le_dec j k); [rewrite swp_lt by lia; lia|]. pose proof (swp_ge k ix j). lia.
Qed.

Lemma rr_inv A k : 0 <= k <= Z.min m n -> let s := rr_iter (O := ROps) m n A k in
  qinv m n (fun i j => A i (snd s j)) k (fst (fst s)) (snd (fst s)) /\ pivoted k (fst (fst s)) (snd (fst s)).
Proof.
  intros [Hk Hkp]. revert Hkp. pattern k. apply natlike_ind; auto.
  - intros _. cbn. split; [apply qinv_0|intros t j Ht; lia].
  - intros t Ht IH Htp. change (Z.succ t) with (t + 1) in *. unfold rr_iter. rewrite accum_S by lia. specialize (IH ltac:(lia)). fold (rr_iter (O := ROps) m n A t).
    destruct (rr_iter (O := ROps) m n A t) as [[M D] q]. cbn [rr_step fst snd] in *. destruct IH as [I1 I2].
    pose proof (pick_range (O := ROps) m n M t ltac:(lia)) as Hix. set (ix := snd (rr_pick (O := ROps) m n M t)) in *.
    assert (I3 := qinv_swap _ t M D ix Ht ltac:(lia) Hix I1). cbn beta in I3. split; [apply qinv_step; auto; lia|].
    eapply pivoted_step; [lia|lia|exact I3|apply pivoted_swap; auto|]. intros i Hi.
    assert (E : rr_l2 (O := ROps) m (fun j r => M (swp t ix j) r) t t = rr_l2 (O := ROps) m M t ix).
    { unfold rr_l2. rewrite !fadds_R by lia. f_equal. apply Rs_ext. intros. unfold swp. rewrite Z.eqb_refl. auto. }
    rewrite E. change (rr_l2 (O := ROps) m (fun j r => M (swp t ix j) r) t i) with (rr_l2 (O := ROps) m M t (swp t ix i)). apply pick_max; try lia.
    split; [apply swp_ge; lia|apply swp_range; lia].
Qed.
End RR.

(** ** The rank *)
(** Any r+1 or more columns of length r are dependent. *)
Lemma wide_dependent r n A : 1 <= r < n -> exists w j, 0 <= j < n /\ w j <> 0%R /\ forall i, 0 <= i < r -> mvec n A w i = 0%R.
Proof.
  intros Hr. pose proof (qinv_iter r n A (Z.min r n) ltac:(lia)) as Inv.
  set (M := fst (hh_iter (O := ROps) r A (Z.min r n))) in *. set (D := snd (hh_iter (O := ROps) r A (Z.min r n))) in *.
  set (RT := tabR (O := ROps) r n M D).
  destruct (first_zero (fun i => if i <? r then D i else 0%R) (r + 1)) as [H|(k & Hk & Hz & Hnz)].
  { exfalso. apply (H r ltac:(lia)). zbq. auto. }
  destruct (upper_singular n (fun i j => if i <? r then RT i j else 0%R) k) as (w & Hw1 & _ & Hw); try lia.
  - destruct (Z.ltb_spec k r); auto. unfold RT. rewrite R_diag by lia. exact Hz.
  - intros i Hi. specialize (Hnz i Hi). destruct (Z.ltb_spec i r); [unfold RT; rewrite R_diag by lia; exact Hnz|auto].
  - intros i j Hij. destruct (Z.ltb_spec i r); auto. apply R_upper; lia.
  - exists w, k. split; [lia|]. split; [rewrite Hw1; lra|]. intros i Hi.
    rewrite (mvec_ext n _ (mmul r (trm (tabQT (O := ROps) r n M D)) RT) w w) by (auto; intros; symmetry; apply Q_R; auto; lia).
    rewrite mvec_mmul. apply mvec_zero. intros q Hq. rewrite <- (Hw q) by lia. apply mvec_ext; auto. intros. cbn beta. zbq; auto.
Qed.
Lemma choose_cols n (P : Z -> (Z -> R) -> Prop) : 0 <= n -> (forall j, 0 <= j < n -> exists w, P j w) -> exists W, forall j, 0 <= j < n -> P j (W j).
Proof.
  intros Hn. pattern n. apply natlike_ind; auto.
  - intros _. exists (fun _ _ => 0%R). intros; lia.
  - intros k Hk IH H. destruct IH as (W & HW); [intros; apply H; lia|]. destruct (H k ltac:(lia)) as (w & Hw).
    exists (fun j => if j =? k then w else W j). intros j Hj. destruct (Z.eqb_spec j k) as [->|]; auto. apply HW. lia.
Qed.
Lemma rank_le m n A r r' : has_rank m n A r -> has_rank m n A r' -> r <= r'.
Proof.
  intros (H0 & s & Hs & Hi & _) (H0' & s' & _ & _ & Hsp). destruct (Z_le_gt_dec r r') as [|Hgt]; auto. exfalso.
  destruct (choose_cols r (fun t w => forall i, 0 <= i < m -> A i (s t) = mvec r' (fun i t => A i (s' t)) w i) H0) as (W & HW).
  { intros t Ht. apply Hsp. auto. }
  assert (K : exists w j, 0 <= j < r /\ w j <> 0%R /\ forall a, 0 <= a < r' -> mvec r (fun a t => W t a) w a = 0%R).
  { destruct (Z.eq_dec r' 0) as [->|]; [|apply wide_dependent; lia]. exists (fun _ => 1%R), 0. split; [lia|]. split; [lra|intros; lia]. }
  destruct K as (w & j & Hj & Hw & Hz). apply Hw. apply (Hi w); auto. intros i Hi'.
  rewrite (mvec_ext r _ (mmul r' (fun i t => A i (s' t)) (fun a t => W t a)) w w).
  - rewrite mvec_mmul. apply mvec_zero. auto.
  - intros t Ht. rewrite (HW t Ht i Hi'). auto.
  - auto.
Qed.
Lemma rank_unique m n A r r' : has_rank m n A r -> has_rank m n A r' -> r = r'.
Proof. intros H H'. pose proof (rank_le _ _ _ _ _ H H'). pose proof (rank_le _ _ _ _ _ H' H). lia. Qed.

Section RankR.
Variables m n : Z.
Variable A : Z -> Z -> R.
Variable M : Z -> Z -> R.
Variable D : Z -> R.
Variable q : Z -> Z.
Hypothesis Hm1 : 1 <= m.
Hypothesis Hn1 : 1 <= n.
Notation p := (Z.min m n).
Hypothesis Inv : qinv m n (fun i j => A i (q j)) p M D.
Hypothesis Piv : pivoted m n p M D.
Hypothesis Hq : permutes n q.
Notation RT := (tabR (O := ROps) m n M D).
Notation QT := (tabQT (O := ROps) m n M D).

Lemma R_sorted i j : 0 <= i <= j -> j < p -> (Rabs (RT j j) <= Rabs (RT i i))%R.
Proof.
  intros Hi Hj. destruct (Z.eq_dec i j) as [->|]; [apply Rle_refl|]. apply Rsqr_le_abs_0. unfold Rsqr. rewrite (R_diag m n M D i) by lia.
  eapply Rle_trans; [|apply (Piv i j); lia]. unfold tn2. rewrite R_B by lia.
  apply (Rs_term i m (fun i0 => Bk M D p i0 j * Bk M D p i0 j)%R j); [lia|]. intros. apply Rle_0_sqr.
Qed.
Lemma R_dominates t i j : 0 <= t < p -> t <= i < m -> t <= j < n -> (Rabs (RT i j) <= Rabs (RT t t))%R.
Proof.
  intros Ht Hi Hj. destruct (Z.eq_dec t j) as [->|].
  - destruct (Z.eq_dec j i) as [->|]; [apply Rle_refl|]. rewrite (R_upper m n M D i j) by lia. rewrite Rabs_R0. apply Rabs_pos.
  - apply Rsqr_le_abs_0. unfold Rsqr. rewrite (R_diag m n M D t) by lia.
    eapply Rle_trans; [|apply (Piv t j); lia]. unfold tn2. rewrite R_B by lia.
    apply (Rs_term t m (fun i0 => Bk M D p i0 j * Bk M D p i0 j)%R i); [lia|]. intros. apply Rle_0_sqr.
Qed.
Lemma D_zero t : 0 <= t < p -> D t = 0%R -> forall i j, t <= i < m -> t <= j < n -> RT i j = 0%R.
Proof.
  intros Ht Hz i j Hi Hj. pose proof (R_dominates t i j Ht Hi Hj) as H. rewrite (R_diag m n M D t), Hz, Rabs_R0 in H by lia.
  destruct (Req_dec (RT i j) 0) as [|Hne]; auto. apply Rabs_pos_lt in Hne. lra.
Qed.
Lemma rank_is r : 0 <= r <= p -> (forall i, 0 <= i < r -> D i <> 0%R) -> (r = p \/ (r < p /\ D r = 0%R)) -> has_rank m n A r.
Proof.
  intros Hr Hnz Hz. split; [lia|]. exists q. destruct Hq as (P1 & P2 & P3).
  assert (EA : meq m n (mmul m (trm QT) RT) (fun i j => A i (q j))) by (apply Q_R; auto).
  assert (ER : meq m n (mmul m QT (fun i j => A i (q j))) RT) by (apply QT_A; auto).
  assert (Z0 : forall i j, r <= i < m -> r <= j < n -> RT i j = 0%R).
  { intros i j Hi Hj. destruct Hz as [->|[Hlt Hz]]; [apply R_bottom; lia|apply (D_zero r); auto; lia]. }
  split; [intros; apply P1; lia|]. split.
  - intros w Hw. apply (upper_inj r RT).
    + intros i Hi. rewrite R_diag by lia. auto.
    + intros i j Hj Hi. apply R_upper; lia.
    + intros i Hi. rewrite (mvec_ext r _ (mmul m QT (fun i j => A i (q j))) w w) by (auto; intros; symmetry; apply ER; lia).
      rewrite mvec_mmul. apply mvec_zero. auto.
  - intros j Hj. destruct (P3 j Hj) as (j' & Hj' & <-). destruct (Z_lt_le_dec j' r) as [Hlt|Hge].
    + exists (fun t => if t =? j' then 1%R else 0%R). intros i Hi. unfold mvec. rewrite (Rs_pick 0 r j') by (try lia; intros; zbq; ring). rewrite Z.eqb_refl. ring.
    + destruct (upper_solve r RT (fun i => RT i j') ltac:(lia)) as (x & Hx).
      { intros i Hi. rewrite R_diag by lia. auto. } { intros a b Hb Ha. apply R_upper; lia. }
      exists x. intros i Hi. rewrite <- (EA i j' Hi Hj'). rewrite (mvec_ext r _ (mmul m (trm QT) RT) x x) by (auto; intros; symmetry; apply EA; lia).
      rewrite mvec_mmul. unfold mmul at 1. apply Rs_ext. intros k Hk. f_equal. destruct (Z_lt_le_dec k r); [symmetry; apply Hx; lia|].
      rewrite Z0 by lia. symmetry. apply Rs_zero. intros t Ht. rewrite R_upper by lia. ring.
Qed.
(** Squared norm of the trailing block. *)
Notation trail := (trailing m n RT).
Lemma trail_nonneg k : (0 <= trail k)%R.
Proof. apply sqrt_pos. Qed.
Lemma trail_zero k : 0 <= k < p -> (trail k = 0%R <-> D k = 0%R).
Proof.
  intros Hk. split; intros H.
  - apply sqrt_eq_0 in H; [|apply Rs_nonneg; intros; apply Rs_nonneg; intros; apply Rle_0_sqr].
    pose proof (Rs_eq0 k m _ ltac:(intros; apply Rs_nonneg; intros; apply Rle_0_sqr) H k ltac:(lia)) as H1. cbn beta in H1.
    pose proof (Rs_eq0 k n _ ltac:(intros; apply Rle_0_sqr) H1 k ltac:(lia)) as H2. cbn beta in H2. rewrite R_diag in H2 by lia. destruct (Rmult_integral _ _ H2); auto.
  - unfold trail. rewrite Rs_zero, sqrt_0; auto. intros i Hi. apply Rs_zero. intros j Hj. rewrite (D_zero k Hk H) by lia. ring.
Qed.
Lemma D0_zero : D 0 = 0%R <-> meq m n A (fun _ _ => 0%R).
Proof.
  pose proof (Q_R m n (fun i j => A i (q j)) M D Hm1 Hn1 Inv) as EA. pose proof (QT_A m n (fun i j => A i (q j)) M D Hm1 Hn1 Inv) as ER. destruct Hq as (P1 & P2 & P3). split; intros H.
  - intros i j Hi Hj. destruct (P3 j Hj) as (j' & Hj' & <-). rewrite <- (EA i j' Hi Hj'). apply Rs_zero. intros k Hk. rewrite (D_zero 0 ltac:(lia) H) by lia. ring.
  - rewrite <- (R_diag m n M D 0) by lia. rewrite <- ER by lia. apply Rs_zero. intros k Hk. rewrite H by (auto; apply P1; lia). ring.
Qed.
End RankR.

(** The rectangular Cholesky theorems. *)
From Coq Require Import ZArith List Lia Bool Reals Lra.
From Verif Require Import Base BaseLemmas Wpe Scalar Vector VecSpec VectorFacts Matrix MatSpec MatFacts Array2D BlockM Diagonal RealMatrixM Array2DFacts MatrixOps TabTac FSum Cholesky CholSpec CholFacts CholReal RealOps RSum Tri LUSpec QRSpec QRFacts3 QRReal3 RectChol RectFacts RectSpec RectReal.
Import ListNotations.
Open Scope Z_scope.

Lemma rc_any {O : Ops} (x : RealMatrix) n A small : library x -> MatIs x n n A -> 1 <= n ->
  NewRectangularCholeskyDecompositionWithThreshold x small = Err ENonPosDef \/
  exists d W, NewRectangularCholeskyDecompositionWithThreshold x small = Ok d /\ 1 <= rc_Rank d <= n /\ MatIs (rc_RootMatrix d) n (rc_Rank d) W.
Proof.
  intros Hl Hx Hn. pose proof (rc_new_spec n small (fun _ _ _ _ => True) (fun _ _ _ _ _ _ _ _ _ => I) (fun _ _ _ _ _ _ _ _ => I) x A Hn Hl Hx I) as W.
  unfold wpe in W. destruct (NewRectangularCholeskyDecompositionWithThreshold x small) as [d|e|e]; [|left|contradiction].
  - right. destruct W as (r & p & D & B & W & _ & _ & Hr & _ & Er & _ & HW & _). exists d, W. unfold rc_Rank, rc_RootMatrix. rewrite Er. auto.
  - destruct W as [-> _]. auto.
Qed.

#[local] Existing Instance ROps.
Lemma rc_of_new (x : @RealMatrix ROps) small d : rc_of x small d -> NewRectangularCholeskyDecompositionWithThreshold x small = Ok d.
Proof. intros [H|[-> H]]; auto. Qed.

Section Props.
Variables (x : @RealMatrix ROps) (n : Z) (A : Z -> Z -> R) (small : R).
Hypotheses (Hl : library x) (Hx : MatIs x n n A) (Hn : 1 <= n) (HS : symmetric n A) (Hs : (0 <= small)%R).

Lemma rc_real_spec : wpe (NewRectangularCholeskyDecompositionWithThreshold x small) (rc_result (O := ROps) n small (J n A)) (rc_err (O := ROps) n small (J n A)).
Proof. apply (rc_new_spec (O := ROps) n small (J n A)) with (A := A); auto; [intros; apply J_swap; auto|intros; eapply J_step; eauto|apply J_0]. Qed.

Lemma rc_state_of d : rc_of x small d -> exists r p W, permutes n p /\ rc_Rank d = r /\ 1 <= r <= n /\ MatIs (rc_RootMatrix d) n r W /\
  (forall i b, 0 <= i < r -> 0 <= b < n -> rest A W r (p i) b = 0%R) /\
  (forall i, 0 <= i < r -> (0 < W (p i) i)%R /\ forall t, i < t < r -> W (p i) t = 0%R) /\
  ((forall x, 0 <= quad n A x)%R <-> forall x, (0 <= quad n (rest A W r) x)%R) /\
  (forall a, 0 <= a < n -> (- small <= rest A W r a a <= small)%R).
Proof.
  intros Hd. apply rc_of_new in Hd. pose proof rc_real_spec as W. unfold wpe in W. rewrite Hd in W.
  destruct W as (r & p & D & B & W & Hp & (V & H1 & H2 & H3 & H4 & H5 & H6) & Hr & Hst & Er & _ & HW & EW). exists r, p, W.
  pose proof Hp as (P1 & P2 & P3).
  assert (EV : forall a t, 0 <= a < n -> 0 <= t < r -> W a t = V a t).
  { intros a t Ha Ht. destruct (P3 a Ha) as (i & Hi & <-). rewrite EW, H2 by lia. auto. }
  assert (ER : forall a b, 0 <= a < n -> 0 <= b < n -> rest A W r a b = rest A V r a b).
  { intros a b Ha Hb. unfold rest. f_equal. apply Rs_ext. intros t Ht. rewrite !EV by lia. auto. }
  split; [auto|]. split; [auto|]. split; [auto|]. split; [exact HW|]. split; [|split; [|split]].
  - intros i b Hi Hb. rewrite ER by (try apply P1; lia). apply H4; auto.
  - intros i Hi. destruct (H5 i Hi) as [G1 G2]. rewrite EV by (try apply P1; lia). split; [auto|]. intros t Ht. rewrite EV by (try apply P1; lia). apply G2; auto.
  - rewrite H6. split; apply psd_ext; intros a b Ha Hb; rewrite ER by auto; auto.
  - intros a Ha. rewrite ER by auto. destruct (P3 a Ha) as (i & Hi & <-). destruct (Z.lt_ge_cases i r).
    + rewrite H4 by (try apply P1; lia). lra.
    + destruct Hst as [->|(Hr' & Hpv & Hle & Hlt)]; [lia|]. change (Rleb (D r r) small = true) in Hle. apply Rleb_true in Hle.
      specialize (Hlt i ltac:(lia)). change (Rltb (D i i) (- small)%R = false) in Hlt. apply Rltb_false in Hlt.
      pose proof (pivoted_max n r D i ltac:(lia) Hpv ltac:(lia)). rewrite <- H1 by lia. lra.
Qed.
Lemma rc_no_panic : NewRectangularCholeskyDecompositionWithThreshold x small = Err ENonPosDef \/ exists d, NewRectangularCholeskyDecompositionWithThreshold x small = Ok d.
Proof. pose proof rc_real_spec as W. unfold wpe in W. destruct (NewRectangularCholeskyDecompositionWithThreshold x small) as [d|e|e]; [right; eauto|left; destruct W as [-> _]; auto|contradiction]. Qed.
Lemma rc_err_why e : NewRectangularCholeskyDecompositionWithThreshold x small = Err e -> (forall a, 0 <= a < n -> (A a a <= small)%R) \/ ~ psd n A.
Proof.
  intros E. pose proof rc_real_spec as W. unfold wpe in W. rewrite E in W. destruct W as (_ & r & p & D & B & Hp & (V & H1 & H2 & H3 & H4 & H5 & H6) & Hr & Hpv & Hle & Hc).
  pose proof Hp as (P1 & P2 & P3). change (Rleb (D r r) small = true) in Hle. apply Rleb_true in Hle. destruct Hc as [->|(i & Hi & Hlt)].
  - left. intros a Ha. destruct (P3 a Ha) as (i & Hi & <-). pose proof (pivoted_max n 0 D i ltac:(lia) Hpv ltac:(lia)). rewrite (H1 i i) in H by lia. unfold rest in H. rewrite Rs_nil in H by lia. lra.
  - right. intros [_ HP]. change (Rltb (D i i) (- small)%R = true) in Hlt. apply Rltb_true in Hlt. rewrite H1 in Hlt by lia.
    pose proof (psd_diag n (rest A V r) (p i) (rest_sym n A HS V r) (proj1 H6 HP) (P1 i ltac:(lia))). lra.
Qed.
(** A first pivot at most [small] is an error. *)
Lemma rc_err_small : (forall a, 0 <= a < n -> (A a a <= small)%R) -> NewRectangularCholeskyDecompositionWithThreshold x small = Err ENonPosDef.
Proof.
  intros H. destruct rc_no_panic as [E|(d & E)]; auto. exfalso.
  destruct (rc_state_of d (or_introl E)) as (r & p & W & (P1 & P2 & P3) & Er & Hr & HW & H4 & H5 & H6 & H7).
  (* the first step was taken with a pivot above [small] *)
  pose proof (rc_new_spec (O := ROps) n small (fun r p D B => r = 0 /\ meq n n D (fun i j => A (p i) (p j)) \/ exists a, 0 <= a < n /\ (small < A a a)%R)) as S.
  specialize (S ltac:(intros r0 s p0 D B Hr0 Hs0 Hp0 [[-> HD]|K]; [left; split; auto; intros i j Hi Hj; apply HD; apply swp_range; auto; lia|right; exact K])).
  specialize (S ltac:(intros r0 p0 D B Hr0 (Q1 & _) [[-> HD]|K] Hf; right; [|exact K]; exists (p0 0); split; [apply Q1; lia|]; change (Rleb (D 0 0) small = false) in Hf; apply Rleb_false in Hf; rewrite HD in Hf by lia; exact Hf)).
  specialize (S x A Hn Hl Hx ltac:(left; split; auto; intros i j Hi Hj; auto)). unfold wpe in S. rewrite E in S.
  destruct S as (r1 & p1 & D1 & B1 & W1 & _ & [[-> _]|(a & Ha & Hlt)] & Hr1 & _); [lia|]. specialize (H a Ha). lra.
Qed.
End Props.

Lemma rc_factor (x : @RealMatrix ROps) n A small d : library x -> MatIs x n n A -> 1 <= n -> psd n A -> (0 <= small)%R -> rc_of x small d ->
  exists r W, rc_Rank d = r /\ 1 <= r <= n /\ MatIs (rc_RootMatrix d) n r W /\ independent n r W /\
    (forall a b, 0 <= a < n -> 0 <= b < n -> (Rabs (A a b - mmul r W (trm W) a b) <= small)%R) /\
    (small = 0%R -> meq n n (mmul r W (trm W)) A /\ has_rank n n A r).
Proof.
  intros Hl Hx Hn [HS HP] Hs Hd. destruct (rc_state_of x n A small Hl Hx Hn HS Hs d Hd) as (r & p & W & (P1 & P2 & P3) & Er & Hr & HW & H4 & H5 & H6 & H7).
  exists r, W. split; [auto|]. split; [auto|]. split; [auto|].
  assert (G : forall a b, 0 <= a < n -> 0 <= b < n -> (Rabs (A a b - mmul r W (trm W) a b) <= small)%R).
  { intros a b Ha Hb. apply (psd_bound n (rest A W r) small (rest_sym n A HS W r) (proj1 H6 HP)); auto. intros c Hc. apply H7. auto. }
  assert (Hlow : forall w, (forall i, 0 <= i < r -> mvec r (fun i t => W (p i) t) w i = 0%R) -> forall i, 0 <= i < r -> w i = 0%R).
  { intros w. apply lower_inj; [intros i Hi; destruct (H5 i Hi); lra|]. intros i j Hi Hj. apply H5; lia. }
  assert (Hup : forall w, (forall i, 0 <= i < r -> mvec r (fun t i => W (p i) t) w i = 0%R) -> forall i, 0 <= i < r -> w i = 0%R).
  { intros w. apply upper_inj; [intros i Hi; destruct (H5 i Hi); lra|]. intros i j Hi Hj. apply H5; lia. }
  split; [|split; [exact G|]].
  - intros w K. apply Hlow. intros i Hi. apply (K (p i)). apply P1; lia.
  - intros ->. assert (EA : meq n n (mmul r W (trm W)) A).
    { intros a b Ha Hb. specialize (G a b Ha Hb). destruct (Req_dec (A a b - mmul r W (trm W) a b) 0) as [E|E]; [lra|]. apply Rabs_pos_lt in E. lra. }
    split; [exact EA|]. split; [lia|]. exists p. split; [intros; apply P1; lia|].
    assert (EC : forall w a, 0 <= a < n -> mvec r (fun i t => A i (p t)) w a = mvec r W (mvec r (fun t i => W (p i) t) w) a).
    { intros w a Ha. rewrite <- mvec_mmul. apply mvec_ext; auto. intros t Ht. rewrite <- EA by (try apply P1; lia). reflexivity. }
    split.
    + intros w K. apply Hup. intros t Ht. revert t Ht. apply (Hlow (mvec r (fun t i => W (p i) t) w)). intros i Hi. rewrite <- (K (p i)) by (apply P1; lia).
      rewrite EC by (apply P1; lia). reflexivity.
    + intros j Hj. destruct (upper_solve r (fun t i => W (p i) t) (fun t => W j t)) as (w & Hw); [lia|intros i Hi; destruct (H5 i Hi); lra|intros i k Hi Hk; apply H5; lia|].
      exists w. intros a Ha. rewrite EC by auto. rewrite <- EA by auto. unfold mmul, mvec at 1. apply Rs_ext. intros t Ht. unfold trm. rewrite Hw by auto. auto.
Qed.
Lemma rc_defined (x : @RealMatrix ROps) n A small : library x -> MatIs x n n A -> 1 <= n -> psd n A -> (0 <= small)%R ->
  ((exists a, 0 <= a < n /\ (small < A a a)%R) -> exists d, NewRectangularCholeskyDecompositionWithThreshold x small = Ok d) /\
  ((forall a, 0 <= a < n -> (A a a <= small)%R) -> NewRectangularCholeskyDecompositionWithThreshold x small = Err ENonPosDef).
Proof.
  intros Hl Hx Hn HP Hs. pose proof (proj1 HP) as HS. split.
  - intros (a & Ha & Hlt). destruct (rc_no_panic x n A small Hl Hx Hn HS Hs) as [E|?]; auto. exfalso.
    destruct (rc_err_why x n A small Hl Hx Hn HS Hs _ E) as [K|K]; [specialize (K a Ha); lra|contradiction].
  - apply rc_err_small; auto.
Qed.
(** On a symmetric matrix: the diagonal is always reproduced up to the
    threshold; with threshold 0 the whole matrix is iff it is semidefinite. *)
Lemma rc_symmetric (x : @RealMatrix ROps) n A small d : library x -> MatIs x n n A -> 1 <= n -> symmetric n A -> (0 <= small)%R -> rc_of x small d ->
  exists r W, rc_Rank d = r /\ 1 <= r <= n /\ MatIs (rc_RootMatrix d) n r W /\
    (forall a, 0 <= a < n -> (Rabs (A a a - mmul r W (trm W) a a) <= small)%R) /\
    (small = 0%R -> (meq n n (mmul r W (trm W)) A <-> psd n A)).
Proof.
  intros Hl Hx Hn HS Hs Hd. destruct (rc_state_of x n A small Hl Hx Hn HS Hs d Hd) as (r & p & W & (P1 & P2 & P3) & Er & Hr & HW & H4 & H5 & H6 & H7).
  exists r, W. split; [auto|]. split; [auto|]. split; [auto|]. split.
  - intros a Ha. specialize (H7 a Ha). apply Rabs_le. exact H7.
  - intros ->. split.
    + intros E. split; auto. intros y. rewrite <- (quad_ext n (mmul r W (trm W)) A y y) by auto.
      change (mmul r W (trm W)) with (fun i j => Rs 0 r (fun t => trm W t i * trm W t j)%R). rewrite quad_gram. apply Rs_nonneg. intros. apply Rle_0_sqr.
    + intros [_ HP] a b Ha Hb. pose proof (psd_bound n (rest A W r) 0 (rest_sym n A HS W r) (proj1 H6 HP) (fun c Hc => proj2 (H7 c Hc)) a b Ha Hb) as G.
      destruct (Req_dec (rest A W r a b) 0) as [E|E]; [unfold rest in E; unfold mmul, trm; lra|]. apply Rabs_pos_lt in E. lra.
Qed.
Lemma rc_error (x : @RealMatrix ROps) n A small e : library x -> MatIs x n n A -> 1 <= n -> symmetric n A -> (0 <= small)%R ->
  NewRectangularCholeskyDecompositionWithThreshold x small = Err e -> (forall a, 0 <= a < n -> (A a a <= small)%R) \/ ~ psd n A.
Proof. intros. eapply rc_err_why; eauto. Qed.

(** Rounding errors of the products, sums and norms of the API in float64. *)
From Coq Require Import ZArith List Reals Lia Lra Bool Floats.SpecFloat.
From Flocq.IEEE754 Require Import BinarySingleNaN.
From Flocq Require Import Core.
From Verif Require Import Base BaseLemmas Scalar Vector VecSpec VectorFacts Matrix Array2D BlockM Diagonal RealMatrixM MatSpec MatFacts Array2DFacts BlockMul MatrixOps MatProps DiagSpec DiagFacts DiagFacts2 DiagFacts3 DiagProps Float64 VecProps RealOps RSum RealMat RndSpec FloatR RndSum.
Import ListNotations.
Open Scope Z_scope.

(** ** One operation gives the nearest float64 *)
Lemma rnd_nearest x (y : sf) : num y -> fR y = rnd x -> nearest x y.
Proof.
  intros N E. split; auto. intros z [Vz _]. rewrite E. destruct (to_bf z Vz) as [b <-]. rewrite of_bf_R.
  assert (K : Rnd_N_pt (generic_format radix2 (fexp 53 1024)) x (rnd x)).
  { apply round_N_pt. apply fexp_correct. reflexivity. }
  destruct K as [_ K]. apply (K (B2R b)). apply generic_format_B2R.
Qed.
Lemma add_nearest x y : sf_valid x = true -> sf_valid y = true -> isfin (sf_add x y) = true -> nearest (fR x + fR y) (sf_add x y).
Proof.
  intros Hx Hy H. apply rnd_nearest; [split; auto; apply add_valid; auto|]. destruct (sf_add_fin _ _ H) as [Fx Fy]. bfs. rewrite add_eq in *. rewrite !of_bf_R in *. rewrite of_bf_fin in Fx, Fy.
  pose proof (Bplus_correct 53 1024 Hprec Hmax mode_NE b0 b Fx Fy) as K. destruct (Rlt_bool _ _); [apply K|].
  destruct K as (K & _). rewrite K in H. discriminate.
Qed.
Lemma sub_nearest x y : sf_valid x = true -> sf_valid y = true -> isfin (sf_sub x y) = true -> nearest (fR x - fR y) (sf_sub x y).
Proof.
  intros Hx Hy H. apply rnd_nearest; [split; auto; apply sub_valid; auto|]. destruct (sf_sub_fin _ _ H) as [Fx Fy]. bfs. rewrite sub_eq in *. rewrite !of_bf_R in *. rewrite of_bf_fin in Fx, Fy.
  pose proof (Bminus_correct 53 1024 Hprec Hmax mode_NE b0 b Fx Fy) as K. destruct (Rlt_bool _ _); [apply K|].
  destruct K as (K & _). rewrite K in H. discriminate.
Qed.
Lemma mul_nearest x y : sf_valid x = true -> sf_valid y = true -> isfin (sf_mul x y) = true -> nearest (fR x * fR y) (sf_mul x y).
Proof.
  intros Hx Hy H. apply rnd_nearest; [split; auto; apply mul_valid; auto|]. bfs. rewrite mul_eq in *. rewrite !of_bf_R in *.
  pose proof (Bmult_correct 53 1024 Hprec Hmax mode_NE b0 b) as K. destruct (Rlt_bool _ _); [apply K|]. rewrite K in H. discriminate.
Qed.
Lemma div_nearest x y : sf_valid x = true -> sf_valid y = true -> fR y <> 0%R -> isfin (sf_div x y) = true -> nearest (fR x / fR y) (sf_div x y).
Proof.
  intros Hx Hy Ny H. apply rnd_nearest; [split; auto; apply div_valid; auto|]. bfs. rewrite div_eq in *. rewrite !of_bf_R in *.
  pose proof (Bdiv_correct 53 1024 Hprec Hmax mode_NE b0 b Ny) as K. destruct (Rlt_bool _ _); [apply K|]. rewrite K in H. discriminate.
Qed.
Lemma sqrt_nearest x : sf_valid x = true -> isfin (sf_sqrt x) = true -> nearest (R_sqrt.sqrt (fR x)) (sf_sqrt x).
Proof.
  intros Hx H. apply rnd_nearest; [split; auto; apply sqrt_valid; auto|]. bfs. rewrite sqrt_eq in *. rewrite !of_bf_R in *.
  apply (Bsqrt_correct 53 1024 Hprec Hmax mode_NE b).
Qed.

Section API.
Variable c : Z.
#[local] Instance SO : Ops := SFOps c.

Lemma VecIs_len v n (f : Z -> sf) : VecIs v n f -> 0 <= n.
Proof. intros (E & _). unfold v_Dimension in E. pose proof (len_nonneg (v_data v)). lia. Qed.
Lemma MatIs_Diag_fl d r q (f : Z -> Z -> sf) : MatIs (MDiag d) r q f -> r = q /\ DiagIs (MDiag d) r (fun i => f i i) /\
  forall i j, 0 <= i < r -> 0 <= j < r -> i <> j -> f i j = sf_zero.
Proof.
  intros H. destruct (MatIs_DIs _ _ _ _ H) as (-> & Hd & H0). split; auto. split.
  - apply DIs_DiagIs. auto.
  - intros. apply H0; auto.
Qed.
Lemma fl_operate m r k (f : Z -> Z -> sf) v (g : Z -> sf) : library m -> MatIs m r k f -> 1 <= k -> VecIs (VArr v) k g -> nums2 r k f -> nums k g ->
  exists w h, m_Operate m v = Ok w /\ VecIs (VArr w) r h /\ forall i, 0 <= i < r -> dot_result k (f i) g (h i).
Proof.
  intros Hl Hm Hk Hv Nf Ng. destruct m as [a|b|d|? ? ?]; try contradiction.
  - destruct (m_Operate_ok (MArr a) r k f v g I Hm Hv) as (w & E & Hw). exists w. eexists. split; [exact E|]. split; [exact Hw|].
    intros i Hi. cbn beta. apply (dots_apx c k (f i) g Hk); auto. intros j Hj. apply Nf; auto.
  - destruct (m_Operate_ok (MBlk b) r k f v g I Hm Hv) as (w & E & Hw). exists w. eexists. split; [exact E|]. split; [exact Hw|].
    intros i Hi. cbn beta. apply (dots_apx c k (f i) g Hk); auto. intros j Hj. apply Nf; auto.
  - destruct (MatIs_Diag_fl d r k f Hm) as (-> & Hd & H0). destruct (diag_operate _ _ _ _ _ Hd Hv) as ((w & E & Hw) & _).
    exists w. eexists. split; [exact E|]. split; [exact Hw|]. intros i Hi. cbn beta. apply (dot_pick k (f i) g i); auto.
    intros j Hj. apply Nf; auto.
Qed.
Lemma fl_premultiply m r k (f : Z -> Z -> sf) v (g : Z -> sf) : library m -> MatIs m r k f -> 1 <= r -> VecIs (VArr v) r g -> nums2 r k f -> nums r g ->
  exists w h, m_PreMultiply m v = Ok w /\ VecIs (VArr w) k h /\ forall j, 0 <= j < k -> dot_result r (fun i => f i j) g (h j).
Proof.
  intros Hl Hm Hk Hv Nf Ng. destruct m as [a|b|d|? ? ?]; try contradiction.
  - destruct (m_PreMultiply_ok (MArr a) r k f v g I Hm Hv) as (w & E & Hw). exists w. eexists. split; [exact E|]. split; [exact Hw|].
    intros j Hj. cbn beta. apply (dots_apx c r (fun i => f i j) g Hk); auto. intros i Hi. apply Nf; auto.
  - destruct (m_PreMultiply_ok (MBlk b) r k f v g I Hm Hv) as (w & E & Hw). exists w. eexists. split; [exact E|]. split; [exact Hw|].
    intros j Hj. cbn beta. apply (dots_apx c r (fun i => f i j) g Hk); auto. intros i Hi. apply Nf; auto.
  - destruct (MatIs_Diag_fl d r k f Hm) as (-> & Hd & H0). destruct (diag_operate _ _ _ _ _ Hd Hv) as (_ & (w & E & Hw) & _).
    exists w. eexists. split; [exact E|]. split; [exact Hw|]. intros j Hj. cbn beta. apply (dot_pick k (fun i => f i j) g j); auto.
    intros i Hi. apply Nf; auto.
Qed.
Lemma fl_product m n r k q (f g : Z -> Z -> sf) : library m -> MatIs m r k f -> MatIs n k q g -> 1 <= r -> 1 <= q -> nums2 r k f -> nums2 k q g ->
  exists p h, m_Multiply m n = Ok p /\ MatIs p r q h /\ forall i j, 0 <= i < r -> 0 <= j < q -> dot_result k (f i) (fun t => g t j) (h i j).
Proof.
  intros Hl Hm Hn Hr Hq Nf Ng.
  assert (NN : forall i j, 0 <= i < r -> 0 <= j < q -> nums k (f i) /\ nums k (fun t => g t j)) by (intros i j Hi Hj; split; intros t Ht; auto).
  destruct m as [a|b|d|? ? ?]; try contradiction.
  - pose proof (proj2 (general_pos (MArr a) _ _ _ I Hm)) as Hk.
    destruct (m_Multiply_ok (MArr a) n r k q f g I Hm Hn Hq) as (p & E & _ & Hp). exists p. eexists. split; [exact E|]. split; [exact Hp|].
    intros i j Hi Hj. cbn beta. destruct (NN i j Hi Hj) as [N1 N2]. cbn [msum]. apply (dots_apx c k (f i) (fun t => g t j) Hk N1 N2).
  - pose proof (proj2 (general_pos (MBlk b) _ _ _ I Hm)) as Hk.
    destruct (m_Multiply_ok (MBlk b) n r k q f g I Hm Hn Hq) as (p & E & _ & Hp). exists p. eexists. split; [exact E|]. split; [exact Hp|].
    intros i j Hi Hj. cbn beta. destruct (NN i j Hi Hj) as [N1 N2]. cbn [msum].
    destruct (dots_apx c k (f i) (fun t => g t j) Hk N1 N2) as (D1 & D2 & D3). destruct n; auto.
  - destruct (MatIs_Diag_fl d r k f Hm) as (-> & Hd & H0). destruct (diag_product _ _ _ Hd) as [P1 P2].
    assert (G : forall i j, 0 <= i < k -> 0 <= j < q -> dot_result k (f i) (fun t => g t j) (sf_mul (f i i) (g i j))).
    { intros i j Hi Hj. destruct (NN i j Hi Hj) as [N1 N2]. apply (dot_pick k (f i) (fun t => g t j) i); auto. }
    destruct n as [a'|b'|d'|? ? ?].
    + destruct (P2 _ _ _ Hr Hq Hn ltac:(discriminate)) as (p & E & _ & H). exists p. eexists. split; [exact E|]. split; [exact H|]. exact G.
    + destruct (P2 _ _ _ Hr Hq Hn ltac:(discriminate)) as (p & E & _ & H). exists p. eexists. split; [exact E|]. split; [exact H|]. exact G.
    + destruct (MatIs_Diag_fl d' k q g Hn) as (-> & Hd' & H0'). destruct (P1 _ _ Hd') as (p & E & _ & Hp). exists p. eexists. split; [exact E|].
      split; [exact Hp|]. intros i j Hi Hj. cbn beta. unfold diagonal. destruct (Z.eqb_spec i j) as [->|Hne]; [apply G; auto|].
      apply dot_none; [lia|]. intros t Ht. destruct (Z.eq_dec t i) as [->|]; [right|left]; auto.
    + destruct (P2 _ _ _ Hr Hq Hn ltac:(discriminate)) as (p & E & _ & H). exists p. eexists. split; [exact E|]. split; [exact H|]. exact G.
Qed.
Lemma fl_dot v w n (f g : Z -> sf) : VecIs v n f -> VecIs w n g -> nums n f -> nums n g -> exists y, VecDotProduct v w = Ok y /\ dot_result n f g y.
Proof.
  intros Hv Hw Nf Ng. eexists. split; [apply (VecDotProduct_spec v w n f g Hv Hw)|]. pose proof (VecIs_len _ _ _ Hv).
  destruct (Z.eq_dec n 0) as [->|].
  - apply dot_none; [lia|]. intros k Hk. lia.
  - apply (dots_apx c n f g); auto. lia.
Qed.
Lemma fl_trace m n (f : Z -> Z -> sf) : library m -> MatIs m n n f -> nums2 n n f -> exists y, m_Trace m = Ok y /\ sum_result n (fun i => f i i) y.
Proof.
  intros Hl Hm Nf. eexists. split; [apply (m_Trace_ok m n f Hl Hm)|]. apply fsum_close.
  - pose proof (MatIs_nonneg _ _ _ _ Hm). lia.
  - intros i Hi. apply Nf; auto.
Qed.
Lemma fl_l1 v n (f : Z -> sf) : VecIs v n f -> nums n f -> exists y, VecL1Norm v = Ok y /\ sf_valid y = true /\
  (isfin y = true -> (Rabs (fR y - Rs 0 n (fun k => Rabs (fR (f k)))) <= gam n * Rs 0 n (fun k => Rabs (fR (f k))))%R) /\
  ((grow n * Rs 0 n (fun k => Rabs (fR (f k))) <= huge)%R -> isfin y = true).
Proof.
  intros Hv Nf. eexists. split; [apply (VecL1Norm_spec v n f Hv)|]. pose proof (VecIs_len _ _ _ Hv) as Hn.
  destruct (fsum_close c n (fun k => SFabs (f k)) Hn) as (V & H1 & H2). { intros k Hk. apply abs_num; auto. }
  unfold sum_close in H1.
  rewrite (Rs_ext 0 n (fun k => Rabs (fR (SFabs (f k)))) (fun k => Rabs (fR (f k)))) in H1, H2 by (intros; rewrite abs_ok, Rabs_Rabsolu; auto).
  rewrite (Rs_ext 0 n (fun k => fR (SFabs (f k))) (fun k => Rabs (fR (f k)))) in H1 by (intros; rewrite abs_ok; auto).
  split; [exact V|]. split; [exact H1|exact H2].
Qed.
(** The Euclidean norm, by its square. *)
Lemma fl_norm v n (f : Z -> sf) : VecIs v n f -> nums n f -> exists y, VecNorm v = Ok y /\ sf_valid y = true /\
  (isfin y = true -> (0 <= fR y /\ Rabs (fR y * fR y - Rs 0 n (fun k => fR (f k) * fR (f k))) <= gam (n + 2) * Rs 0 n (fun k => fR (f k) * fR (f k)) + IZR n * grow (n + 2) * tiny)%R).
Proof.
  intros Hv Nf. exists (sf_sqrt (fsum (O := SO) n (fun k => sf_mul (f k) (f k)))). split; [exact (VecNorm_spec v n f Hv)|]. pose proof (VecIs_len _ _ _ Hv) as Hn.
  assert (HS : apx (Z.to_nat n) (Rs 0 n (fun k => fR (f k) * fR (f k))%R) (Rs 0 n (fun k => fR (f k) * fR (f k))%R) (IZR n * tiny) (fsum (O := SO) n (fun k => sf_mul (f k) (f k)))).
  { destruct (Z.eq_dec n 0) as [->|].
    - rewrite !Rs_nil by lia. rewrite Rmult_0_l. apply apx_zero.
    - destruct (sums_Rs c n ltac:(lia) 1%nat (fun k => sf_mul (f k) (f k)) (fun k => fR (f k) * fR (f k))%R (fun k => fR (f k) * fR (f k))%R (fun _ => tiny) (fun k Hk => apx_sqr _ (Nf k Hk))) as (HS & _).
      replace (1 + Z.to_nat n - 1)%nat with (Z.to_nat n) in HS by lia. rewrite (Rs_const 0 n) in HS by lia. rewrite Z.sub_0_r in HS. exact HS. }
  set (z := fsum (O := SO) n (fun k => sf_mul (f k) (f k))) in *. clearbody z. set (s := Rs 0 n _) in *. clearbody s.
  destruct HS as (V & P & T & H3 & _). split; [apply sqrt_valid; auto|]. intros F.
  pose proof (sqrt_nonneg z F) as Z0. assert (Fz : isfin z = true). { clear - F. destruct z as [|[]| |[] ? ?]; auto; discriminate. }
  specialize (H3 Fz). destruct (sqrt_rel z V F) as [K _]. pose proof ulp2_pos as U. pose proof ulp2_small as U4. pose proof (sqrt_pos (fR z)) as Q. rewrite (Rabs_right (sqrt _)) in K by lra.
  assert (E : (sqrt (fR z) * sqrt (fR z) = fR z)%R) by (apply sqrt_sqrt; auto).
  set (q := sqrt (fR z)) in *. clearbody q. set (y := fR (sf_sqrt z)) in *. clearbody y. set (w := fR z) in *. clearbody w. clear F Fz V z. subst w.
  unfold gam. rewrite grow_gw. replace (Z.to_nat (n + 2)) with (S (S (Z.to_nat n))) by lia. rewrite !gw_S. set (g := gw (Z.to_nat n)) in *. pose proof (gw_ge1 (Z.to_nat n)) as G. fold g in G. clearbody g.
  set (t := (IZR n * tiny)%R) in *. replace (IZR n * ((1 + ulp2) * ((1 + ulp2) * g)) * tiny)%R with ((1 + ulp2) * ((1 + ulp2) * g) * t)%R by (unfold t; ring). clearbody t.
  apply Rabs_le_inv in K. split; [nra|].
  assert (S0 : (0 <= s)%R) by (pose proof (Rabs_pos s); pose proof (Rle_abs s); assert (0 <= q * q)%R by nra; apply Rabs_le_inv in P; lra).
  apply Rabs_le_inv in H3. apply Rabs_le.
  assert (Y1 : (y * y <= (1 + ulp2) * ((1 + ulp2) * (q * q)))%R) by nra.
  assert (Y2 : ((1 - ulp2) * ((1 - ulp2) * (q * q)) <= y * y)%R).
  { assert (Y3 : ((1 - ulp2) * q <= y)%R) by lra. assert (Y4 : (0 <= (1 - ulp2) * q)%R) by (apply Rmult_le_pos; lra).
    pose proof (Rmult_le_compat _ _ _ _ Y4 Y4 Y3 Y3). lra. }
  assert (Gs : (0 <= g * s)%R) by (apply Rmult_le_pos; lra). assert (Gt : (0 <= g * t)%R) by (apply Rmult_le_pos; lra).
  assert (W : (q * q <= g * s + g * t)%R) by lra. assert (W2 : (2 * s - g * s - g * t <= q * q)%R) by lra. assert (gs1 : (s <= g * s)%R) by nra.
  set (gsv := (g * s)%R) in *. set (gtv := (g * t)%R) in *.
  replace (((1 + ulp2) * ((1 + ulp2) * g) - 1) * s)%R with ((1 + ulp2) * ((1 + ulp2) * gsv) - s)%R by (unfold gsv; ring).
  replace ((1 + ulp2) * ((1 + ulp2) * g) * t)%R with ((1 + ulp2) * ((1 + ulp2) * gtv))%R by (unfold gtv; ring).
  clearbody gsv gtv. set (a := (q * q)%R) in *. clearbody a. set (b := (y * y)%R) in *. clearbody b.
  assert (X : ((1 + ulp2) * ((1 + ulp2) * a) <= (1 + ulp2) * ((1 + ulp2) * (gsv + gtv)))%R) by (apply Rmult_le_compat_l; [lra|]; apply Rmult_le_compat_l; lra).
  split; [|lra].
  assert (X2 : (a - b <= (2 * ulp2 + ulp2 * ulp2) * (gsv + gtv))%R).
  { assert (X3 : (a - b <= 2 * ulp2 * a)%R) by nra. nra. }
  nra.
Qed.
(** The largest absolute value is exact. *)
Lemma max_ok x y : num x -> num y -> num (sf_max x y) /\ fR (sf_max x y) = Rmax (fR x) (fR y).
Proof.
  intros Nx Ny. unfold sf_max. pose proof Nx as [_ Fx]. pose proof Ny as [_ Fy].
  assert (E : sf_ispinf x || sf_ispinf y = false /\ sf_isnan x || sf_isnan y = false) by (destruct x, y; try discriminate; split; reflexivity).
  destruct E as [-> ->]. destruct (SFeqb x sf_zero && SFeqb x y) eqn:E.
  - apply andb_prop in E. destruct E as [_ E]. apply eqb_ok in E; auto. destruct (sf_signbit x); split; auto; rewrite E; unfold Rmax; destruct (Rle_dec _ _); auto.
  - destruct (SFltb y x) eqn:E2; split; auto.
    + apply ltb_ok in E2; auto. unfold Rmax. destruct (Rle_dec _ _); lra.
    + assert (~ (fR y < fR x)%R) by (intros K; apply ltb_ok in K; auto; congruence). unfold Rmax. destruct (Rle_dec _ _); lra.
Qed.
Lemma fl_linf v n (f : Z -> sf) : VecIs v n f -> nums n f -> exists y, VecLInfNorm v = Ok y /\ num y /\
  (forall k, 0 <= k < n -> (Rabs (fR (f k)) <= fR y)%R) /\ (fR y = 0%R \/ exists k, 0 <= k < n /\ fR y = Rabs (fR (f k))).
Proof.
  intros Hv Nf. exists (accum (fun k s => sf_max s (SFabs (f k))) (Z.to_nat n) sf_zero). split; [exact (VecLInfNorm_spec v n f Hv)|]. pose proof (VecIs_len _ _ _ Hv) as Hn.
  assert (G : forall m, Z.of_nat m <= n -> let y := accum (fun k s => sf_max s (SFabs (f k))) m sf_zero in
    num y /\ (0 <= fR y)%R /\ (forall k, 0 <= k < Z.of_nat m -> (Rabs (fR (f k)) <= fR y)%R) /\ (fR y = 0%R \/ exists k, 0 <= k < Z.of_nat m /\ fR y = Rabs (fR (f k)))).
  { induction m as [|m IH]; intros Hm y.
    - split; [split; reflexivity|]. split; [apply Rle_refl|]. split; [intros; lia|left; reflexivity].
    - cbn [accum] in y. specialize (IH ltac:(lia)). cbv zeta in IH. destruct IH as (N & P & B & A).
      destruct (max_ok (accum (fun k s => sf_max s (SFabs (f k))) m sf_zero) (SFabs (f (Z.of_nat m))) N (abs_num _ (Nf (Z.of_nat m) ltac:(lia)))) as (N' & E).
      rewrite abs_ok in E. split; [exact N'|]. change (fR y = Rmax (fR (accum (fun k s => sf_max s (SFabs (f k))) m sf_zero)) (Rabs (fR (f (Z.of_nat m))))) in E.
      rewrite E. clear E N' y. set (z := fR _) in *. pose proof (Rmax_l z (Rabs (fR (f (Z.of_nat m))))). pose proof (Rmax_r z (Rabs (fR (f (Z.of_nat m))))).
      split; [lra|]. split.
      + intros k Hk. destruct (Z.eq_dec k (Z.of_nat m)) as [->|]; [auto|]. specialize (B k ltac:(lia)). lra.
      + unfold Rmax. destruct (Rle_dec _ _) as [L|L].
        * right. exists (Z.of_nat m). split; [lia|reflexivity].
        * destruct A as [A|(k & Hk & A)]; [left; auto|right]. exists k. split; [lia|auto]. }
  destruct (G (Z.to_nat n) ltac:(lia)) as (N & _ & B & A). rewrite Z2Nat.id in B, A by lia. split; [exact N|]. split; [exact B|exact A].
Qed.
End API.

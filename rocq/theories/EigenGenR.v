(** The back substitution of the eigen decomposition in exact arithmetic. *)
From Coq Require Import ZArith QArith List Lia Bool Reals Qreals Lra.
From Verif Require Import Base BaseLemmas Wpe Scalar Vector VecSpec VectorFacts Matrix MatSpec MatFacts Array2DFacts Diagonal TabTac FSum RealOps RSum House Frob CholFacts QRFacts Schur SchurFacts SchurReal SchurReal5 Eigen EigenGenSpec EigenFacts EigenGen.
Import ListNotations.
Open Scope Z_scope.
#[local] Existing Instance ROps.

Definition e12 : R := (/ 1000000000000)%R.
Lemma eps_ed_R : eps_ed (O := ROps) = e12.
Proof. unfold eps_ed. cbn [flit ROps]. unfold Q2R, e12. cbn [Qnum Qden]. lra. Qed.
Lemma near0_R x : equalsWithError (O := ROps) x 0%R (eps_ed (O := ROps)) = true <-> (Rabs x <= e12)%R.
Proof.
  unfold equalsWithError. rewrite eps_ed_R. cbn [fulp1 fle fabs fsub ROps]. replace (0 - x)%R with (- x)%R by ring. rewrite Rabs_Ropp.
  rewrite orb_true_iff, Reqb_true, Rleb_true. split; auto. intros [->|]; auto. rewrite Rabs_R0. unfold e12. lra.
Qed.
Lemma cmp_neg x : (compareTo (O := ROps) x 0%R (eps_ed (O := ROps)) <? 0) = true <-> (x < - e12)%R.
Proof.
  unfold compareTo. destruct (equalsWithError x 0%R eps_ed) eqn:E.
  - apply near0_R in E. split; [discriminate|]. intros H. pose proof (Rle_abs (- x)). rewrite Rabs_Ropp in *. lra.
  - cbn [flt ROps]. assert (~ (Rabs x <= e12)%R) by (rewrite <- near0_R; congruence). destruct (Rltb x 0) eqn:L.
    + apply Rltb_true in L. split; auto. intros _. rewrite Rabs_left in * by auto. lra.
    + apply Rltb_false in L. split; [discriminate|]. unfold e12. lra.
Qed.
Lemma cmp_pos x : (0 <? compareTo (O := ROps) x 0%R (eps_ed (O := ROps))) = true <-> (e12 < x)%R.
Proof.
  unfold compareTo. destruct (equalsWithError x 0%R eps_ed) eqn:E.
  - apply near0_R in E. split; [discriminate|]. intros H. pose proof (Rle_abs x). lra.
  - cbn [flt ROps]. assert (~ (Rabs x <= e12)%R) by (rewrite <- near0_R; congruence). destruct (Rltb x 0) eqn:L.
    + apply Rltb_true in L. split; [discriminate|]. unfold e12. lra.
    + apply Rltb_false in L. split; auto. intros _. rewrite Rabs_right in * by lra. lra.
Qed.

(** ** Linear algebra *)
Lemma sumsq (x y : R) : y <> 0%R -> (x * x + y * y > 0)%R.
Proof. intros H. pose proof (Rle_0_sqr x). pose proof (Rlt_0_sqr y H). unfold Rsqr in *. lra. Qed.
Lemma mvec_add1 n A u u' i k : 0 <= i < n -> (forall c, 0 <= c < n -> c <> i -> u' c = u c) -> mvec n A u' k = (mvec n A u k + A k i * (u' i - u i))%R.
Proof.
  intros Hi H. unfold mvec. rewrite (Rs_ext 0 n (fun c => A k c * u' c)%R (fun c => A k c * u c + (if c =? i then A k i * (u' i - u i) else 0))%R).
  - rewrite Rs_plus. f_equal. rewrite (Rs_pick 0 n i); [rewrite Z.eqb_refl; auto|auto|]. intros c Hc Hne. destruct (Z.eqb_spec c i); [contradiction|auto].
  - intros c Hc. destruct (Z.eqb_spec c i) as [->|]; [ring|]. rewrite H by auto. ring.
Qed.
Lemma mvec_div n A u u' t k : (forall c, 0 <= c < n -> u' c = (u c / t)%R) -> mvec n A u' k = (mvec n A u k / t)%R.
Proof. intros H. unfold mvec, Rdiv. rewrite <- Rs_scal_r. apply Rs_ext. intros c Hc. rewrite H by auto. unfold Rdiv. ring. Qed.

Lemma cdiv_R (a b c d cr ci : R) : (c <> 0 \/ d <> 0)%R -> cdiv (O := ROps) a b c d = (cr, ci) -> (cr * c - ci * d = a /\ cr * d + ci * c = b)%R.
Proof.
  intros H. unfold cdiv, fge. cbv zeta. rops. destruct (Rleb (Rabs d) (Rabs c)) eqn:E.
  - apply Rleb_true in E. assert (Hc : c <> 0%R). { intros ->. rewrite Rabs_R0 in E. destruct H; auto. pose proof (Rabs_pos_lt _ H). lra. }
    assert (Hd : (c * c + d * d <> 0)%R) by (assert (0 < c * c)%R by nra; nra). intros [= <- <-]. split; field; auto; split; auto; replace (c * c + d * d)%R with (c * c + d * d)%R by ring; auto.
  - apply Rleb_false in E. assert (Hc : d <> 0%R). { intros ->. rewrite Rabs_R0 in E. pose proof (Rabs_pos c). lra. }
    assert (Hd : (d * d + c * c <> 0)%R) by (assert (0 < d * d)%R by nra; nra). intros [= <- <-]. split; field; auto.
Qed.

Lemma ed_rescale_R n i idx co t T (M : Z -> Z -> R) : RTab (O := ROps) T n n M -> 0 <= i -> i <= idx + 1 -> idx < n -> 0 <= co < n ->
  wp (ed_rescale (O := ROps) i idx co t T) (fun T' => RTab (O := ROps) T' n n (fun a b => if (i <=? a) && (a <=? idx) && (b =? co) then (M a b / t)%R else M a b)).
Proof.
  intros HT Hi Hx Hc Hco. unfold ed_rescale. apply (wp_for (fun k T' => RTab (O := ROps) T' n n (fun a b => if (i <=? a) && (a <? k) && (b =? co) then (M a b / t)%R else M a b))); [lia| | |].
  - eapply RTab_ext; [exact HT|]. intros. zbq; auto.
  - intros j T1 Hj H1. tget. rewrite Z.ltb_irrefl, andb_false_r. cbn [andb].
    match goal with |- wp (mset _ _ _ ?v) _ => destruct (RTab_set T1 n n _ j co v H1) as (T2 & -> & H2); [lia|lia|apply wp_ok] end.
    eapply RTab_ext; [exact H2|]. intros a b Ha Hb. cbn beta. unfold tset. rops. zbq; subst; auto.
  - intros T1 H1. eapply RTab_ext; [exact H1|]. intros a b Ha Hb. cbn beta. zbq; auto.
Qed.

Ltac ro := change (@fadd ROps) with Rplus in *; change (@fsub ROps) with Rminus in *; change (@fmul ROps) with Rmult in *; change (@fdiv ROps) with Rdiv in *;
  change (@fabs ROps) with Rabs in *; change (@fneg ROps) with Ropp in *; change (@fzero ROps) with 0%R in *; change (@fone ROps) with 1%R in *;
  change (@flt ROps) with Rltb in *; change (@fle ROps) with Rleb in *; change (@feq ROps) with Reqb in *; change (@fmax ROps) with Rmax in *.
Section Vectors.
Variables (n : Z) (T : Z -> Z -> R) (pr : Z -> bool) (Re Im : Z -> R).
Hypothesis P1 : forall i, pr i = true -> 0 <= i /\ i + 1 < n /\ pr (i + 1) = false.
Hypothesis R1 : forall i, 0 <= i < n -> pr i = false -> pr (i - 1) = false -> Re i = T i i /\ Im i = 0%R.
Hypothesis R2 : forall i, pr i = true -> (2 * Re i = T i i + T (i + 1)%Z (i + 1)%Z)%R /\ Re (i + 1) = Re i /\ Im (i + 1) = (- Im i)%R /\ (e12 < Im i)%R /\
  (4 * (Im i * Im i) = - ((T i i - T (i + 1)%Z (i + 1)%Z) * (T i i - T (i + 1)%Z (i + 1)%Z)) - 4 * (T (i + 1)%Z i * T i (i + 1)%Z))%R.
(** No two conjugate pairs are equal. *)
Hypothesis Dist : forall i j, pr i = true -> pr j = true -> i <> j -> Re i <> Re j \/ Im i <> Im j.

(** T without the entries below the diagonal outside 2x2 blocks. *)
Definition T0 (i c : Z) : R := if c <? i then (if (c =? i - 1) && pr c then T i c else 0%R) else T i c.
Definition col (M : Z -> Z -> R) (co l top c : Z) : R := if (l <=? c) && (c <=? top) then M c co else 0%R.

Lemma kinds i : (pr i = false /\ pr (i - 1) = false) \/ (pr i = true /\ pr (i - 1) = false) \/ (pr (i - 1) = true /\ pr i = false).
Proof.
  destruct (pr (i - 1)) eqn:E1; destruct (pr i) eqn:E2; auto. destruct (P1 _ E1) as (_ & _ & H). replace (i - 1 + 1) with i in H by lia. congruence.
Qed.
Lemma second i : pr (i - 1) = true -> 1 <= i < n /\ Im i = (- Im (i - 1)%Z)%R /\ Re i = Re (i - 1) /\ (Im i < - e12)%R.
Proof.
  intros H. destruct (P1 _ H) as (H1 & H2 & _). destruct (R2 _ H) as (_ & H3 & H4 & H5 & _). replace (i - 1 + 1) with i in * by lia. split; [lia|]. split; [auto|]. split; [auto|]. rewrite H4. lra.
Qed.
Lemma T0_up i c : i <= c -> T0 i c = T i c.
Proof. intros. unfold T0. zbq; auto. Qed.
Lemma T0_low a i : i < a -> (a = i + 1 -> pr i = false) -> T0 a i = 0%R.
Proof. intros H1 H2. unfold T0. destruct (Z.ltb_spec i a); [|lia]. destruct (Z.eqb_spec i (a - 1)); auto. rewrite H2 by lia. auto. Qed.
Lemma T0_sub i : pr i = true -> T0 (i + 1) i = T (i + 1) i.
Proof. intros H. unfold T0. rewrite H. zbq; auto. Qed.
Lemma row_sum M co i l top : 0 <= i -> i <= l -> l <= top + 1 -> top < n -> mvec n T0 (col M co l top) i = Rs l (top + 1) (fun c => T i c * M c co)%R.
Proof.
  intros H0 H1 H2 H3. unfold mvec. rewrite (Rs_low 0 l n) by (try lia; intros c Hc; unfold col; zbq; ring).
  rewrite (Rs_trunc l (top + 1) n) by (try lia; intros c Hc; unfold col; zbq; ring).
  apply Rs_ext. intros c Hc. rewrite T0_up by lia. unfold col. zbq; auto.
Qed.
(** One more row, or the two rows of a block. *)
Lemma mv_ext1 M M' co i top : 0 <= i -> i < top -> top < n -> pr i = false -> (forall c, i + 1 <= c <= top -> M' c co = M c co) ->
  (forall a, i < a -> mvec n T0 (col M' co i top) a = mvec n T0 (col M co (i + 1) top) a) /\
  mvec n T0 (col M' co i top) i = (Rs (i + 1) (top + 1) (fun c => T i c * M c co) + T i i * M' i co)%R.
Proof.
  intros Hi Ht Hn Hp HM. assert (E : forall a, mvec n T0 (col M' co i top) a = (mvec n T0 (col M co (i + 1) top) a + T0 a i * M' i co)%R).
  { intros a. rewrite (mvec_add1 n T0 (col M co (i + 1) top) (col M' co i top) i a); [|lia|].
    - f_equal. unfold col. zbq. ring.
    - intros c Hc Hne. unfold col. zbq; auto; apply HM; lia. }
  split.
  - intros a Ha. rewrite E, T0_low by auto. ring.
  - rewrite E, T0_up by lia. rewrite row_sum by lia. auto.
Qed.
Lemma mv_ext2 M M' co i top : 0 <= i -> i + 1 < top -> top < n -> pr i = true -> (forall c, i + 2 <= c <= top -> M' c co = M c co) ->
  (forall a, i + 1 < a -> mvec n T0 (col M' co i top) a = mvec n T0 (col M co (i + 2) top) a) /\
  mvec n T0 (col M' co i top) i = (Rs (i + 2) (top + 1) (fun c => T i c * M c co) + T i i * M' i co + T i (i + 1)%Z * M' (i + 1)%Z co)%R /\
  mvec n T0 (col M' co i top) (i + 1) = (Rs (i + 2) (top + 1) (fun c => T (i + 1)%Z c * M c co) + T (i + 1)%Z i * M' i co + T (i + 1)%Z (i + 1)%Z * M' (i + 1)%Z co)%R.
Proof.
  intros Hi Ht Hn Hp HM. destruct (P1 i Hp) as (_ & _ & Hp').
  assert (E : forall a, mvec n T0 (col M' co i top) a = (mvec n T0 (col M co (i + 2) top) a + T0 a i * M' i co + T0 a (i + 1)%Z * M' (i + 1)%Z co)%R).
  { intros a. rewrite (mvec_add1 n T0 (col M' co (i + 1) top) (col M' co i top) i a); [|lia|].
    - rewrite (mvec_add1 n T0 (col M co (i + 2) top) (col M' co (i + 1) top) (i + 1) a); [|lia|].
      + unfold col. zbq. ring.
      + intros c Hc Hne. unfold col. zbq; auto; apply HM; lia.
    - intros c Hc Hne. unfold col. zbq; auto. }
  split; [|split].
  - intros a Ha. rewrite E, !T0_low by (auto; lia). ring.
  - rewrite E, !T0_up by lia. rewrite row_sum by lia. auto.
  - rewrite E, T0_sub, T0_up by (auto; lia). rewrite row_sum by lia. auto.
Qed.
Lemma col_div M M' co i top t : (forall c, i <= c <= top -> M' c co = (M c co / t)%R) -> forall c, col M' co i top c = (col M co i top c / t)%R.
Proof. intros H c. unfold col. zbq; auto; unfold Rdiv; ring. Qed.

Ltac wset H T' H' := match goal with |- wp (mset ?T ?a ?b ?v) _ => destruct (RTab_set T n n _ a b v H) as (T' & -> & H'); [lia|lia|apply wp_ok] end.

(** ** A real eigenvalue *)
Section Real.
Variables (norm : R) (re im : list (@F ROps)) (idx : Z) (M0 : Z -> Z -> R).
Hypothesis Hnorm : (0 < norm)%R.
Hypothesis HRe : VTab (O := ROps) re n Re.
Hypothesis HIm : VTab (O := ROps) im n Im.
Hypothesis Hidx : 0 <= idx < n.
Hypothesis Hp0 : pr idx = false.
Hypothesis Hp1 : pr (idx - 1) = false.
Hypothesis HM0 : forall a b, 0 <= a < n -> 0 <= b <= idx -> M0 a b = T a b.
Let p := Re idx.
Let dl : R := (@doubleeps ROps * norm)%R.
Lemma dl_pos : (0 < dl)%R.
Proof. unfold dl. apply Rmult_lt_0_compat; auto. unfold doubleeps. change (@flit ROps) with Q2R. unfold Q2R. cbn [Qnum Qden]. lra. Qed.
Lemma exact_row x y z : x = y -> (Rabs (x - y) <= dl * Rabs z)%R.
Proof. intros ->. replace (y - y)%R with 0%R by ring. rewrite Rabs_R0. apply Rmult_le_pos; [apply Rlt_le, dl_pos|apply Rabs_pos]. Qed.
Definition rcol (l : Z) (M : Z -> Z -> R) : Prop :=
  (forall a b, 0 <= a < n -> 0 <= b < n -> b <> idx -> M a b = M0 a b) /\ (forall a, 0 <= a < l -> M a idx = T a idx) /\ M idx idx <> 0%R /\
  (forall a, l <= a < n -> (Rabs (mvec n T0 (col M idx l idx) a - p * col M idx l idx a) <= dl * Rabs (col M idx l idx a))%R).
Definition rinv (k : Z) (q : list (list (@F ROps)) * F * F * F * Z) : Prop := let '(Tm, r, s, z, l) := q in
  exists M, RTab (O := ROps) Tm n n M /\ rcol l M /\ k <= idx /\ l <= idx /\
    ((l = k /\ pr (k - 1) = false) \/ (l = k + 1 /\ pr (k - 1) = true /\ z = (T k k - p)%R /\ s = Rs l (idx + 1) (fun c => T k c * M c idx)%R)).

Lemma real_finish i T3 M3 r s z : 0 <= i < idx -> pr (i - 1) = false -> RTab (O := ROps) T3 n n M3 -> rcol i M3 ->
  wp (let* ti := mget T3 i idx in let t := fabs ti in
      let* T := (if fgt (doubleeps * t * t)%f fone then ed_rescale (O := ROps) i idx idx t T3 else Ok T3) in Ok (T, r, s, z, i)) (rinv i).
Proof.
  intros Hi Hp H3 (C1 & C2 & C3 & C4). tget. cbv zeta. apply wp_bind. unfold fgt. ro. destruct (Rltb 1 _) eqn:E.
  - apply Rltb_true in E. set (t := Rabs (M3 i idx)) in *. assert (Ht : t <> 0%R) by (intros Ez; rewrite Ez in E; lra).
    eapply wp_conseq; [apply (ed_rescale_R n i idx idx t T3 M3 H3); lia|]. intros T4 H4. apply wp_ok. unfold rinv. eexists. split; [exact H4|].
    split; [|split; [lia|split; [lia|left; auto]]]. split; [|split; [|split]].
    + intros a b Ha Hb Hne. zbq; auto; rewrite C1; auto.
    + intros a Ha. zbq; auto.
    + zbq; auto. apply Rmult_integral_contrapositive_currified; auto. apply Rinv_neq_0_compat; auto.
    + intros a Ha. set (M4 := fun a b : Z => _). assert (E4 : forall c, col M4 idx i idx c = (col M3 idx i idx c / t)%R) by (apply col_div; intros c Hc; unfold M4; zbq; auto).
      rewrite (mvec_div n T0 (col M3 idx i idx)) with (t := t) by auto. rewrite E4.
      replace (mvec n T0 (col M3 idx i idx) a / t - p * (col M3 idx i idx a / t))%R with ((mvec n T0 (col M3 idx i idx) a - p * col M3 idx i idx a) * / t)%R by (unfold Rdiv; ring).
      unfold Rdiv. rewrite !Rabs_mult, <- Rmult_assoc. apply Rmult_le_compat_r; [apply Rabs_pos|auto].
  - apply wp_ok. apply wp_ok. unfold rinv. exists M3. split; [auto|]. split; [split; auto|]. split; [lia|]. split; [lia|]. left; auto.
Qed.

Lemma realVector_ok Tm r s z : RTab (O := ROps) Tm n n M0 ->
  wp (ed_realVector (O := ROps) norm re im idx p (Tm, r, s, z)) (fun st => exists M, RTab (O := ROps) (fst (fst (fst st))) n n M /\ rcol 0 M).
Proof.
  intros HT. unfold ed_realVector. tput T1 H1. apply wp_bind.
  assert (Hpi : forall i, pr i = true -> i < idx -> i + 1 < idx). { intros i E Hi. destruct (Z.eq_dec (i + 1) idx) as [Ei|]; [|lia]. rewrite <- Ei in Hp1. replace (i + 1 - 1) with i in Hp1 by lia. congruence. }
  apply (wp_for_down rinv); [lia| | |].
  - unfold rinv. eexists. split; [exact H1|]. replace (idx - 1 + 1) with idx by lia. split; [|split; [lia|split; [lia|left; auto]]].
    split; [|split; [|split]].
    + intros a b Ha Hb Hne. unfold tset. zbq; auto.
    + intros a Ha. unfold tset. zbq; auto; apply HM0; lia.
    + unfold tset. zbq. cbn. lra.
    + intros a Ha. apply exact_row. destruct (Z.eq_dec a idx) as [->|].
      * rewrite row_sum by lia. rewrite Rs_last, Rs_nil by lia. unfold col. unfold tset. zbq. destruct (R1 idx Hidx Hp0 Hp1) as [E _]. fold p in E. rewrite E. ring.
      * replace (col _ idx idx idx a) with 0%R by (unfold col; zbq; auto). rewrite Rmult_0_r. apply Rs_zero. intros c Hc. destruct (Z.eq_dec c idx) as [->|]; [rewrite T0_low by (auto; lia)|unfold col; zbq]; ring.
  - intros i [[[[T2 r2] s2] z2] l] Hi (M & H2 & (C1 & C2 & C3 & C4) & _ & Hl & Hk). tget. cbv zeta. apply wp_bind.
    replace (i + 1 - 1) with i in Hk by lia. assert (Hl' : i < l) by (destruct Hk as [[-> _]|[-> _]]; lia).
    set (sm := fun k => Rs l k (fun c => T i c * M c idx)%R).
    apply (wp_for (fun k v => v = sm k)); [lia|unfold sm; rewrite Rs_nil by lia; auto| |].
    { intros j x Hj ->. tget. tget. apply wp_ok. unfold sm. rewrite Rs_last by lia. ro. f_equal. f_equal.
      destruct (Z.eq_dec j idx) as [->|]; [apply C2; lia|]. rewrite C1 by lia. apply HM0; lia. }
    intros x ->. vget. assert (Ew : M i i = T i i) by (rewrite C1 by lia; apply HM0; lia). rewrite Ew. clear Ew.
    destruct (kinds i) as [[Ka Kb]|[[Ka Kb]|[Ka Kb]]].
    + (* a real eigenvalue *)
      destruct (R1 i ltac:(lia) Ka Kb) as [ER EI]. rewrite EI. destruct Hk as [[-> _]|(_ & E & _)]; [|congruence].
      replace (compareTo _ _ _ <? 0) with false. 2: { symmetry. apply not_true_iff_false. intros E. apply cmp_neg in E. unfold e12 in E. lra. }
      apply wp_bind. replace (@fulp1 ROps 0%R fzero) with true by (symmetry; apply Reqb_true; auto).
      assert (G : forall v, (Rabs ((T i i - p) * v + sm (idx + 1)%Z) <= dl * Rabs v)%R -> rcol i (tset M i idx v)).
      { intros v Hv. split; [|split; [|split]].
        * intros a b Ha Hb Hne. unfold tset. zbq; auto.
        * intros a Ha. unfold tset. zbq; auto. apply C2; lia.
        * unfold tset. zbq; auto.
        * set (M3 := tset _ _ _ _). destruct (mv_ext1 M M3 idx i idx ltac:(lia) ltac:(lia) ltac:(lia) Ka) as [G1 G2]. { intros c Hc. unfold M3, tset. zbq; auto. }
          intros a Ha. destruct (Z.eq_dec a i) as [->|].
          -- rewrite G2. replace (col M3 idx i idx i) with (M3 i idx) by (unfold col; zbq; auto).
             unfold M3, tset. zbq. unfold sm in Hv. eapply Rle_trans; [|exact Hv]. apply Req_le. f_equal. set (S := Rs _ _ _). ring.
          -- rewrite G1 by lia. replace (col M3 idx i idx a) with (col M idx (i + 1) idx a) by (unfold col, M3, tset; zbq; auto). apply C4. lia. }
      unfold fne. ro. destruct (Req_dec (T i i - p) 0) as [Hw|Hw].
      { (* the eigenvalue again *)
        replace (negb _) with false by (symmetry; apply negb_false_iff, Reqb_true; exact Hw).
        wset H2 T3 H3. eapply real_finish; [lia|auto|exact H3|]. apply G. pose proof dl_pos as Hd. rewrite Hw. set (S := sm (idx + 1)). change (@doubleeps ROps * norm)%R with dl.
        rewrite Rmult_0_l, Rplus_0_l. unfold Rdiv. rewrite Rabs_mult, Rabs_Ropp, Rabs_inv, (Rabs_right dl) by lra. apply Req_le. field. lra. }
      replace (negb _) with true by (symmetry; apply negb_true_iff, Reqb_false; exact Hw).
      wset H2 T3 H3. eapply real_finish; [lia|auto|exact H3|]. apply G. set (S := sm (idx + 1)). pose proof dl_pos as Hd.
      replace ((T i i - p) * (- S / (T i i - p)) + S)%R with 0%R by (field; exact Hw). rewrite Rabs_R0. apply Rmult_le_pos; [lra|apply Rabs_pos].
    + (* the first row of a block *)
      destruct Hk as [[_ E]|(-> & _ & -> & ->)]; [congruence|].
      destruct (R2 i Ka) as (E1 & E2 & E3 & E4 & E5).
      replace (compareTo _ _ _ <? 0) with false. 2: { symmetry. apply not_true_iff_false. intros E. apply cmp_neg in E. unfold e12 in *. lra. }
      apply wp_bind. replace (@fulp1 ROps (Im i) fzero) with false. 2: { symmetry. apply Reqb_false. intros E. ro. unfold e12 in E4. lra. }
      pose proof (Hpi i Ka ltac:(lia)) as Hlt.
      tget. tget. vget. replace (M i (i + 1)) with (T i (i + 1)) by (rewrite C1 by lia; symmetry; apply HM0; lia).
      replace (M (i + 1) i) with (T (i + 1) i) by (rewrite C1 by lia; symmetry; apply HM0; lia).
      unfold sm. clear sm. assert (E2i : i + 1 + 1 = i + 2) by lia. rewrite E2i in *. clear E2i. set (sm' := Rs (i + 2) (idx + 1) (fun c => T (i + 1)%Z c * M c idx)%R). set (S := Rs (i + 2) (idx + 1) (fun c => T i c * M c idx)%R).
      ro. set (x := T i (i + 1)) in *. set (y := T (i + 1) i) in *. set (a := T i i) in *. set (d := T (i + 1) (i + 1)) in *. set (m := Im i) in *. set (rho := Re i) in *.
      set (q := ((rho - p) * (rho - p) + m * m)%R). assert (Hm : (0 < m)%R) by (unfold e12 in E4; lra). assert (Hq : q <> 0%R) by (apply Rgt_not_eq; apply (sumsq (rho - p) m); apply Rgt_not_eq; exact Hm).
      assert (Eq : ((a - p) * (d - p) - x * y = q)%R). { unfold q. replace rho with ((a + d) / 2)%R by lra. nra. }
      set (t := ((x * sm' - (d - p) * S) / q)%R).
      tput T3 H3.
      assert (G : forall v2, ((a - p) * t + x * v2 + S = 0)%R -> (y * t + (d - p) * v2 + sm' = 0)%R -> rcol i (tset (tset M i idx t) (i + 1) idx v2)).
      { intros v2 Q1 Q2. split; [|split; [|split]].
        * intros a' b Ha Hb Hne. unfold tset. zbq; auto.
        * intros a' Ha. unfold tset. zbq; auto. apply C2; lia.
        * unfold tset. zbq; auto.
        * set (M3 := tset _ _ _ _). destruct (mv_ext2 M M3 idx i idx ltac:(lia) ltac:(lia) ltac:(lia) Ka) as (G1 & G2 & G3). { intros c Hc. unfold M3, tset. zbq; auto. }
          assert (F1 : M3 i idx = t) by (unfold M3, tset; zbq; auto). assert (F2 : M3 (i + 1) idx = v2) by (unfold M3, tset; zbq; auto).
          rewrite F1, F2 in G2, G3. fold x a S in G2. fold y d sm' in G3.
          intros b Hb. destruct (Z.eq_dec b i) as [->|]; [|destruct (Z.eq_dec b (i + 1)) as [->|]].
          -- apply exact_row. rewrite G2. replace (col M3 idx i idx i) with (M3 i idx) by (unfold col; zbq; auto). rewrite F1. lra.
          -- apply exact_row. rewrite G3. replace (col M3 idx i idx (i + 1)) with (M3 (i + 1) idx) by (unfold col; zbq; auto). rewrite F2. lra.
          -- rewrite G1 by lia. replace (col M3 idx i idx b) with (col M idx (i + 2) idx b) by (unfold col, M3, tset; zbq; auto). apply C4. lia. }
      unfold fgt. ro. destruct (Rltb (Rabs (d - p)) (Rabs x)) eqn:El.
      * apply Rltb_true in El. assert (Hx : x <> 0%R). { intros Ex. rewrite Ex, Rabs_R0 in El. pose proof (Rabs_pos (d - p)). lra. }
        wset H3 T4 H4. eapply real_finish; [lia|auto|exact H4|]. refine (G ((- S - (a - p) * t) / x)%R _ _); unfold t.
        -- field. auto.
        -- unfold Rdiv. rewrite <- Eq in *. field. auto.
      * apply Rltb_false in El. assert (Hz : (d - p <> 0)%R).
        { intros Ez. rewrite Ez, Rabs_R0 in El. assert (x = 0)%R by (destruct (Req_dec x 0); auto; pose proof (Rabs_pos_lt x ltac:(auto)); lra). apply Hq. rewrite <- Eq, Ez, H. ring. }
        wset H3 T4 H4. eapply real_finish; [lia|auto|exact H4|]. refine (G ((- sm' - y * t) / (d - p))%R _ _); unfold t.
        -- rewrite <- Eq in *. field. auto.
        -- field. auto.
    + (* the second row of a block *)
      destruct (second i Ka) as (_ & _ & _ & Hlt). destruct Hk as [[-> _]|(_ & E & _)]; [|congruence].
      replace (compareTo _ _ _ <? 0) with true by (symmetry; apply cmp_neg; auto). apply wp_ok. unfold rinv. exists M. split; [auto|]. split; [split; auto|].
      split; [lia|]. split; [lia|]. right. unfold sm. auto.
  - intros [[[[T2 r2] s2] z2] l] (M & H2 & C & _ & Hl & Hk). apply wp_ok. cbn [fst]. exists M. split; auto.
    destruct Hk as [[-> _]|(_ & E & _)]; auto. destruct (P1 _ E). lia.
Qed.
End Real.

(** ** A pair of complex eigenvalues *)
Section Complex.
Variables (norm : R) (re im : list (@F ROps)) (idx : Z) (M0 : Z -> Z -> R).
Hypothesis HRe : VTab (O := ROps) re n Re.
Hypothesis HIm : VTab (O := ROps) im n Im.
Hypothesis Hidx : 1 <= idx < n.
Hypothesis Hp1 : pr (idx - 1) = true.
Hypothesis HM0 : forall a b, 0 <= a < n -> 0 <= b <= idx -> M0 a b = T a b.
Let p := Re idx.
Let q := Im idx.
Definition ccol (l : Z) (M : Z -> Z -> R) : Prop :=
  (forall a b, 0 <= a < n -> 0 <= b < n -> b <> idx - 1 -> b <> idx -> M a b = M0 a b) /\
  (forall a b, 0 <= a < l -> b = idx - 1 \/ b = idx -> M a b = T a b) /\ M idx idx <> 0%R /\ M idx (idx - 1) = 0%R /\
  (forall a, l <= a < n -> mvec n T0 (col M (idx - 1) l idx) a = (p * col M (idx - 1) l idx a + q * col M idx l idx a)%R /\
                           mvec n T0 (col M idx l idx) a = (- q * col M (idx - 1) l idx a + p * col M idx l idx a)%R).
Definition cinv (k : Z) (st : list (list (@F ROps)) * F * F * F * Z) : Prop := let '(Tm, r, s, z, l) := st in
  exists M, RTab (O := ROps) Tm n n M /\ ccol l M /\ k <= idx - 1 /\ l <= idx - 1 /\
    ((l = k /\ pr (k - 1) = false) \/ (l = k + 1 /\ pr (k - 1) = true /\ z = (T k k - p)%R /\
       r = Rs l (idx + 1) (fun c => T k c * M c (idx - 1)%Z)%R /\ s = Rs l (idx + 1) (fun c => T k c * M c idx)%R)).
Lemma qneg : (q < - e12)%R.
Proof. destruct (second idx Hp1) as (_ & _ & _ & H). exact H. Qed.
Lemma qne : q <> 0%R.
Proof. pose proof qneg. unfold e12 in *. lra. Qed.

Lemma complex_finish i T3 M3 r s z : 0 <= i < idx - 1 -> pr (i - 1) = false -> RTab (O := ROps) T3 n n M3 -> ccol i M3 ->
  wp (let* t1 := mget T3 i (idx - 1) in let* t2 := mget T3 i idx in let t := fmax (fabs t1) (fabs t2) in
      let* T := (if fgt (doubleeps * t * t)%f fone then let* T := ed_rescale (O := ROps) i idx (idx - 1) t T3 in ed_rescale i idx idx t T else Ok T3) in Ok (T, r, s, z, i)) (cinv i).
Proof.
  intros Hi Hp H3 (C1 & C2 & C3 & C3' & C4). tget. tget. cbv zeta. apply wp_bind. unfold fgt. ro. set (t := Rmax _ _). destruct (Rltb 1 _) eqn:E.
  - apply Rltb_true in E. assert (Ht : t <> 0%R) by (intros Ez; rewrite Ez in E; lra).
    apply wp_bind. eapply wp_conseq; [apply (ed_rescale_R n i idx (idx - 1) t T3 M3 H3); lia|]. intros T4 H4.
    eapply wp_conseq; [apply (ed_rescale_R n i idx idx t T4 _ H4); lia|]. intros T5 H5. apply wp_ok. unfold cinv.
    exists (fun a b => if (i <=? a) && (a <=? idx) && ((b =? idx) || (b =? idx - 1)) then (M3 a b / t)%R else M3 a b).
    split; [eapply RTab_ext; [exact H5|]; intros a b Ha Hb; cbn beta; zbq; auto|].
    split; [|split; [lia|split; [lia|left; auto]]]. split; [|split; [|split; [|split]]].
    + intros a b Ha Hb Hne Hne'. zbq; auto; rewrite C1; auto.
    + intros a b Ha Hb. zbq; auto; apply C2; auto.
    + zbq; auto. apply Rmult_integral_contrapositive_currified; auto. apply Rinv_neq_0_compat; auto.
    + rewrite C3'. zbq; auto. unfold Rdiv. ring.
    + intros a Ha. set (M4 := fun a b : Z => _).
      assert (E4 : forall c, col M4 idx i idx c = (col M3 idx i idx c / t)%R) by (apply col_div; intros c Hc; unfold M4; zbq; auto).
      assert (E5 : forall c, col M4 (idx - 1) i idx c = (col M3 (idx - 1) i idx c / t)%R) by (apply col_div; intros c Hc; unfold M4; zbq; auto).
      rewrite (mvec_div n T0 (col M3 idx i idx) (col M4 idx i idx) t) by auto. rewrite (mvec_div n T0 (col M3 (idx - 1) i idx) (col M4 (idx - 1) i idx) t) by auto.
      destruct (C4 a Ha) as [D1 D2]. rewrite D1, D2, E4, E5. unfold Rdiv. split; ring.
  - apply wp_ok. apply wp_ok. unfold cinv. exists M3. split; [auto|]. split; [repeat (split; auto)|]. split; [lia|]. split; [lia|]. left; auto.
Qed.

Lemma complexVector_ok Tm r s z : RTab (O := ROps) Tm n n M0 ->
  wp (ed_complexVector (O := ROps) norm re im idx p q (Tm, r, s, z)) (fun st => exists M, RTab (O := ROps) (fst (fst (fst st))) n n M /\ ccol 0 M).
Proof.
  intros HT. pose proof qneg as Hqn. pose proof qne as Hq0. destruct (P1 _ Hp1) as (_ & _ & Hp0). replace (idx - 1 + 1) with idx in Hp0 by lia.
  destruct (R2 _ Hp1) as (E1 & E2 & E3 & _ & E5). replace (idx - 1 + 1) with idx in * by lia. fold p in E2. fold q in E3.
  assert (Hpm : pr (idx - 1 - 1) = false). { destruct (pr (idx - 1 - 1)) eqn:E; auto. destruct (P1 _ E) as (_ & _ & K). replace (idx - 1 - 1 + 1) with (idx - 1) in K by lia. congruence. }
  assert (Hpi : forall i, pr i = true -> i < idx - 1 -> i + 1 < idx - 1).
  { intros i E Hi. destruct (Z.eq_dec (i + 1) (idx - 1)) as [Ei|]; [|lia]. rewrite <- Ei in Hpm. replace (i + 1 - 1) with i in Hpm by lia. congruence. }
  set (b := T (idx - 1) idx) in *. set (c := T idx (idx - 1)) in *. set (a := T (idx - 1) (idx - 1)) in *. set (d := T idx idx) in *.
  assert (Eh : (a - p = (a - d) / 2)%R) by lra. assert (Eh' : (d - p = - ((a - d) / 2))%R) by lra. set (h := ((a - d) / 2)%R) in *.
  assert (Ebc : (h * h + q * q = - (b * c))%R). { rewrite E3. unfold h. rewrite <- E2 in *. nra. }
  assert (Hbc : (h * h + q * q > 0)%R) by (apply sumsq; auto).
  unfold ed_complexVector. tget. tget. rewrite !HM0 by lia. fold b c. apply wp_bind.
  assert (W : wp (if fgt (fabs c) (fabs b) then let* T1 := mset Tm (idx - 1) (idx - 1) (q / c)%f in let* d0 := mget T1 idx idx in let* a0 := mget T1 idx (idx - 1) in mset T1 (idx - 1) idx (fneg (d0 - p) / a0)%f
     else let* c0 := mget Tm (idx - 1) (idx - 1) in let '(re', im') := cdiv fzero (fneg b) (c0 - p)%f q in let* T1 := mset Tm (idx - 1) (idx - 1) re' in mset T1 (idx - 1) idx im')
    (fun T1 => exists al be, RTab (O := ROps) T1 n n (tset (tset M0 (idx - 1) (idx - 1) al) (idx - 1) idx be) /\ (c * al = q)%R /\ (c * be = p - d)%R /\ (h * al = q * be)%R /\ (h * be + q * al = - b)%R)).
  { unfold fgt. ro. destruct (Rltb (Rabs b) (Rabs c)) eqn:El.
    - apply Rltb_true in El. assert (Hc : c <> 0%R). { intros Ex. rewrite Ex, Rabs_R0 in El. pose proof (Rabs_pos b). lra. }
      tput T1 H1. tget. tget. unfold tset at 1 2. zbq. rewrite !HM0 by lia. fold c d. wset H1 T2 H2. eexists. eexists. split; [exact H2|]. rewrite Eh'. unfold Rdiv.
      assert (Eb : (b = - (h * h + q * q) / c)%R) by (rewrite Ebc; field; auto).
      split; [field; auto|]. split; [rewrite Ropp_involutive; replace (p - d)%R with h by lra; field; auto|]. split; [field; auto|]. rewrite Eb. field. auto.
    - tget. rewrite HM0 by lia. fold a. rewrite Eh. destruct (cdiv _ _ _ _) as [al be] eqn:Ed. apply cdiv_R in Ed; [|auto]. destruct Ed as [D1 D2]. ro. tput T1 H1. wset H1 T2 H2. exists al, be. split; [exact H2|].
      assert (Hb : b <> 0%R) by (intros Ex; rewrite Ex in Ebc; lra). assert (D3 : (be * h + al * q = - b)%R) by lra. assert (D4 : (al * h = be * q)%R) by lra.
      assert (Q1 : (al * (h * h + q * q) = - (b * q))%R). { replace (al * (h * h + q * q))%R with (al * h * h + al * q * q)%R by ring. rewrite D4. replace (be * q * h + al * q * q)%R with ((be * h + al * q) * q)%R by ring. rewrite D3. ring. }
      assert (Q2 : (be * (h * h + q * q) = - (b * h))%R). { replace (be * (h * h + q * q))%R with (be * h * h + be * q * q)%R by ring. rewrite <- D4. replace (be * h * h + al * h * q)%R with ((be * h + al * q) * h)%R by ring. rewrite D3. ring. }
      rewrite Ebc in Q1, Q2. split; [|split; [|split]]; try lra.
      + apply (Rmult_eq_reg_l b); auto. lra.
      + apply (Rmult_eq_reg_l b); auto. replace (p - d)%R with h by lra. lra. }
  eapply wp_conseq; [exact W|]. clear W. intros T1 (al & be & H1 & A1 & A2 & A3 & A4). tput T2 H2. tput T3 H3. apply wp_bind.
  apply (wp_for_down cinv); [lia| | |].
  - unfold cinv. eexists. split; [exact H3|]. replace (idx - 2 + 1) with (idx - 1) by lia. split; [|split; [lia|split; [lia|left; auto]]].
    set (M := tset _ _ _ _). assert (F1 : M (idx - 1) (idx - 1) = al) by (unfold M, tset; zbq; auto). assert (F2 : M (idx - 1) idx = be) by (unfold M, tset; zbq; auto).
    assert (F3 : M idx (idx - 1) = 0%R) by (unfold M, tset; zbq; auto). assert (F4 : M idx idx = 1%R) by (unfold M, tset; zbq; auto).
    split; [|split; [|split; [|split]]].
    + intros a' b' Ha Hb Hne Hne'. unfold M, tset. zbq; auto.
    + intros a' b' Ha Hb. unfold M, tset. zbq; auto; apply HM0; lia.
    + rewrite F4. lra.
    + auto.
    + intros a' Ha. assert (Ei : forall co, Rs (idx - 1) (idx + 1) (fun cc => T (idx - 1)%Z cc * M cc co)%R = (a * M (idx - 1)%Z co + b * M idx co)%R).
      { intros co. rewrite Rs_first by lia. replace (idx - 1 + 1) with idx by lia. rewrite Rs_last, Rs_nil by lia. fold a b. ring. }
      assert (Ej : forall co, mvec n T0 (col M co (idx - 1) idx) idx = (c * M (idx - 1)%Z co + d * M idx co)%R).
      { intros co. unfold mvec. rewrite (Rs_pick2 0 n (idx - 1) idx) by (try lia; intros k Hk K1 K2; unfold col; zbq; ring).
        replace idx with (idx - 1 + 1) at 1 by lia. rewrite T0_sub by auto. replace (idx - 1 + 1) with idx by lia. rewrite T0_up by lia. unfold col. zbq. auto. }
      destruct (Z.eq_dec a' (idx - 1)) as [->|]; [|destruct (Z.eq_dec a' idx) as [->|]].
      * rewrite !row_sum, !Ei by lia. unfold col. zbq. rewrite F1, F2, F3, F4. split; [|]; nra.
      * rewrite !Ej. unfold col. zbq. rewrite F1, F2, F3, F4. split; lra.
      * replace (col M (idx - 1) (idx - 1) idx a') with 0%R by (unfold col; zbq; auto). replace (col M idx (idx - 1) idx a') with 0%R by (unfold col; zbq; auto).
        rewrite !Rmult_0_r, Rplus_0_r. split; apply Rs_zero; intros k Hk;
          (destruct (Z_lt_dec idx k); [unfold col; zbq; ring|]; destruct (Z.eq_dec k idx) as [->|]; [rewrite T0_low by (auto; lia); ring|]; rewrite T0_low by lia; ring).
  - clear T1 T2 T3 H1 H2 H3 A1 A2 A3 A4 al be. intros i [[[[T2 r2] s2] z2] l] Hi (M & H2 & (C1 & C2 & C3 & C3' & C4) & _ & Hl & Hk).
    replace (i + 1 - 1) with i in Hk by lia. assert (Hl' : i < l) by (destruct Hk as [[-> _]|[-> _]]; lia). apply wp_bind.
    set (smr := fun k => Rs l k (fun c => T i c * M c (idx - 1)%Z)%R). set (smi := fun k => Rs l k (fun c => T i c * M c idx)%R).
    apply (wp_for (fun k v => v = (smr k, smi k))); [lia|unfold smr, smi; rewrite !Rs_nil by lia; auto| |].
    { intros j x Hj ->. tget. tget. tget. apply wp_ok. unfold smr, smi. rewrite !Rs_last by lia. ro.
      replace (M i j) with (T i j); auto. destruct (Z.eq_dec j idx) as [->|]; [symmetry; apply C2; auto; lia|]. destruct (Z.eq_dec j (idx - 1)) as [->|]; [symmetry; apply C2; auto; lia|].
      rewrite C1 by lia. symmetry. apply HM0; lia. }
    intros x ->. tget. cbv zeta. vget. assert (Ew : M i i = T i i) by (rewrite C1 by lia; apply HM0; lia). rewrite Ew. clear Ew.
    destruct (kinds i) as [[Ka Kb]|[[Ka Kb]|[Ka Kb]]].
    + (* a real eigenvalue *)
      destruct (R1 i ltac:(lia) Ka Kb) as [ER EI]. rewrite EI. destruct Hk as [[-> _]|(_ & E & _)]; [|congruence].
      replace (compareTo _ _ _ <? 0) with false. 2: { symmetry. apply not_true_iff_false. intros E. apply cmp_neg in E. unfold e12 in E. lra. }
      apply wp_bind. replace (@fulp1 ROps 0%R fzero) with true by (symmetry; apply Reqb_true; auto).
      ro. destruct (cdiv _ _ _ _) as [cr ci] eqn:Ed. apply cdiv_R in Ed; [|auto]. destruct Ed as [D1 D2].
      tput T3 H3. wset H3 T4 H4. eapply complex_finish; [lia|auto|exact H4|].
      set (M3 := tset _ _ _ _). assert (F1 : M3 i (idx - 1) = cr) by (unfold M3, tset; zbq; auto). assert (F2 : M3 i idx = ci) by (unfold M3, tset; zbq; auto).
      assert (F3 : forall a b, a <> i -> M3 a b = M a b) by (intros; unfold M3, tset; zbq; auto).
      split; [|split; [|split; [|split]]].
      * intros a' b' Ha Hb Hne Hne'. unfold M3, tset. zbq; auto.
      * intros a' b' Ha Hb. rewrite F3 by lia. apply C2; auto; lia.
      * rewrite F3 by lia. auto.
      * rewrite F3 by lia. auto.
      * destruct (mv_ext1 M M3 (idx - 1) i idx ltac:(lia) ltac:(lia) ltac:(lia) Ka) as [G1 G2]. { intros. apply F3. lia. }
        destruct (mv_ext1 M M3 idx i idx ltac:(lia) ltac:(lia) ltac:(lia) Ka) as [G3 G4]. { intros. apply F3. lia. }
        intros a' Ha. destruct (Z.eq_dec a' i) as [->|].
        -- rewrite G2, G4. replace (col M3 idx i idx i) with (M3 i idx) by (unfold col; zbq; auto). replace (col M3 (idx - 1) i idx i) with (M3 i (idx - 1)) by (unfold col; zbq; auto).
           rewrite F1, F2. unfold smr, smi in D1, D2. set (X := Rs _ _ _) in *. set (Y := Rs _ _ _) in *. split; lra.
        -- rewrite G1, G3 by lia. destruct (C4 a' ltac:(lia)) as [D3 D4]. rewrite D3, D4.
           assert (K : forall co, col M co (i + 1) idx a' = col M3 co i idx a') by (intros co; unfold col; zbq; auto; rewrite F3 by lia; auto). rewrite !K. auto.
    + (* the first row of a block *)
      destruct Hk as [[_ E]|(-> & _ & -> & -> & ->)]; [congruence|].
      destruct (R2 i Ka) as (B1 & B2 & B3 & B4 & B5).
      replace (compareTo _ _ _ <? 0) with false. 2: { symmetry. apply not_true_iff_false. intros E. apply cmp_neg in E. unfold e12 in *. lra. }
      apply wp_bind. replace (@fulp1 ROps (Im i) fzero) with false. 2: { symmetry. apply Reqb_false. intros E. ro. unfold e12 in B4. lra. }
      pose proof (Hpi i Ka ltac:(lia)) as Hlt.
      tget. tget. vget. replace (M i (i + 1)) with (T i (i + 1)) by (rewrite C1 by lia; symmetry; apply HM0; lia).
      replace (M (i + 1) i) with (T (i + 1) i) by (rewrite C1 by lia; symmetry; apply HM0; lia).
      unfold smr, smi. clear smr smi. assert (E2i : i + 1 + 1 = i + 2) by lia. rewrite E2i in *. clear E2i.
      set (rr := Rs (i + 2) (idx + 1) (fun c => T (i + 1)%Z c * M c (idx - 1)%Z)%R). set (ss := Rs (i + 2) (idx + 1) (fun c => T (i + 1)%Z c * M c idx)%R).
      set (ra := Rs (i + 2) (idx + 1) (fun c => T i c * M c (idx - 1)%Z)%R). set (sa := Rs (i + 2) (idx + 1) (fun c => T i c * M c idx)%R).
      ro. change (@flit ROps 2) with (Q2R 2). replace (Q2R 2) with 2%R by (unfold Q2R; cbn; lra).
      set (x := T i (i + 1)) in *. set (y := T (i + 1) i) in *. set (a1 := T i i) in *. set (d1 := T (i + 1) (i + 1)) in *. set (m := Im i) in *. set (rho := Re i) in *.
      set (vr := ((rho - p) * (rho - p) + m * m - q * q)%R). set (vi := ((rho - p) * 2 * q)%R).
      assert (Hv : (vr <> 0 \/ vi <> 0)%R).
      { destruct (Req_dec vi 0) as [Ev|]; auto. left. intros Ev'. assert (Er : (rho - p = 0)%R). { unfold vi in Ev. apply Rmult_integral in Ev. destruct Ev as [Ev|Ev]; [lra|contradiction]. }
        unfold vr in Ev'. rewrite Er in Ev'. assert (Em : m = (- q)%R). { assert (H : ((m + q) * (m - q) = 0)%R) by lra. apply Rmult_integral in H. destruct H as [H|H]; [lra|]. unfold e12 in *. lra. }
        destruct (Dist i (idx - 1) Ka Hp1 ltac:(lia)) as [D|D]; [apply D; fold rho; lra|]. apply D. fold m. lra. }
      replace (@fulp1 ROps vr 0%R && @fulp1 ROps vi 0%R) with false.
      2: { symmetry. apply andb_false_iff. destruct Hv; [left|right]; apply Reqb_false; auto. }
      destruct (cdiv _ _ _ _) as [cr ci] eqn:Ed. apply cdiv_R in Ed; [|auto]. destruct Ed as [D1 D2]. ro.
      assert (Edet : ((a1 - p) * (d1 - p) - x * y - q * q = vr)%R). { unfold vr. replace (m * m)%R with ((- ((a1 - d1) * (a1 - d1)) - 4 * (y * x)) / 4)%R by lra. replace rho with ((a1 + d1) / 2)%R by lra. field. }
      assert (Evi : (((a1 - p) + (d1 - p)) * q = vi)%R). { unfold vi. replace rho with ((a1 + d1) / 2)%R by lra. field. }
      tput T3 H3. tput T4 H4.
      assert (G : forall dr di, ((a1 - p) * cr - q * ci + x * dr + ra = 0)%R -> ((a1 - p) * ci + q * cr + x * di + sa = 0)%R ->
        ((d1 - p) * dr - q * di + y * cr + rr = 0)%R -> ((d1 - p) * di + q * dr + y * ci + ss = 0)%R ->
        ccol i (tset (tset (tset (tset M i (idx - 1) cr) i idx ci) (i + 1) (idx - 1) dr) (i + 1) idx di)).
      { intros dr di Q1 Q2 Q3 Q4. set (M3 := tset _ _ _ _).
        assert (F1 : M3 i (idx - 1) = cr) by (unfold M3, tset; zbq; auto). assert (F2 : M3 i idx = ci) by (unfold M3, tset; zbq; auto).
        assert (F1' : M3 (i + 1) (idx - 1) = dr) by (unfold M3, tset; zbq; auto). assert (F2' : M3 (i + 1) idx = di) by (unfold M3, tset; zbq; auto).
        assert (F3 : forall a b, a <> i -> a <> i + 1 -> M3 a b = M a b) by (intros; unfold M3, tset; zbq; auto).
        split; [|split; [|split; [|split]]].
        * intros a' b' Ha Hb Hne Hne'. unfold M3, tset. zbq; auto.
        * intros a' b' Ha Hb. rewrite F3 by lia. apply C2; auto; lia.
        * rewrite F3 by lia. auto.
        * rewrite F3 by lia. auto.
        * destruct (mv_ext2 M M3 (idx - 1) i idx ltac:(lia) ltac:(lia) ltac:(lia) Ka) as (G1 & G2 & G2'). { intros. apply F3; lia. }
          destruct (mv_ext2 M M3 idx i idx ltac:(lia) ltac:(lia) ltac:(lia) Ka) as (G3 & G4 & G4'). { intros. apply F3; lia. }
          rewrite F1, F1' in G2, G2'. rewrite F2, F2' in G4, G4'. fold x a1 ra in G2. fold y d1 rr in G2'. fold x a1 sa in G4. fold y d1 ss in G4'.
          intros a' Ha. destruct (Z.eq_dec a' i) as [->|]; [|destruct (Z.eq_dec a' (i + 1)) as [->|]].
          -- rewrite G2, G4. replace (col M3 idx i idx i) with (M3 i idx) by (unfold col; zbq; auto). replace (col M3 (idx - 1) i idx i) with (M3 i (idx - 1)) by (unfold col; zbq; auto).
             rewrite F1, F2. split; lra.
          -- rewrite G2', G4'. replace (col M3 idx i idx (i + 1)) with (M3 (i + 1) idx) by (unfold col; zbq; auto). replace (col M3 (idx - 1) i idx (i + 1)) with (M3 (i + 1) (idx - 1)) by (unfold col; zbq; auto).
             rewrite F1', F2'. split; lra.
          -- rewrite G1, G3 by lia. destruct (C4 a' ltac:(lia)) as [D3 D4]. rewrite D3, D4.
             assert (K : forall co, col M co (i + 2) idx a' = col M3 co i idx a') by (intros co; unfold col; zbq; auto; rewrite F3 by lia; auto). rewrite !K. auto. }
      unfold fgt. ro. destruct (Rltb (Rabs (d1 - p) + Rabs q) (Rabs x)) eqn:El.
      * apply Rltb_true in El. assert (Hx : x <> 0%R). { intros Ex. rewrite Ex, Rabs_R0 in El. pose proof (Rabs_pos (d1 - p)). pose proof (Rabs_pos q). lra. }
        tput T5 H5. wset H5 T6 H6. eapply complex_finish; [lia|auto|exact H6|].
        refine (G ((- ra - (a1 - p) * cr + q * ci) / x)%R ((- sa - (a1 - p) * ci - q * cr) / x)%R _ _ _ _).
        -- field; auto.
        -- field; auto.
        -- apply (Rmult_eq_reg_l x); auto. replace (x * ((d1 - p) * ((- ra - (a1 - p) * cr + q * ci) / x) - q * ((- sa - (a1 - p) * ci - q * cr) / x) + y * cr + rr))%R
             with ((x * rr - (d1 - p) * ra + q * sa) - (cr * ((a1 - p) * (d1 - p) - x * y - q * q) - ci * (((a1 - p) + (d1 - p)) * q)))%R by (field; auto).
           rewrite Edet, Evi, D1. ring.
        -- apply (Rmult_eq_reg_l x); auto. replace (x * ((d1 - p) * ((- sa - (a1 - p) * ci - q * cr) / x) + q * ((- ra - (a1 - p) * cr + q * ci) / x) + y * ci + ss))%R
             with ((x * ss - (d1 - p) * sa - q * ra) - (cr * (((a1 - p) + (d1 - p)) * q) + ci * ((a1 - p) * (d1 - p) - x * y - q * q)))%R by (field; auto).
           rewrite Edet, Evi, D2. ring.
      * destruct (cdiv _ _ _ _) as [dr di] eqn:Ed2. apply cdiv_R in Ed2; [|auto]. destruct Ed2 as [D3 D4]. ro.
        tput T5 H5. wset H5 T6 H6. eapply complex_finish; [lia|auto|exact H6|].
        set (e1 := ((a1 - p) * cr - q * ci + x * dr + ra)%R). set (e2 := ((a1 - p) * ci + q * cr + x * di + sa)%R).
        assert (K1 : ((d1 - p) * e1 - q * e2 = 0)%R).
        { unfold e1, e2. replace ((d1 - p) * ((a1 - p) * cr - q * ci + x * dr + ra) - q * ((a1 - p) * ci + q * cr + x * di + sa))%R
            with ((cr * ((a1 - p) * (d1 - p) - x * y - q * q) - ci * (((a1 - p) + (d1 - p)) * q)) - (x * rr - (d1 - p) * ra + q * sa) + x * (dr * (d1 - p) - di * q + rr + y * cr))%R by ring.
          rewrite Edet, Evi, D1, D3. ring. }
        assert (K2 : (q * e1 + (d1 - p) * e2 = 0)%R).
        { unfold e1, e2. replace (q * ((a1 - p) * cr - q * ci + x * dr + ra) + (d1 - p) * ((a1 - p) * ci + q * cr + x * di + sa))%R
            with ((cr * (((a1 - p) + (d1 - p)) * q) + ci * ((a1 - p) * (d1 - p) - x * y - q * q)) - (x * ss - (d1 - p) * sa - q * ra) + x * (dr * q + di * (d1 - p) + ss + y * ci))%R by ring.
          rewrite Edet, Evi, D2, D4. ring. }
        pose proof (sumsq (d1 - p) q Hq0) as Hz.
        assert (Z1 : (((d1 - p) * (d1 - p) + q * q) * e1 = 0)%R).
        { replace (((d1 - p) * (d1 - p) + q * q) * e1)%R with ((d1 - p) * ((d1 - p) * e1 - q * e2) + q * (q * e1 + (d1 - p) * e2))%R by ring. rewrite K1, K2. ring. }
        assert (Z2 : (((d1 - p) * (d1 - p) + q * q) * e2 = 0)%R).
        { replace (((d1 - p) * (d1 - p) + q * q) * e2)%R with ((d1 - p) * (q * e1 + (d1 - p) * e2) - q * ((d1 - p) * e1 - q * e2))%R by ring. rewrite K1, K2. ring. }
        apply Rmult_integral in Z1. apply Rmult_integral in Z2. refine (G dr di _ _ _ _); [destruct Z1; [lra|auto]|destruct Z2; [lra|auto]|lra|lra].
    + (* the second row of a block *)
      destruct (second i Ka) as (_ & _ & _ & Hlt). destruct Hk as [[-> _]|(_ & E & _)]; [|congruence].
      replace (compareTo _ _ _ <? 0) with true by (symmetry; apply cmp_neg; auto). apply wp_ok. unfold cinv. exists M. split; [auto|]. split; [repeat (split; auto)|].
      split; [lia|]. split; [lia|]. right. unfold smr, smi. auto.
  - intros [[[[T2' r2] s2] z2] l] (M & H2' & C & _ & Hl & Hk). apply wp_ok. cbn [fst]. exists M. split; auto.
    destruct Hk as [[-> _]|(_ & E & _)]; auto. destruct (P1 _ E). lia.
Qed.
End Complex.

(** ** The loop over the eigenvalues, and the back transformation *)
Definition goodr (dl : R) (M : Z -> Z -> R) (j : Z) : Prop :=
  M j j <> 0%R /\ forall a, 0 <= a < n -> (Rabs (mvec n T0 (col M j 0 j) a - Re j * col M j 0 j a) <= dl * Rabs (col M j 0 j a))%R.
Definition goodc (M : Z -> Z -> R) (j : Z) : Prop :=
  M (j + 1) (j + 1) <> 0%R /\ M (j + 1) j = 0%R /\
  forall a, 0 <= a < n -> mvec n T0 (col M j 0 (j + 1)) a = (Re j * col M j 0 (j + 1) a - Im j * col M (j + 1) 0 (j + 1) a)%R /\
                          mvec n T0 (col M (j + 1) 0 (j + 1)) a = (Im j * col M j 0 (j + 1) a + Re j * col M (j + 1) 0 (j + 1) a)%R.
Definition lo (k : Z) : Z := if pr (k - 1) then k - 1 else k.
Definition vinv (dl : R) (k : Z) (st : list (list (@F ROps)) * F * F * F) : Prop := exists M, RTab (O := ROps) (fst (fst (fst st))) n n M /\
  (forall a b, 0 <= a < n -> 0 <= b < lo k -> M a b = T a b) /\
  (forall j, lo k <= j < n -> pr j = false -> pr (j - 1) = false -> goodr dl M j) /\ (forall j, lo k <= j -> pr j = true -> goodc M j).
Lemma col_ext M M' co l top c : 0 <= l -> top < n -> (forall a, 0 <= a < n -> M' a co = M a co) -> col M' co l top c = col M co l top c.
Proof. intros H0 H1 H. unfold col. zbq; auto. apply H. lia. Qed.
Lemma mv_col_ext M M' co l top a : 0 <= l -> top < n -> (forall a, 0 <= a < n -> M' a co = M a co) -> mvec n T0 (col M' co l top) a = mvec n T0 (col M co l top) a.
Proof. intros H0 H1 H. apply Rs_ext. intros c Hc. rewrite (col_ext M M') by auto. auto. Qed.
Lemma goodr_ext dl M M' j : 0 <= j < n -> (forall a, 0 <= a < n -> M' a j = M a j) -> goodr dl M j -> goodr dl M' j.
Proof.
  intros Hj H [G1 G2]. split; [rewrite H by auto; auto|]. intros a Ha. rewrite (mv_col_ext M M'), (col_ext M M') by (auto; lia). auto.
Qed.
Lemma goodc_ext M M' j : 0 <= j -> j + 1 < n -> (forall a b, 0 <= a < n -> j <= b <= j + 1 -> M' a b = M a b) -> goodc M j -> goodc M' j.
Proof.
  intros Hj Hj' H (G1 & G2 & G3). split; [rewrite H by lia; auto|]. split; [rewrite H by lia; auto|]. intros a Ha.
  rewrite !(mv_col_ext M M'), !(col_ext M M') by (auto; try lia; intros; apply H; lia). auto.
Qed.

Lemma loop_ok norm re im Tm : 1 <= n -> (0 < norm)%R -> VTab (O := ROps) re n Re -> VTab (O := ROps) im n Im -> RTab (O := ROps) Tm n n T ->
  wp (for_down (n - 1) 0 (fun idx st =>
    let* p := zget re idx in
    let* q := zget im idx in
    if fulp1 q fzero then ed_realVector (O := ROps) norm re im idx p st
    else if flt q fzero then ed_complexVector norm re im idx p q st
    else Ok st) (Tm, fzero, fzero, fzero)) (vinv (@doubleeps ROps * norm)%R 0).
Proof.
  intros Hn Hnorm HRe HIm HT. assert (Pn : pr (n - 1) = false). { destruct (pr (n - 1)) eqn:E; auto. destruct (P1 _ E). lia. }
  apply (wp_for_down (vinv (@doubleeps ROps * norm)%R)); [lia| | |auto].
  - exists T. unfold lo. replace (n - 1 + 1 - 1) with (n - 1) by lia. rewrite Pn. split; [exact HT|]. split; [auto|]. split; [intros; lia|]. intros j Hj E. destruct (P1 _ E). lia.
  - intros idx [[[T1 r1] s1] z1] Hi (M & H1 & V1 & V2 & V3). cbn [fst] in H1. unfold lo in V1, V2, V3. replace (idx + 1 - 1) with idx in * by lia. vget. vget.
    destruct (kinds idx) as [[Ka Kb]|[[Ka Kb]|[Kb Ka]]]; rewrite Ka in V1, V2, V3.
    + destruct (R1 idx ltac:(lia) Ka Kb) as [ER EI]. rewrite EI. replace (@fulp1 ROps 0%R fzero) with true by (symmetry; apply Reqb_true; auto).
      eapply wp_conseq; [apply (realVector_ok norm re im idx M); auto; try lia; intros; apply V1; lia|].
      intros st (M' & H2 & C1 & _ & C3 & C4). exists M'. unfold lo. rewrite Kb. split; [exact H2|]. split; [|split].
      * intros a b Ha Hb. rewrite C1 by lia. apply V1; lia.
      * intros j Hj J1 J2. destruct (Z.eq_dec j idx) as [->|]; [split; auto|]. apply (goodr_ext _ M); [lia| |apply V2; auto; lia]. intros; apply C1; lia.
      * intros j Hj J1. destruct (P1 _ J1) as (_ & J2 & _). destruct (Z.eq_dec j idx) as [->|]; [congruence|]. apply (goodc_ext M); [lia|lia| |apply V3; auto; lia]. intros; apply C1; lia.
    + destruct (R2 idx Ka) as (_ & _ & _ & B4 & _). unfold e12 in B4. replace (@fulp1 ROps (Im idx) fzero) with false. 2: { symmetry. apply Reqb_false. ro. lra. }
      replace (@flt ROps (Im idx) fzero) with false. 2: { symmetry. ro. apply not_true_iff_false. intros E. apply Rltb_true in E. lra. }
      apply wp_ok. exists M. unfold lo. rewrite Kb. auto.
    + destruct (second idx Kb) as (Hi' & S1 & S2 & B4). unfold e12 in B4. replace (@fulp1 ROps (Im idx) fzero) with false. 2: { symmetry. apply Reqb_false. ro. lra. }
      replace (@flt ROps (Im idx) fzero) with true. 2: { symmetry. ro. apply Rltb_true. lra. }
      eapply wp_conseq; [apply (complexVector_ok norm re im idx M); auto; try lia; intros; apply V1; lia|].
      intros st (M' & H2 & C1 & _ & C3 & C3' & C4). exists M'. unfold lo. rewrite Kb. split; [exact H2|]. split; [|split].
      * intros a b Ha Hb. rewrite C1 by lia. apply V1; lia.
      * intros j Hj J1 J2. destruct (Z.eq_dec j idx) as [->|]; [congruence|]. destruct (Z.eq_dec j (idx - 1)) as [->|]; [congruence|]. apply (goodr_ext _ M); [lia| |apply V2; auto; lia]. intros; apply C1; lia.
      * intros j Hj J1. destruct (P1 _ J1) as (_ & J2 & _). destruct (Z.eq_dec j idx) as [->|]; [congruence|]. destruct (Z.eq_dec j (idx - 1)) as [->|].
        -- unfold goodc. replace (idx - 1 + 1) with idx by lia. split; [auto|]. split; [auto|]. intros a Ha. destruct (C4 a ltac:(lia)) as [D1 D2]. rewrite D1, D2, S1, S2. split; ring.
        -- apply (goodc_ext M); [lia|lia| |apply V3; auto; lia]. intros; apply C1; lia.
Qed.

(** The columns found, in the terms of the matrix D. *)
Definition Dd (k j : Z) : R :=
  if k =? j then Re j else if (k =? j + 1) && pr j then (- Im j)%R else if (k =? j - 1) && pr k then Im k else 0%R.
Definition Uc (M : Z -> Z -> R) (c j : Z) : R := col M j 0 j c.
Lemma vinv_eq dl M j : (0 <= dl)%R -> (forall j, 0 <= j < n -> pr j = false -> pr (j - 1) = false -> goodr dl M j) -> (forall j, 0 <= j -> pr j = true -> goodc M j) -> 0 <= j < n ->
  (forall a, 0 <= a < n -> (Rabs (mvec n T0 (fun c => Uc M c j) a - Rs 0 n (fun k => Uc M a k * Dd k j)) <= dl * Rabs (Uc M a j))%R) /\ Uc M j j <> 0%R.
Proof.
  intros Hdl V2 V3 Hj. assert (Ex : forall x y z, x = y -> (Rabs (x - y) <= dl * Rabs z)%R). { intros x y z ->. replace (y - y)%R with 0%R by ring. rewrite Rabs_R0. apply Rmult_le_pos; [auto|apply Rabs_pos]. }
  unfold Uc. destruct (kinds j) as [[Ka Kb]|[[Ka Kb]|[Kb Ka]]].
  - destruct (V2 j Hj Ka Kb) as [G1 G2]. split.
    + intros a Ha. rewrite (Rs_pick 0 n j) by (try lia; intros k Hk K1; unfold Dd; zbq; rewrite ?Ka, ?Kb; try ring; replace k with (j - 1) by lia; rewrite Kb; ring).
      replace (col M j 0 j a * Dd j j)%R with (Re j * col M j 0 j a)%R by (unfold Dd; zbq; ring). apply G2. auto.
    + unfold col. zbq. auto.
  - destruct (P1 _ Ka) as (_ & Hj' & Kc). destruct (V3 j ltac:(lia) Ka) as (G1 & G2 & G3). split.
    2: { destruct (G3 (j + 1) ltac:(lia)) as [D1 _]. unfold mvec in D1. rewrite (Rs_pick2 0 n j (j + 1)) in D1 by (try lia; intros k Hk K1 K2; unfold col; zbq; try ring; rewrite T0_low by lia; ring).
      rewrite T0_sub in D1 by auto. unfold col in D1. revert D1. zbq. rewrite G2. intros D1. intros Ez. unfold col in Ez. revert Ez. zbq. cbn [andb]. intros Ez. rewrite Ez in D1. destruct (R2 j Ka) as (_ & _ & _ & B4 & _). unfold e12 in B4.
      assert (Hz : (Im j * M (j + 1)%Z (j + 1)%Z = 0)%R) by lra. apply Rmult_integral in Hz. destruct Hz; [lra|contradiction]. }
    assert (E : forall a, col M j 0 j a = col M j 0 (j + 1) a). { intros a. unfold col. zbq; auto. replace a with (j + 1) by lia. auto. }
    intros a Ha. apply Ex. rewrite (Rs_pick2 0 n j (j + 1)) by (try lia; intros k Hk K1 K2; unfold Dd; zbq; rewrite ?Ka, ?Kb; try ring; replace k with (j - 1) by lia; rewrite Kb; ring).
    transitivity (mvec n T0 (col M j 0 (j + 1)) a); [apply Rs_ext; intros; rewrite E; auto|]. destruct (G3 a Ha) as [D1 _]. rewrite D1, E. unfold Dd. rewrite Ka. zbq. cbn [andb]. ring.
  - destruct (P1 _ Kb) as (Hj0 & Hj' & Kc). replace (j - 1 + 1) with j in * by lia. destruct (V3 (j - 1) ltac:(lia) Kb) as (G1 & G2 & G3). replace (j - 1 + 1) with j in * by lia.
    assert (E : forall a, col M (j - 1) 0 (j - 1) a = col M (j - 1) 0 j a). { intros a. unfold col. zbq; auto. replace a with j by lia. auto. }
    split; [|unfold col; zbq; auto].
    intros a Ha. apply Ex. destruct (second j Kb) as (_ & S1 & S2 & _). rewrite (Rs_pick2 0 n (j - 1) j) by (try lia; intros k Hk K1 K2; unfold Dd; zbq; rewrite ?Ka, ?Kb; try ring).
    transitivity (mvec n T0 (col M j 0 j) a); [apply Rs_ext; auto|]. destruct (G3 a Ha) as [_ D1]. rewrite D1, E. unfold Dd. rewrite Kb. zbq. cbn [andb]. rewrite S2. ring.
Qed.

Lemma backtrans_ok P Pf Tm M : 1 <= n -> RTab (O := ROps) P n n Pf -> RTab (O := ROps) Tm n n M ->
  wp (for_down (n - 1) 0 (fun j P =>
    for_ 0 n (fun i P =>
      let* z := for_ 0 (Z.min j (n - 1) + 1) (fun k z =>
        let* x := mget P i k in
        let* y := mget Tm k j in Ok (z + x * y)%f) fzero in
      mset P i j z) P) P) (fun V => RTab (O := ROps) V n n (fun i j => mvec n Pf (fun c => Uc M c j) i)).
Proof.
  intros Hn HP HT.
  set (J := fun k (V : list (list (@F ROps))) => RTab (O := ROps) V n n (fun i j => if k <=? j then mvec n Pf (fun c => Uc M c j) i else Pf i j)).
  apply (wp_for_down J); [lia| | |].
  - unfold J. eapply RTab_ext; [exact HP|]. intros a b Ha Hb. cbn beta. zbq; auto.
  - intros j V Hj HV. unfold J in HV. rewrite Z.min_l by lia.
    apply (wp_for (fun i V => RTab (O := ROps) V n n (fun a b => if (j + 1 <=? b) || ((b =? j) && (a <? i)) then mvec n Pf (fun c => Uc M c b) a else Pf a b))); [lia| | |].
    + eapply RTab_ext; [exact HV|]. intros a b Ha Hb. cbn beta. zbq; auto.
    + intros i V1 Hi H1. apply wp_bind. apply (wp_for (fun k z => z = Rs 0 k (fun c => Pf i c * Uc M c j)%R)); [lia|rewrite Rs_nil by lia; auto| |].
      * intros k z Hk ->. tget. tget. apply wp_ok. rewrite Rs_last by lia. ro. replace (Uc M k j) with (M k j) by (unfold Uc, col; zbq; auto). zbq; auto.
      * intros z ->. wset H1 V2 H2. eapply RTab_ext; [exact H2|]. intros a b Ha Hb. cbn beta. unfold tset.
        destruct (Z.eqb_spec a i) as [->|]; destruct (Z.eqb_spec b j) as [->|]; cbn [andb]; zbq; auto.
        unfold mvec. symmetry. apply (Rs_trunc 0 (j + 1) n); [lia|]. intros c Hc. unfold Uc, col. zbq; ring.
    + intros V1 H1. unfold J. eapply RTab_ext; [exact H1|]. intros a b Ha Hb. cbn beta. zbq; auto.
  - intros V HV. unfold J in HV. eapply RTab_ext; [exact HV|]. intros a b Ha Hb. cbn beta. zbq; auto.
Qed.

Lemma schurVectors_ok re im Tm P Pf : 1 <= n -> VTab (O := ROps) re n Re -> VTab (O := ROps) im n Im -> RTab (O := ROps) Tm n n T -> RTab (O := ROps) P n n Pf ->
  wpe (ed_schurVectors (O := ROps) re im Tm P) (fun vs => exists U : Z -> Z -> R, RTab (O := ROps) vs n n (fun j i => mvec n Pf (fun c => U c j) i) /\
    (forall j, 0 <= j < n -> (forall a, 0 <= a < n -> (Rabs (mvec n T0 (fun c => U c j) a - Rs 0 n (fun k => U a k * Dd k j)) <= @doubleeps ROps * Rs 0 n (fun i => Rs (Z.max (i - 1) 0) n (fun j => Rabs (T i j))) * Rabs (U a j))%R) /\ U j j <> 0%R) /\ (forall i j, j < i -> U i j = 0%R)) (fun e => e = EArithmetic).
Proof.
  intros Hn HRe HIm HT HP. unfold ed_schurVectors. rewrite (RTab_len _ _ _ _ HT). apply wpe_bind_wp.
  pose proof (sc_norm_total n Tm T HT ltac:(lia)) as Wn. destruct Wn as (norm & En & _). rewrite En. apply wp_ok. pose proof (sc_norm_R n Tm T norm HT ltac:(lia) En) as Eq. rewrite <- Eq.
  assert (H0 : (0 <= norm)%R) by (rewrite Eq; apply Rs_nonneg; intros; apply Rs_nonneg; intros; apply Rabs_pos).
  destruct (equalsWithError norm fzero eps_ed) eqn:Ee; [apply wpe_err; auto|].
  assert (Hnorm : (0 < norm)%R). { destruct H0 as [|H0]; auto. exfalso. rewrite <- H0 in Ee. assert (K : (Rabs 0 <= e12)%R) by (rewrite Rabs_R0; unfold e12; lra). apply near0_R in K. ro. congruence. }
  assert (Hdl : (0 <= @doubleeps ROps * norm)%R). { apply Rmult_le_pos; auto. unfold doubleeps. change (@flit ROps) with Q2R. unfold Q2R. cbn [Qnum Qden]. lra. }
  apply wpe_wp. apply wp_bind. eapply wp_conseq; [apply (loop_ok norm); auto|].
  intros [[[T1 r1] s1] z1] (M & H1 & _ & V2 & V3). cbn [fst] in H1. assert (E : lo 0 = 0). { unfold lo. destruct (pr (0 - 1)) eqn:E; auto. destruct (P1 _ E). lia. } rewrite E in *.
  apply wp_bind. eapply wp_conseq; [apply (backtrans_ok P Pf T1 M); auto|]. intros V HV. eapply wp_conseq; [apply (ed_columns_ok n V _ HV); lia|].
  intros vs Hvs. exists (Uc M). split; [exact Hvs|]. split; [intros j Hj; apply vinv_eq; auto|]. intros i j Hij. unfold Uc, col. zbq; auto.
Qed.
End Vectors.

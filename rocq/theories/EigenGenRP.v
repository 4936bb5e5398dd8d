(** The eigen decomposition of matrices that are not symmetric, in exact
    arithmetic: eigenvalues and eigenvectors. *)
From Coq Require Import ZArith QArith Qreals List Lia Bool Reals Lra.
From Verif Require Import Base BaseLemmas Wpe Scalar Vector VecSpec VectorFacts Matrix MatSpec MatFacts Array2D BlockM Diagonal RealMatrixM Array2DFacts TabTac FSum CholFacts QRFacts Hess HessFacts HessReal Schur Eigen EigenSpec EigenGenSpec SchurSpec SchurSpecR SchurFacts SchurFacts2 SchurReal SchurReal2 SchurReal3 SchurReal5 SchurReal6 SchurProps EigenFacts EigenFacts2 EigenProps EigenProps2 EigenGen EigenGenP RealOps RSum House Frob Tri EigenGenR.
Import ListNotations.
Open Scope Z_scope.
#[local] Existing Instance ROps.

(** ** Norms of vectors *)
Definition nrm (n : Z) (v : Z -> R) : R := sqrt (Rs 0 n (fun i => v i * v i)%R).
Definition emb (v : Z -> R) (i j : Z) : R := if j =? 0 then v i else 0%R.
Lemma ip_emb n v w : 1 <= n -> ip n (emb v) (emb w) = dot n v w.
Proof.
  intros Hn. unfold ip, dot. apply Rs_ext. intros i Hi. rewrite (Rs_pick 0 n 0); [unfold emb; cbn; auto|lia|]. intros j Hj Hne. unfold emb. zbq. ring.
Qed.
Lemma nrm_emb n v : 1 <= n -> nrm n v = nF n (emb v).
Proof. intros Hn. unfold nF. rewrite ip_emb by auto. reflexivity. Qed.
Lemma nrm_tri n v w : 1 <= n -> (nrm n (fun i => v i + w i)%R <= nrm n v + nrm n w)%R.
Proof.
  intros Hn. rewrite !nrm_emb by auto. pose proof (nF_tri n (emb v) (emb w)) as H. rewrite (nF_ext n (emb (fun i => v i + w i)%R) (madd (emb v) (emb w))); auto.
  intros i j Hi Hj. unfold emb, madd. destruct (j =? 0); ring.
Qed.
Lemma nrm_nonneg n v : (0 <= nrm n v)%R.
Proof. apply sqrt_pos. Qed.
Lemma nrm_ext n v w : (forall i, 0 <= i < n -> v i = w i) -> nrm n v = nrm n w.
Proof. intros H. unfold nrm. f_equal. apply Rs_ext. intros i Hi. rewrite H by auto. auto. Qed.
Lemma nrm_orth n P v : orthogonal n P -> nrm n (mvec n P v) = nrm n v.
Proof. intros H. unfold nrm. f_equal. apply (orth_norm n P v H). Qed.
Lemma nrm_le n v w c : (0 <= c)%R -> (Rs 0 n (fun i => v i * v i) <= c * c * Rs 0 n (fun i => w i * w i))%R -> (nrm n v <= c * nrm n w)%R.
Proof.
  intros Hc H. unfold nrm. rewrite <- (sqrt_square c Hc) at 1. rewrite <- sqrt_mult_alt by nra. apply sqrt_le_1_alt. exact H.
Qed.
Lemma nrm_mvec n E w : 1 <= n -> (nrm n (mvec n E w) <= nF n E * nrm n w)%R.
Proof.
  intros Hn. apply nrm_le; [apply nF_nonneg|]. rewrite nF_sq. unfold ip. rewrite <- Rs_scal_r. apply Rs_le. intros i Hi.
  pose proof (ip_cs n (emb (E i)) (emb w)) as H. rewrite !ip_emb in H by auto. exact H.
Qed.
Lemma nrm_sub n F u e : 0 <= n -> (0 <= e)%R -> (forall i, 0 <= i < n -> (Rabs (mvec n F u i) <= if i =? 0 then 0 else e * Rabs (u (i - 1)%Z))%R) -> (nrm n (mvec n F u) <= e * nrm n u)%R.
Proof.
  intros Hn He H. apply nrm_le; auto. set (g := fun i => if i =? 0 then 0%R else (e * e * (u (i - 1)%Z * u (i - 1)%Z))%R).
  apply Rle_trans with (Rs 0 n g).
  - apply Rs_le. intros i Hi. specialize (H i Hi). unfold g. set (x := mvec n F u i) in *. replace (x * x)%R with (Rabs x * Rabs x)%R by (rewrite <- Rabs_mult; apply Rabs_right; nra).
    pose proof (Rabs_pos x). destruct (i =? 0); [nra|]. replace (e * e * (u (i - 1)%Z * u (i - 1)%Z))%R with ((e * Rabs (u (i - 1)%Z)) * (e * Rabs (u (i - 1)%Z)))%R.
    + apply Rmult_le_compat; auto.
    + transitivity (e * e * (Rabs (u (i - 1)%Z) * Rabs (u (i - 1)%Z)))%R; [ring|]. rewrite <- Rabs_mult, Rabs_right by nra. ring.
  - destruct (Z.eq_dec n 0) as [->|]; [rewrite !Rs_nil by lia; lra|]. rewrite Rs_first by lia. unfold g at 1. cbn [Z.eqb]. rewrite Rplus_0_l.
    replace n with (n - 1 + 1) at 1 by lia. replace (0 + 1) with (0 + 1) by lia. rewrite <- (Rs_shift 0 (n - 1) 1 g). rewrite <- Rs_scal_l.
    rewrite (Rs_split 0 (n - 1) n) by lia. rewrite (Rs_first (n - 1) n), (Rs_nil (n - 1 + 1) n) by lia.
    assert (K : (0 <= e * e * (u (n - 1)%Z * u (n - 1)%Z))%R) by (apply Rmult_le_pos; nra).
    enough (Rs 0 (n - 1) (fun k => g (k + 1)%Z) <= Rs 0 (n - 1) (fun k => e * e * (u k * u k)))%R by lra.
    apply Rs_le. intros k Hk. unfold g. replace (k + 1 - 1) with k by lia. zbq. lra.
Qed.

(** ** The symmetry test *)
Lemma passes_near n A : passes_symmetry (O := ROps) n A -> nearly_symmetric n A.
Proof.
  intros H i j Hi Hj. specialize (H i j Hi Hj). unfold fgt in H. ro. apply Rltb_false in H. apply Rnot_lt_le in H || idtac.
  change (@doubleeps ROps) with deps in H. rewrite deps_eq in H. change (@flit ROps) with Q2R in H. unfold Q2R in H. cbn [Qnum Qden inject_Z] in H. rewrite !Rinv_1, !Rmult_1_r in H.
  unfold Rdiv. lra.
Qed.
Lemma dec_bound (P : Z -> Prop) n : (forall i, P i \/ ~ P i) -> (exists i, 0 <= i < n /\ P i) \/ (forall i, 0 <= i < n -> ~ P i).
Proof.
  intros D. destruct (Z_le_dec n 0); [right; intros; lia|].
  enough (K : forall m : nat, (exists i, 0 <= i < Z.of_nat m /\ P i) \/ (forall i, 0 <= i < Z.of_nat m -> ~ P i)) by (specialize (K (Z.to_nat n)); rewrite Z2Nat.id in K by lia; auto).
  induction m as [|m IH]; [right; intros; lia|]. destruct IH as [(i & Hi & H)|H]; [left; exists i; split; auto; lia|]. destruct (D (Z.of_nat m)) as [K|K]; [left; exists (Z.of_nat m); split; auto; lia|].
  right. intros i Hi. destruct (Z.eq_dec i (Z.of_nat m)) as [->|]; auto. apply H. lia.
Qed.
Lemma classic_entry n (A : Z -> Z -> R) : (exists i j, 0 <= i < n /\ 0 <= j < n /\ A i j <> 0%R) \/ forall i j, 0 <= i < n -> 0 <= j < n -> A i j = 0%R.
Proof.
  destruct (dec_bound (fun i => exists j, 0 <= j < n /\ A i j <> 0%R) n) as [(i & Hi & j & Hj & H)|H].
  - intros i. destruct (dec_bound (fun j => A i j <> 0%R) n) as [K|K]; auto.
    + intros j. destruct (Req_dec (A i j) 0); auto.
    + right. intros (j & Hj & H). apply (K j Hj H).
  - left. eauto 6.
  - right. intros i j Hi Hj. destruct (Req_dec (A i j) 0) as [|K]; auto. exfalso. apply (H i Hi). eauto.
Qed.
Lemma near_zero n A : ~ nearly_symmetric n A -> exists i j, 0 <= i < n /\ 0 <= j < n /\ A i j <> 0%R.
Proof.
  intros H. destruct (classic_entry n A) as [K|K]; auto. exfalso. apply H. intros i j Hi Hj. rewrite !K by lia. rewrite Rminus_0_r, Rabs_R0. unfold Rmax. destruct (Rle_dec 0 0); lra.
Qed.

(** ** Columns of V *)
Section Cols.
Variables (n : Z) (A P T : Z -> Z -> R) (pr : Z -> bool) (U D : Z -> Z -> R) (tol e dl : R).
Hypothesis Hn : 1 <= n.
Hypothesis HP : orthogonal n P.
Hypothesis HA : (nF n (msub A (mmul n (mmul n P T) (trm P))) <= tol)%R.
Hypothesis He : (0 <= e)%R.
Hypothesis Hdl : (0 <= dl)%R.
Hypothesis Hlow : forall i j, 0 <= j -> j + 1 < i < n -> T i j = 0%R.
Hypothesis Hsub : forall i, 0 <= i -> i + 1 < n -> pr i = false -> (Rabs (T (i + 1)%Z i) <= e)%R.
Hypothesis HU : forall j, 0 <= j < n -> forall a, 0 <= a < n -> (Rabs (mvec n (T0 T pr) (fun c => U c j) a - Rs 0 n (fun k => U a k * D k j)) <= dl * Rabs (U a j))%R.
Let V := mmul n P U.
Lemma V_col i j : V i j = mvec n P (fun c => U c j) i.
Proof. reflexivity. Qed.
Lemma back_ptp w i : 0 <= i < n -> mvec n (mmul n (mmul n P T) (trm P)) (mvec n P w) i = mvec n P (mvec n T w) i.
Proof.
  intros Hi. rewrite mvec_mmul. rewrite (mvec_ext n (mmul n P T) (mmul n P T) _ w) by (auto; intros k Hk; rewrite <- mvec_mmul; rewrite (mvec_ext n _ idm w w) by (auto; intros; apply HP; auto); apply mvec_1; auto).
  apply mvec_mmul.
Qed.
Lemma residual j : 0 <= j < n ->
  (nrm n (fun i => mmul n A V i j - mmul n V D i j) <= (tol + e + dl) * nrm n (fun i => V i j))%R.
Proof.
  intros Hj. set (u := fun c => U c j). set (E := msub A (mmul n (mmul n P T) (trm P))). set (dv := fun a => (mvec n (T0 T pr) u a - mmul n U D a j)%R).
  assert (Eq : forall i, 0 <= i < n -> (mmul n A V i j - mmul n V D i j = mvec n E (mvec n P u) i + mvec n P (mvec n (msub T (T0 T pr)) u) i + mvec n P dv i)%R).
  { intros i Hi. assert (E1 : mmul n A V i j = mvec n A (mvec n P u) i) by reflexivity.
    assert (E2 : mmul n V D i j = (mvec n P (mvec n (T0 T pr) u) i - mvec n P dv i)%R).
    { rewrite <- mvec_minus. unfold V. rewrite mmul_assoc. apply Rs_ext. intros k Hk. unfold dv. f_equal. ring. }
    assert (E3 : mvec n A (mvec n P u) i = (mvec n E (mvec n P u) i + mvec n P (mvec n T u) i)%R).
    { rewrite <- back_ptp by auto. unfold E, mvec, msub. rewrite <- Rs_plus. apply Rs_ext. intros; ring. }
    assert (E4 : mvec n P (mvec n (msub T (T0 T pr)) u) i = (mvec n P (mvec n T u) i - mvec n P (mvec n (T0 T pr) u) i)%R).
    { rewrite <- mvec_minus. apply mvec_ext; auto. intros k Hk. unfold mvec, msub. rewrite <- Rs_minus. apply Rs_ext. intros; ring. }
    rewrite E1, E2, E3, E4. ring. }
  rewrite (nrm_ext n _ _ Eq). eapply Rle_trans; [apply nrm_tri; auto|]. rewrite Rmult_plus_distr_r. apply Rplus_le_compat.
  2: { rewrite nrm_orth by auto. change (fun i => V i j) with (mvec n P u). rewrite (nrm_orth n P u HP). apply nrm_le; auto. rewrite <- Rs_scal_l. apply Rs_le. intros a Ha. specialize (HU j Hj a Ha). fold u in HU.
    change (Rabs (dv a) <= dl * Rabs (u a))%R in HU. pose proof (Rabs_pos (dv a)). replace (dv a * dv a)%R with (Rabs (dv a) * Rabs (dv a))%R by (rewrite <- Rabs_mult; apply Rabs_right; nra).
    replace (dl * dl * (u a * u a))%R with (dl * Rabs (u a) * (dl * Rabs (u a)))%R; [apply Rmult_le_compat; auto|]. transitivity (dl * dl * (Rabs (u a) * Rabs (u a)))%R; [ring|]. rewrite <- Rabs_mult, Rabs_right by nra. ring. }
  eapply Rle_trans; [apply nrm_tri; auto|]. rewrite Rmult_plus_distr_r. apply Rplus_le_compat.
  - eapply Rle_trans; [apply nrm_mvec; auto|]. apply Rmult_le_compat_r; [apply nrm_nonneg|exact HA].
  - rewrite nrm_orth by auto. change (fun i => V i j) with (mvec n P u). rewrite (nrm_orth n P u HP). apply nrm_sub; [lia|auto|]. intros i Hi.
    destruct (Z.eqb_spec i 0) as [->|Hi0].
    + unfold mvec. rewrite Rs_zero; [rewrite Rabs_R0; lra|]. intros k Hk. unfold msub, T0. zbq. ring.
    + unfold mvec. rewrite (Rs_pick 0 n (i - 1)) by (try lia; intros k Hk Hne; unfold msub, T0; zbq; try ring; rewrite Hlow by lia; ring).
      unfold msub, T0. zbq. cbn [andb]. destruct (pr (i - 1)) eqn:E0.
      * replace (T i (i - 1) - T i (i - 1))%R with 0%R by ring. rewrite Rmult_0_l, Rabs_R0. apply Rmult_le_pos; auto. apply Rabs_pos.
      * rewrite Rminus_0_r, Rabs_mult. apply Rmult_le_compat_r; [apply Rabs_pos|]. specialize (Hsub (i - 1) ltac:(lia) ltac:(lia) E0). replace (i - 1 + 1) with i in Hsub by lia. auto.
Qed.
Lemma V_inj : (forall i, 0 <= i < n -> U i i <> 0%R) -> (forall i j, 0 <= j < i -> i < n -> U i j = 0%R) ->
  forall w, (forall i, 0 <= i < n -> mvec n V w i = 0%R) -> forall i, 0 <= i < n -> w i = 0%R.
Proof.
  intros H1 H2 w Hw. apply (upper_inj n U w H1 H2). intros i Hi.
  transitivity (mvec n (trm P) (mvec n P (mvec n U w)) i).
  - rewrite <- mvec_mmul. rewrite (mvec_ext n _ idm (mvec n U w) (mvec n U w)) by (auto; intros; apply HP; auto). rewrite mvec_1 by auto. auto.
  - apply Rs_zero. intros k Hk. rewrite <- mvec_mmul. fold V. rewrite Hw by auto. ring.
Qed.
End Cols.

(** ** The decomposition *)
Lemma R_sqrt_not_neg (x : @F ROps) : flt (fsqrt x) fzero = false.
Proof. ro. change (@fsqrt ROps) with sqrt. apply not_true_iff_false. intros E. apply Rltb_true in E. pose proof (sqrt_pos x). lra. Qed.
Lemma R_zero_not_lt : @flt ROps fzero fzero = false.
Proof. ro. apply not_true_iff_false. intros E. apply Rltb_true in E. lra. Qed.

Section Gen.
Variables (n : Z) (T : Z -> Z -> R) (pr : Z -> bool) (Re Im : Z -> R).
Hypothesis Hsp : split_of (O := ROps) n T pr Re Im.
Hypothesis HT : schur_form n e12 T.
Hypothesis HIm : forall i, 0 <= i < n -> Im i = 0%R \/ (e12 < Rabs (Im i))%R.
Lemma pair_disc i : pr i = true -> ((T i i - T (i + 1)%Z (i + 1)%Z) * (T i i - T (i + 1)%Z (i + 1)%Z) + 4 * (T (i + 1)%Z i * T i (i + 1)%Z) < 0)%R.
Proof.
  intros Hp. destruct Hsp as (S1 & _ & S3). destruct (S1 i Hp) as (Hi & Hi' & _). destruct (S3 i Hp) as (E & _). destruct (proj2 HT (i + 1) ltac:(lia)) as [K|(_ & _ & K)].
  - replace (i + 1 - 1) with i in K by lia. apply near0_R in K. ro. congruence.
  - replace (i + 1 - 1) with i in K by lia. auto.
Qed.
Lemma pair_R2 i : pr i = true -> (2 * Re i = T i i + T (i + 1)%Z (i + 1)%Z)%R /\ Re (i + 1) = Re i /\ Im (i + 1) = (- Im i)%R /\ (e12 < Im i)%R /\
  (4 * (Im i * Im i) = - ((T i i - T (i + 1)%Z (i + 1)%Z) * (T i i - T (i + 1)%Z (i + 1)%Z)) - 4 * (T (i + 1)%Z i * T i (i + 1)%Z))%R.
Proof.
  intros Hp. pose proof (pair_disc i Hp) as Hd. destruct Hsp as (S1 & _ & S3). destruct (S1 i Hp) as (Hi & Hi' & _). destruct (S3 i Hp) as (_ & E1 & E2 & E3 & E4).
  change (@flit ROps (1 # 2)) with (Q2R (1 # 2)) in *. replace (Q2R (1 # 2)) with (/ 2)%R in * by (unfold Q2R; cbn; lra). change (@fsqrt ROps) with sqrt in *. ro.
  set (a := T i i) in *. set (d := T (i + 1) (i + 1)) in *. set (c := T (i + 1) i) in *. set (b := T i (i + 1)) in *.
  assert (Hq : (/ 2 * (a - d) * (/ 2 * (a - d)) + c * b < 0)%R) by lra.
  assert (Es : (Im i * Im i = - (/ 2 * (a - d) * (/ 2 * (a - d)) + c * b))%R). { rewrite E2, sqrt_sqrt by apply Rabs_pos. rewrite Rabs_left by auto. ring. }
  assert (Ep : (0 <= Im i)%R) by (rewrite E2; apply sqrt_pos).
  split; [rewrite E1; field|]. split; [rewrite E1, E3; auto|]. split; [rewrite E4, E2; auto|]. split; [|rewrite Es; field].
  destruct (HIm i ltac:(lia)) as [Z0|K]; [rewrite Z0 in Es; lra|]. rewrite Rabs_right in K by lra. auto.
Qed.
Lemma single_R1 i : 0 <= i < n -> pr i = false -> pr (i - 1) = false -> Re i = T i i /\ Im i = 0%R.
Proof. intros Hi H1 H2. destruct Hsp as (_ & S2 & _). destruct (S2 i Hi H1 H2) as (E1 & E2 & _). auto. Qed.
Lemma gen_okD : ed_okD (O := ROps) n Im.
Proof.
  destruct Hsp as (S1 & _ & _). intros i Hi. split; intros C; apply Z.ltb_lt in C; [apply cmp_pos in C|apply cmp_neg in C]; unfold e12 in C; destruct (kinds n pr S1 i) as [[Ka Kb]|[[Ka Kb]|[Kb Ka]]].
  - destruct (single_R1 i Hi Ka Kb) as [_ E]. lra.
  - apply S1 in Ka. lia.
  - destruct (second n T pr Re Im S1 pair_R2 i Kb) as (_ & _ & _ & K). unfold e12 in K. lra.
  - destruct (single_R1 i Hi Ka Kb) as [_ E]. lra.
  - destruct (pair_R2 i Ka) as (_ & _ & _ & K & _). unfold e12 in K. lra.
  - apply S1 in Kb. lia.
Qed.
Lemma tabD_Dd k j : 0 <= k < n -> 0 <= j < n -> ed_tabD (O := ROps) Re Im k j = Dd pr Re Im k j /\
  Dd pr Re Im k j = (if k =? j then Re k else if j =? k + 1 then Rmax 0 (Im k) else if j =? k - 1 then Rmin 0 (Im k) else 0)%R.
Proof.
  intros Hk Hj. pose proof Hsp as (S1 & _ & _). unfold ed_tabD, Dd.
  assert (C1 : forall b : bool, (b = true <-> (e12 < Im k)%R) -> b = pr k).
  { intros b Hb. destruct (kinds n pr S1 k) as [[Ka Kb]|[[Ka Kb]|[Kb Ka]]]; rewrite Ka.
    - destruct (single_R1 k Hk Ka Kb) as [_ E]. apply not_true_iff_false. rewrite Hb, E. unfold e12. lra.
    - apply Hb. apply (pair_R2 k Ka).
    - destruct (second n T pr Re Im S1 pair_R2 k Kb) as (_ & _ & _ & K). apply not_true_iff_false. rewrite Hb. unfold e12 in *. lra. }
  assert (C2 : forall b : bool, (b = true <-> (Im k < - e12)%R) -> b = pr (k - 1)).
  { intros b Hb. destruct (kinds n pr S1 k) as [[Ka Kb]|[[Ka Kb]|[Kb Ka]]]; rewrite Kb.
    - destruct (single_R1 k Hk Ka Kb) as [_ E]. apply not_true_iff_false. rewrite Hb, E. unfold e12. lra.
    - destruct (pair_R2 k Ka) as (_ & _ & _ & K & _). apply not_true_iff_false. rewrite Hb. unfold e12 in *. lra.
    - destruct (second n T pr Re Im S1 pair_R2 k Kb) as (_ & _ & _ & K). apply Hb. auto. }
  ro. rewrite (C1 _ (cmp_pos (Im k))), (C2 _ (cmp_neg (Im k))).
  assert (M1 : Rmax 0 (Im k) = if pr k then Im k else 0%R).
  { destruct (kinds n pr S1 k) as [[Ka Kb]|[[Ka Kb]|[Kb Ka]]]; rewrite Ka.
    - destruct (single_R1 k Hk Ka Kb) as [_ E]. rewrite E. apply Rmax_left. lra.
    - destruct (pair_R2 k Ka) as (_ & _ & _ & K & _). apply Rmax_right. unfold e12 in *. lra.
    - destruct (second n T pr Re Im S1 pair_R2 k Kb) as (_ & _ & _ & K). apply Rmax_left. unfold e12 in *. lra. }
  assert (M2 : Rmin 0 (Im k) = if pr (k - 1) then Im k else 0%R).
  { destruct (kinds n pr S1 k) as [[Ka Kb]|[[Ka Kb]|[Kb Ka]]]; rewrite Kb.
    - destruct (single_R1 k Hk Ka Kb) as [_ E]. rewrite E. apply Rmin_left. lra.
    - destruct (pair_R2 k Ka) as (_ & _ & _ & K & _). apply Rmin_left. unfold e12 in *. lra.
    - destruct (second n T pr Re Im S1 pair_R2 k Kb) as (_ & _ & _ & K). apply Rmin_right. unfold e12 in *. lra. }
  rewrite M1, M2. destruct (Z.eqb_spec k j) as [->|Hne]; [auto|].
  destruct (Z.eqb_spec k (j + 1)) as [->|H1].
  - replace (j + 1 - 1) with j by lia. destruct (Z.eqb_spec j (j + 1 + 1)); [lia|]. destruct (Z.eqb_spec j j); [|lia]. destruct (Z.eqb_spec (j + 1) (j - 1)); [lia|]. cbn [andb]. rewrite andb_false_r. rewrite andb_true_r.
    destruct (pr j) eqn:E; auto. destruct (pair_R2 j E) as (_ & _ & K & _). rewrite K. auto.
  - destruct (Z.eqb_spec j (k - 1)); [lia|]. rewrite andb_false_r. cbn [andb]. destruct (Z.eqb_spec k (j - 1)) as [E|H2].
    + destruct (Z.eqb_spec j (k + 1)); [|lia]. cbn [andb]. rewrite andb_true_r. destruct (pr k); auto.
    + destruct (Z.eqb_spec j (k + 1)); [lia|]. rewrite andb_false_r. cbn [andb]. auto.
Qed.
Lemma small_sub i : 0 <= i -> i + 1 < n -> pr i = false -> (Rabs (T (i + 1)%Z i) <= e12)%R.
Proof.
  intros Hi Hi' Hp. pose proof Hsp as (S1 & S2 & S3). destruct (pr (i - 1)) eqn:E.
  - destruct (S3 _ E) as (K & _). replace (i - 1 + 1) with i in K by lia. destruct (proj2 HT i) as [K'|(_ & K' & _)]; [destruct (S1 _ E); lia| |apply K'; lia].
    apply near0_R in K'. ro. congruence.
  - destruct (S2 i ltac:(lia) Hp E) as (_ & _ & K). specialize (K Hi'). apply near0_R. auto.
Qed.
End Gen.

Lemma gen_vectors (x : @RealMatrix ROps) n A d sc Tm T sc1 Re Im : library x -> MatIs x n n A -> 1 <= n -> 1010 * (n * (n + 8)) <= 9007199254740992 ->
  ~ nearly_symmetric n A -> ed_of x d -> sc_of x sc -> sc_getT sc = Ok (Tm, sc1) -> MatIs Tm n n T -> schur_form n (/ 1000000000000) T ->
  VecIs (VArr (ed_RealEigenvalues d)) n Re -> VecIs (VArr (ed_ImagEigenvalues d)) n Im ->
  (forall i j, 0 <= i < n -> 0 <= j < n -> i <> j -> (0 < Im i)%R -> Re i <> Re j \/ Im i <> Im j) ->
  (forall i, 0 <= i < n -> Im i = 0%R \/ (/ 1000000000000 < Rabs (Im i))%R) ->
  exists Vm Dm Wm V D d1 d2 d3, ed_V d = Ok (Vm, d1) /\ ed_D d = Ok (Dm, d2) /\ ed_VT d = Ok (Wm, d3) /\
    MatIs Vm n n V /\ MatIs Dm n n D /\ MatIs Wm n n (trm V) /\
    (forall i j, 0 <= i < n -> 0 <= j < n -> D i j = (if i =? j then Re i else if j =? i + 1 then Rmax 0 (Im i) else if j =? i - 1 then Rmin 0 (Im i) else 0)%R) /\
    (forall i, 0 <= i < n -> (0 < Im i)%R -> i + 1 < n /\ Re (i + 1) = Re i /\ Im (i + 1) = (- Im i)%R) /\
    (forall w, (forall i, 0 <= i < n -> mvec n V w i = 0%R) -> forall i, 0 <= i < n -> w i = 0%R) /\
    (forall k, 0 <= k < n -> (sqrt (Rs 0 n (fun i => (mmul n A V i k - mmul n V D i k) * (mmul n A V i k - mmul n V D i k))) <=
       (sc_tol n (nF n A) + / 1000000000000 + / 9007199254740992 * Rs 0 n (fun i => Rs (Z.max (i - 1) 0) n (fun j => Rabs (T i j)))) * sqrt (Rs 0 n (fun i => V i k * V i k)))%R).
Proof.
  intros Hl Hx Hn Hsz Hs (d0 & E0 & Hc) Hsc EgT HTm HT HRe HIm Hdist Hbig.
  assert (Hs' : ~ passes_symmetry (O := ROps) n A) by (intros K; apply Hs, passes_near; auto).
  destruct (gen_made x n A d0 R_sqrt_not_neg R_zero_not_lt Hl Hx Hn Hs' E0) as (s0 & T' & P & pr & Re' & Im' & Vt0 & F0 & K & Hsp & Hd0 & Ev).
  destruct Hsc as (s0' & F0' & Hc'). rewrite F0 in F0'. injection F0' as <-.
  destruct (sc_T_ok n T' P sc Hn (sc_calls_ok _ _ _ _ _ Hn K Hc')) as ([Tm' sc1'] & EgT' & _ & HTm' & _). rewrite EgT in EgT'. injection EgT' as <- <-. cbn [fst] in HTm'.
  destruct (MatIs_unique _ _ _ _ _ _ _ HTm HTm') as (_ & _ & ET).
  assert (HT' : schur_form n e12 T').
  { destruct HT as [H1 H2]. split; [intros i j Hj Hi; rewrite <- ET by lia; apply H1; lia|]. intros l Hl0. destruct (H2 l Hl0) as [G|(G1 & G2 & G3)]; [left; rewrite <- ET by lia; exact G|right].
    split; [intros; rewrite <- ET by lia; apply G1; lia|]. split; [intros; rewrite <- ET by lia; apply G2; lia|]. rewrite <- !ET by lia. exact G3. }
  (* the state in [d] *)
  assert (ER : forall i, 0 <= i < n -> Re' i = Re i /\ Im' i = Im i).
  { destruct Hd0 as (D1 & D2 & D3 & D4 & D5 & D6 & D7). assert (G : ed_ok (O := ROps) n Re' Im' Vt0 false (strip d)).
    { apply (strip_calls (O := ROps) n Re' Im' Vt0 d0 d Hn); auto. unfold ed_ok, strip. cbn [ed_re ed_im ed_vecs ed_sym ed_cachedV ed_cachedD ed_cachedVt].
      refine (Logic.conj D1 (Logic.conj D2 (Logic.conj D3 (Logic.conj D4 (Logic.conj D5 (Logic.conj _ D7)))))). exact Logic.I. }
    destruct G as (G1 & G2 & _). cbn [strip ed_re ed_im] in *. apply VTab_VecIs in HRe. apply VTab_VecIs in HIm. destruct G1 as [_ G1], G2 as [_ G2], HRe as [_ HRe], HIm as [_ HIm].
    cbn [ed_RealEigenvalues ed_ImagEigenvalues app] in *. intros i Hi. rewrite <- G1, <- G2, <- HRe, <- HIm by auto. auto. }
  assert (HIm' : forall i, 0 <= i < n -> Im' i = 0%R \/ (e12 < Rabs (Im' i))%R). { intros i Hi. destruct (ER i Hi) as [_ ->]. apply Hbig. auto. }
  pose proof Hsp as (S1 & _ & _).
  assert (Hdist' : forall i j, pr i = true -> pr j = true -> i <> j -> Re' i <> Re' j \/ Im' i <> Im' j).
  { intros i j Pi Pj Hij. destruct (S1 i Pi) as (I1 & I2 & _). destruct (S1 j Pj) as (J1 & J2 & _). destruct (pair_R2 n T' pr Re' Im' Hsp HT' HIm' i Pi) as (_ & _ & _ & Q & _). unfold e12 in Q. destruct (ER i ltac:(lia)) as [E1 E2]. rewrite E1, E2 in *. destruct (ER j ltac:(lia)) as [-> ->]. apply Hdist; auto; try lia. lra. }
  pose proof K as (KT & KP & _). destruct Hd0 as (D1 & D2 & D3 & D4 & D5 & D6 & D7).
  pose proof (schurVectors_ok n T' pr Re' Im' S1 (single_R1 n T' pr Re' Im' Hsp) (pair_R2 n T' pr Re' Im' Hsp HT' HIm') Hdist' (ed_re d0) (ed_im d0) (sc_T s0) (sc_P s0) P Hn D1 D2 KT KP) as W.
  rewrite Ev in W. cbn [wpe] in W. destruct W as (U & HV & HU & HU0).
  assert (Hok0 : ed_ok (O := ROps) n Re' Im' (fun j i => mvec n P (fun c => U c j) i) false d0).
  { unfold ed_ok. assert (N1 : ed_cachedV d0 = None /\ ed_cachedD d0 = None /\ ed_cachedVt d0 = None).
    { apply (gen_fresh x n A d0); auto. }
    destruct N1 as (-> & -> & ->). refine (Logic.conj D1 (Logic.conj D2 (Logic.conj HV (Logic.conj D4 (Logic.conj _ (Logic.conj _ _)))))); exact Logic.I. }
  pose proof (gen_okD n T' pr Re' Im' Hsp HT' HIm') as HokD. pose proof (ed_calls_ok (O := ROps) _ _ _ _ _ _ _ Hn HokD Hok0 Hc) as Hok.
  destruct (ed_V_ok (O := ROps) _ _ _ _ _ _ Hn Hok) as ([Vm d1] & EV & _ & MV & _). destruct (ed_D_ok (O := ROps) _ _ _ _ _ _ Hn HokD Hok) as ([Dm d2] & ED & _ & MD & _). destruct (ed_VT_ok (O := ROps) _ _ _ _ _ _ Hn Hok) as ([Wm d3] & EW & _ & MW & _).
  cbn [fst snd] in *. exists Vm, Dm, Wm, (mmul n P U), (ed_tabD (O := ROps) Re' Im'), d1, d2, d3. split; [auto|]. split; [auto|]. split; [auto|].
  split; [exact MV|]. split; [exact MD|]. split; [exact MW|].
  destruct (sc_factor x n A s0 Hl Hx Hn Hsz (near_zero n A Hs)) as (Pm & Qm & Tm2 & P2 & Q2 & T2 & c1 & c2 & c3 & G1 & _ & G3 & M1 & _ & M3 & HO & _ & HF & _); [exists s0; split; [auto|constructor]|].
  destruct (sc_P_ok (O := ROps) n T' P s0 Hn K) as ([Pm' c1'] & G1' & _ & M1' & _). rewrite G1 in G1'. injection G1' as <- <-. destruct (sc_T_ok (O := ROps) n T' P s0 Hn K) as ([Tm2' c3'] & G3' & _ & M3' & _). rewrite G3 in G3'. injection G3' as <- <-. cbn [fst] in *.
  destruct (MatIs_unique _ _ _ _ _ _ _ M1 M1') as (_ & _ & EP). destruct (MatIs_unique _ _ _ _ _ _ _ M3 M3') as (_ & _ & ET2).
  assert (HO' : orthogonal n P) by (eapply orth_ext; [exact HO|exact EP]).
  assert (HF' : (nF n (msub A (mmul n (mmul n P T') (trm P))) <= sc_tol n (nF n A))%R).
  { rewrite (nF_ext n _ (msub A (mmul n (mmul n P2 T2) (trm P2)))); [exact HF|]. intros i j Hi Hj. unfold msub. f_equal. apply (meq_mmul n n n); auto; [apply (meq_mmul n n n); apply meq_sym; [exact EP|exact ET2]|]. apply meq_tr, meq_sym. exact EP. }
  split; [|split; [|split]].
  - intros i j Hi Hj. destruct (tabD_Dd n T' pr Re' Im' Hsp HT' HIm' i j Hi Hj) as [-> ->]. destruct (ER i Hi) as [-> ->]. reflexivity.
  - intros i Hi Hpos. destruct (ER i Hi) as [E1 E2]. assert (Hp : pr i = true).
    { destruct (kinds n pr S1 i) as [[Ka Kb]|[[Ka Kb]|[Kb Ka]]]; auto.
      - destruct (single_R1 n T' pr Re' Im' Hsp i Hi Ka Kb). lra.
      - destruct (second n T' pr Re' Im' S1 (pair_R2 n T' pr Re' Im' Hsp HT' HIm') i Kb) as (_ & _ & _ & Q). unfold e12 in Q. lra. }
    destruct (S1 i Hp) as (_ & Hi' & _). destruct (pair_R2 n T' pr Re' Im' Hsp HT' HIm' i Hp) as (_ & Q1 & Q2' & _). destruct (ER (i + 1) ltac:(lia)) as [E3 E4]. rewrite <- E1, <- E2, <- E3, <- E4. auto.
  - apply (V_inj n P U HO'). { intros i Hi. apply (HU i Hi). } { intros; apply HU0; lia. }
  - intros k Hk. rewrite (Rs_ext 0 n (fun i => Rs (Z.max (i - 1) 0) n (fun j => Rabs (T i j))) (fun i => Rs (Z.max (i - 1) 0) n (fun j => Rabs (T' i j)))) by (intros i Hi; apply Rs_ext; intros j Hj; rewrite ET by lia; auto).
    apply (residual n A P T' pr U (ed_tabD (O := ROps) Re' Im') (sc_tol n (nF n A)) e12 _ Hn HO' HF'); auto.
    + unfold e12. lra.
    + apply Rmult_le_pos; [lra|]. apply Rs_nonneg; intros; apply Rs_nonneg; intros; apply Rabs_pos.
    + destruct HT'. auto.
    + intros. apply (small_sub n T' pr Re' Im' Hsp HT'); auto.
    + intros j Hj a Ha. rewrite (Rs_ext 0 n (fun k => U a k * ed_tabD (O := ROps) Re' Im' k j)%R (fun k => U a k * Dd pr Re' Im' k j)%R); [rewrite <- deps_eq; exact (proj1 (HU j Hj) a Ha)|]. intros c Hcc. destruct (tabD_Dd n T' pr Re' Im' Hsp HT' HIm' c j Hcc Hj) as [-> _]. auto.
Qed.

(** ** When there is a decomposition *)
Lemma gen_exists (x : @RealMatrix ROps) n A sc Tm T sc1 : library x -> MatIs x n n A -> 1 <= n -> ~ nearly_symmetric n A -> sc_of x sc -> sc_getT sc = Ok (Tm, sc1) -> MatIs Tm n n T ->
  if Rleb (Rs 0 n (fun i => Rs (Z.max (i - 1) 0) n (fun j => Rabs (T i j)))) (/ 1000000000000) then NewEigenDecomposition x = Err EArithmetic else exists d, NewEigenDecomposition x = Ok d.
Proof.
  intros Hl Hx Hn Hs (s0 & F0 & Hc') EgT HTm. assert (Hs' : ~ passes_symmetry (O := ROps) n A) by (intros K; apply Hs, passes_near; auto).
  destruct (sc_state x n A s0 Hl Hx Hn) as (T' & P & K & _); [exists s0; split; [auto|constructor]|]. pose proof K as (KT & KP & _).
  destruct (sc_T_ok n T' P sc Hn (sc_calls_ok _ _ _ _ _ Hn K Hc')) as ([Tm' sc1'] & EgT' & _ & HTm' & _). rewrite EgT in EgT'. injection EgT' as <- <-. cbn [fst] in HTm'.
  destruct (MatIs_unique _ _ _ _ _ _ _ HTm HTm') as (_ & _ & ET).
  destruct (gen_outcome x n A s0 T' P R_sqrt_not_neg R_zero_not_lt Hl Hx Hn Hs' F0 K) as (norm & En & W). pose proof (sc_norm_R n (sc_T s0) T' norm KT ltac:(lia) En) as Eq.
  rewrite (Rs_ext 0 n _ (fun i => Rs (Z.max (i - 1) 0) n (fun j => Rabs (T' i j)))) by (intros i Hi; apply Rs_ext; intros j Hj; rewrite ET by lia; auto). rewrite <- Eq.
  assert (Hnn : (0 <= norm)%R) by (rewrite Eq; apply Rs_nonneg; intros; apply Rs_nonneg; intros; apply Rabs_pos).
  assert (Eb : equalsWithError (O := ROps) norm fzero (eps_ed (O := ROps)) = Rleb norm (/ 1000000000000)).
  { apply eq_true_iff_eq. ro. rewrite near0_R, Rleb_true. rewrite Rabs_right by lra. unfold e12. tauto. }
  rewrite Eb in W. exact W.
Qed.

(** ** The eigenvalues are the roots of the blocks *)
Lemma gen_roots (x : @RealMatrix ROps) n A d sc : library x -> MatIs x n n A -> 1 <= n -> ~ nearly_symmetric n A -> ed_of x d -> sc_of x sc ->
  exists Tm T sc1 pr Re Im, sc_getT sc = Ok (Tm, sc1) /\ MatIs Tm n n T /\ VecIs (VArr (ed_RealEigenvalues d)) n Re /\ VecIs (VArr (ed_ImagEigenvalues d)) n Im /\
    (forall i, pr i = true -> 0 <= i /\ i + 1 < n /\ pr (i + 1) = false) /\
    (forall i, 0 <= i < n -> pr i = false -> pr (i - 1) = false -> Re i = T i i /\ Im i = 0%R /\ (i + 1 < n -> (Rabs (T (i + 1)%Z i) <= / 1000000000000)%R)) /\
    (schur_form n (/ 1000000000000) T -> forall i, pr i = true -> Re (i + 1) = Re i /\ Im (i + 1) = (- Im i)%R /\ (0 < Im i)%R /\
       (Re i * Re i - Im i * Im i - (T i i + T (i + 1)%Z (i + 1)%Z) * Re i + (T i i * T (i + 1)%Z (i + 1)%Z - T i (i + 1)%Z * T (i + 1)%Z i) = 0 /\
        2 * Re i * Im i = (T i i + T (i + 1)%Z (i + 1)%Z) * Im i)%R).
Proof.
  intros Hl Hx Hn Hs Hd Hsc. assert (Hs' : ~ passes_symmetry (O := ROps) n A) by (intros K; apply Hs, passes_near; auto).
  destruct (gen_access (O := ROps) x n A d sc R_sqrt_not_neg R_zero_not_lt Hl Hx Hn Hs' Hd Hsc) as (Tm & T & sc1 & pr & Re & Im & Vm & Wm & V & d1 & d2 & E1 & H1 & Hsp & HR & HI & _).
  exists Tm, T, sc1, pr, Re, Im. split; [auto|]. split; [auto|]. split; [auto|]. split; [auto|]. pose proof Hsp as (S1 & S2 & S3). split; [auto|]. split.
  - intros i Hi K1 K2. destruct (S2 i Hi K1 K2) as (G1 & G2 & G3). split; [auto|]. split; [auto|]. intros G. apply near0_R, G3, G.
  - intros HT i Hp. pose proof (pair_disc n T pr Re Im Hsp HT i Hp) as Hdc. destruct (S3 i Hp) as (_ & G1 & G2 & G3 & G4).
    change (@flit ROps (1 # 2)) with (Q2R (1 # 2)) in *. replace (Q2R (1 # 2)) with (/ 2)%R in * by (unfold Q2R; cbn; lra). change (@fsqrt ROps) with sqrt in *. ro.
    set (a := T i i) in *. set (e := T (i + 1) (i + 1)) in *. set (c := T (i + 1) i) in *. set (b := T i (i + 1)) in *.
    set (q := (/ 2 * (a - e) * (/ 2 * (a - e)) + c * b)%R) in *. assert (Hq : (q < 0)%R) by (unfold q; lra). rewrite Rabs_left in * by lra.
    assert (Hsq : (sqrt (- q) * sqrt (- q) = - q)%R) by (apply sqrt_sqrt; lra). assert (Hp0 : (0 < sqrt (- q))%R) by (apply sqrt_lt_R0; lra).
    rewrite G1, G2, G3, G4. split; [auto|]. split; [auto|]. split; [auto|]. split; [|lra]. replace (sqrt (- q) * sqrt (- q))%R with (- q)%R. unfold q. lra.
Qed.

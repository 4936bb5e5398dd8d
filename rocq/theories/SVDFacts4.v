(** The singular value decomposition, for arbitrary scalar operations: accessors,
    covariance, rank and solver. *)
From Coq Require Import ZArith QArith List Lia Bool Permutation.
From Verif Require Import Base BaseLemmas Wpe Scalar Vector VecSpec VectorFacts Matrix MatSpec MatFacts Array2D BlockM Diagonal DiagSpec DiagFacts RealMatrixM Array2DFacts WalkFacts MatrixOps MatHist MatProps BlockFacts RealMat2 RealMat3 TabTac FSum CholFacts LUFacts2 QRFacts Schur EigenFacts SVD SVDSpec SVDFacts SVDFacts2 SVDFacts3.
Import ListNotations.
Open Scope Z_scope.

Section SVDFacts4.
Context {O : Ops}.

Definition dcache (c : option RealMatrix) (n : Z) (S : Z -> F) : Prop := match c with None => True | Some x => library x /\ MatIs x n n (diagonal S) end.
Definition sv_ok (r c : Z) (S : Z -> F) (U V : Z -> Z -> F) (tol : F) (d : SvD) : Prop :=
  let n := Z.min r c in
  VTab (sv_s d) n S /\ sv_m d = Z.max r c /\ sv_n d = n /\
  (general (sv_cachedU d) /\ MatIs (sv_cachedU d) r n U) /\ (general (sv_cachedV d) /\ MatIs (sv_cachedV d) c n V) /\
  tcache (sv_cachedUt d) n r (fun i j => U j i) /\ tcache (sv_cachedVt d) n c (fun i j => V j i) /\ dcache (sv_cachedS d) n S /\ sv_tol d = tol.
Lemma sv_made_ok r c y d : sv_made r c y d ->
  sv_ok r c (t_S y) (sv_tabU r c y) (sv_tabV r c y) (fmax (flit (inject_Z (Z.max r c)) * t_S y 0 * eps_svd)%f (fsqrt doubleeps)) d.
Proof.
  intros (H1 & H2 & H3 & H4 & H5 & H6 & H7 & H8 & H9 & H10). unfold sv_ok. rewrite H7, H8, H9. repeat (split; [assumption|]). split; [exact I|]. split; [exact I|]. split; [exact I|]. auto.
Qed.
Ltac svok := refine (conj _ (conj _ (conj _ (conj _ (conj _ (conj _ (conj _ (conj _ _)))))))); auto; try (split; auto; fail).

Section Acc.
Variables r c : Z.
Variable S : Z -> F.
Variables U V : Z -> Z -> F.
Variable tol : F.
Hypothesis Hr : 1 <= r.
Hypothesis Hc : 1 <= c.
Let n := Z.min r c.
Local Notation ok := (sv_ok r c S U V tol).

Lemma sv_UT_ok d : ok d -> wp (sv_UT d) (fun x => general (fst x) /\ MatIs (fst x) n r (fun i j => U j i) /\ ok (snd x)).
Proof.
  intros (H1 & H2 & H3 & H4 & H5 & H6 & H7 & H8 & H9). unfold sv_UT. destruct (sv_cachedUt d) as [t|] eqn:E.
  - apply wp_ok. cbn [fst snd]. destruct H6 as [G1 G2]. refine (conj G1 (conj G2 _)). unfold sv_ok. rewrite E. svok.
  - unfold sv_U. destruct (m_Transpose_ok _ _ _ _ (proj1 H4) (proj2 H4)) as (t & -> & Gt & Ht). cbn [bind]. apply wp_ok. cbn [fst snd]. refine (conj Gt (conj Ht _)). unfold sv_ok. cbn. svok.
Qed.
Lemma sv_VT_ok d : ok d -> wp (sv_VT d) (fun x => general (fst x) /\ MatIs (fst x) n c (fun i j => V j i) /\ ok (snd x)).
Proof.
  intros (H1 & H2 & H3 & H4 & H5 & H6 & H7 & H8 & H9). unfold sv_VT. destruct (sv_cachedVt d) as [t|] eqn:E.
  - apply wp_ok. cbn [fst snd]. destruct H7 as [G1 G2]. refine (conj G1 (conj G2 _)). unfold sv_ok. rewrite E. svok.
  - unfold sv_V. destruct (m_Transpose_ok _ _ _ _ (proj1 H5) (proj2 H5)) as (t & -> & Gt & Ht). cbn [bind]. apply wp_ok. cbn [fst snd]. refine (conj Gt (conj Ht _)). unfold sv_ok. cbn. svok.
Qed.
Lemma sv_S_ok d : ok d -> wp (sv_S d) (fun x => library (fst x) /\ MatIs (fst x) n n (diagonal S) /\ ok (snd x)).
Proof.
  intros (H1 & H2 & H3 & H4 & H5 & H6 & H7 & H8 & H9). unfold sv_S. destruct (sv_cachedS d) as [t|] eqn:E.
  - apply wp_ok. cbn [fst snd]. destruct H8 as [G1 G2]. refine (conj G1 (conj G2 _)). unfold sv_ok. rewrite E. svok.
  - unfold NewRealDiagonalMatrix, NewDiagonalMatrix. cbn [liftD orpanic bind].
    assert (HD : DIs (mkDiag ([] ++ sv_s d)) n S) by exact H1. pose proof (DIs_MatIs _ _ _ HD) as HM.
    apply wp_ok. cbn [fst snd]. refine (conj I (conj HM _)). unfold sv_ok. cbn. svok.
Qed.

(** Covariance. *)
Definition cov_dim (min : F) (k : Z) : Prop := 0 <= k <= n /\ (forall i, 0 <= i < k -> fge (S i) min = true) /\ (k < n -> fge (S k) min = false).
Lemma cov_loop d min : ok d -> wp (for_brk 0 (len (sv_s d)) (fun i _ => let* x := zget (sv_s d) i in if fge x min then Ok (false, i + 1) else Ok (true, i)) 0)
  (fun x => cov_dim min (snd x)).
Proof.
  intros (H1 & _). rewrite (VTab_len _ _ _ H1). fold n. apply (wp_for_brk (fun k s => s = k /\ forall i, 0 <= i < k -> fge (S i) min = true) (cov_dim min)); try lia.
  - split; auto. intros; lia.
  - intros i s Hi [-> Hs]. vget. destruct (fge (S i) min) eqn:E; apply wp_ok; cbn [fst snd].
    + split; auto. intros j Hj. destruct (Z.eq_dec j i); subst; auto. apply Hs. lia.
    + split; [lia|]. split; auto.
  - intros s [-> Hs]. cbn [snd]. split; [lia|]. split; auto. intros; lia.
  - intros s Hs. exact Hs.
Qed.
Lemma cov_visits d p (s : vec) f cs : VTab s p S -> forall data (P : Z -> Z -> bool),
  (forall i j, In (i, j) cs -> 0 <= i < d /\ 0 <= j < p) -> d <= p ->
  RTab data d p (fun i j => if P i j then f i j / S i else fzero)%f -> 
  wp (visits (sv_covVisitor s) cs f data) (fun data' => RTab data' d p (fun i j => if (P i j || existsb (fun ab => (fst ab =? i) && (snd ab =? j))%Z cs)%bool then f i j / S i else fzero)%f).
Proof.
  intros Hs. induction cs as [|[a b] cs IH]; intros data P Hin Hd HR; cbn [visits existsb].
  - apply wp_ok. eapply RTab_ext; [exact HR|]. intros. cbn beta. rewrite orb_false_r. auto.
  - destruct (Hin a b (or_introl eq_refl)) as [Ha Hb]. cbn [mv_visit sv_covVisitor]. vget.
    destruct (RTab_set data d p _ a b (f a b / S a)%f HR Ha Hb) as (d1 & -> & H1). cbn [bind].
    eapply wp_conseq; [apply (IH d1 (fun i j => P i j || ((a =? i) && (b =? j)))); auto; [intros; apply Hin; right; auto|]|].
    + eapply RTab_ext; [exact H1|]. intros i j Hi Hj. cbn beta. unfold tset. destruct (Z.eqb_spec i a), (Z.eqb_spec j b), (Z.eqb_spec a i), (Z.eqb_spec b j); subst; try lia; cbn [andb]; rewrite ?orb_true_r, ?orb_false_r; auto.
    + intros data' H'. eapply RTab_ext; [exact H'|]. intros i j Hi Hj. cbn beta. rewrite orb_assoc. auto.
Qed.
Lemma sv_Covariance_ok d min : ok d -> exists k, cov_dim min k /\ (k = 0 -> sv_Covariance d min = Panic ETooLarge) /\
  (1 <= k -> wp (sv_Covariance d min) (fun x => general (fst x) /\ MatIs (fst x) n n (fun i j => fsum k (fun t => V i t / S t * (V j t / S t))%f) /\ ok (snd x))).
Proof.
  intros H. destruct (cov_loop d min H) as ([b k] & E & K). cbn [snd] in K. exists k. split; auto. pose proof H as (H1 & _). pose proof K as (K1 & _).
  split; intros Hk; unfold sv_Covariance; rewrite E; cbn [bind].
  - rewrite Hk. cbn [Z.eqb]. rewrite (VTab_get _ _ _ 0 H1) by lia. auto.
  - destruct (Z.eqb_spec k 0); [lia|]. rewrite (VTab_len _ _ _ H1). fold n.
    destruct (make2_spec k n ltac:(lia) ltac:(lia)) as (dt & -> & Hdt). cbn [bind].
    destruct (sv_VT_ok d H) as ([vt d'] & -> & Gt & Ht & H'). cbn [bind fst snd] in *.
    rewrite (m_WalkBounded_ok OptimizedOrder vt n c _ (sv_covVisitor (sv_s d')) 0 (k - 1) 0 (n - 1) dt (gen_lib _ Gt) Ht) by lia.
    set (cs := walk_order OptimizedOrder vt 0 (k - 1) 0 (n - 1)).
    assert (Hin : forall i j, In (i, j) cs <-> 0 <= i < k /\ 0 <= j < n).
    { intros i j. unfold cs. pose proof (walk_order_perm OptimizedOrder vt 0 (k - 1) 0 (n - 1) ltac:(lia) ltac:(lia)) as Pm. split; intros G.
      - apply (Permutation_in _ Pm) in G. apply in_row_order in G. lia.
      - apply (Permutation_in _ (Permutation_sym Pm)). apply in_row_order. lia. }
    unfold read_result. cbn [mv_start sv_covVisitor]. fold (sv_covVisitor (sv_s d')). pose proof H' as (H1' & _).
    destruct (cov_visits k n (sv_s d') (fun i j => V j i) cs H1' dt (fun _ _ => false)) as (dt' & Ev & Hdt'); [intros; apply Hin; auto|lia|exact Hdt|].
    match goal with |- context [visits ?a ?b ?e ?g] => change (visits a b e g) with (visits (sv_covVisitor (sv_s d')) cs (fun i j => V j i) dt) end. rewrite Ev. cbn [bind].
    assert (Hdt2 : RTab dt' k n (fun i j => V j i / S i)%f).
    { eapply RTab_ext; [exact Hdt'|]. intros i j Hi Hj. cbn beta. replace (existsb _ cs) with true; [auto|]. symmetry. apply existsb_exists. exists (i, j). split; [apply Hin; lia|]. rewrite !Z.eqb_refl. auto. }
    destruct (FromSlices_copy_spec dt' k n _ ltac:(lia) ltac:(lia) Hdt2) as (jv & -> & Hjv). cbn [orpanic bind].
    destruct (m_Transpose_ok (MArr jv) k n _ I Hjv) as (t & Et & Gt' & Ht'). rewrite Et. cbn [bind].
    assert (Ea : exists a, t = MArr a). { revert Et. cbn [m_Transpose]. destruct (a2_Transpose jv) as [a|?|?]; cbn; intros G; try discriminate. inversion G. eauto. }
    destruct Ea as [a ->]. destruct (m_Multiply_ok (MArr a) (MArr jv) n k n _ _ I Ht' Hjv ltac:(lia)) as (p & -> & Gp & Hp). cbn [bind]. apply wp_ok. cbn [fst snd]. split; auto.
Qed.

(** Norm, condition numbers, rank. *)
Lemma sv_Norm_ok d : ok d -> sv_Norm d = Ok (S 0) /\ sv_ConditionNumber d = Ok (S 0 / S (n - 1))%f /\ sv_InverseConditionNumber d = Ok (S (n - 1) / S 0)%f.
Proof.
  intros (H1 & _ & H3 & _). unfold sv_Norm, sv_ConditionNumber, sv_InverseConditionNumber. rewrite H3. fold n in H1, H3 |- *. rewrite (VTab_get _ _ _ 0 H1), (VTab_get _ _ _ (n - 1) H1) by lia. auto.
Qed.
Definition sv_count (p : Z -> bool) (k : Z) : Z := accum (fun i t => if p i then t + 1 else t) (Z.to_nat k) 0.
Lemma sv_Rank_ok d : ok d -> sv_Rank d = Ok (sv_count (fun i => fgt (S i) tol) n).
Proof.
  intros (H1 & _ & _ & _ & _ & _ & _ & _ & H9). unfold sv_Rank. rewrite (VTab_len _ _ _ H1). rewrite H9. unfold sv_count. fold n. apply for_accum; [lia|]. intros k s Hk. vget. auto.
Qed.

(** Solver. *)
Definition sv_inv1 (k : Z) : F := if fgt (S k) tol then (fone / S k)%f else fzero.
Lemma sv_Solver_ok d : ok d -> wp (sv_Solver d) (fun x => general (fst x) /\
  (exists m1 m2, MatIs (fst x) c r (fun i j => msum m1 m2 n (fun k => V i k * (U j k * sv_inv1 k))%f)) /\ ok (snd x)).
Proof.
  intros H. unfold sv_Solver. destruct (sv_UT_ok d H) as ([ut d'] & -> & Gu & Hu & H'). cbn [bind fst snd] in *.
  destruct (m_Data_ok ut n r _ (gen_lib _ Gu) Hu) as (z & -> & Hz). cbn [bind]. pose proof H' as (H1 & _ & _ & _ & H5 & _ & _ & _ & H9). rewrite (VTab_len _ _ _ H1). fold n. apply wp_bind.
  apply (wp_for (fun i z => RTab z n r (fun a j => if (a <? i)%Z then (U j a * sv_inv1 a)%f else U j a))); [lia| | |].
  - eapply RTab_ext; [exact Hz|]. intros. cbn beta. zbq; auto.
  - intros i z' Hi Hz'. vget. destruct (RTab_row _ _ _ _ i Hz' Hi) as (row & -> & Hrow). cbn [bind]. rewrite (VTab_len _ _ _ Hrow).
    apply (wp_rowloop (fun j => U j i * sv_inv1 i)%f z' n r _ i 0 r _ _ Hz'); try lia.
    + intros k d1 Hk Hd1. tget. unfold rowpart. rewrite H9, Z.eqb_refl. cbn [andb]. replace (k <? k) with false by (symmetry; apply Z.ltb_irrefl). rewrite andb_false_r, Z.ltb_irrefl. auto.
    + intros d1 Hd1. eapply RTab_ext; [exact Hd1|]. intros a j Ha Hj. unfold rowpart. cbn beta. zbq; subst; auto.
  - intros z' Hz'. assert (Hz2 : RTab z' n r (fun a j => U j a * sv_inv1 a)%f) by (eapply RTab_ext; [exact Hz'|]; intros; cbn beta; zbq; auto).
    destruct (FromSlices_copy_spec z' n r _ ltac:(lia) ltac:(lia) Hz2) as (mt & -> & Hmt). cbn [orpanic bind]. unfold sv_V.
    destruct (m_Multiply_ok (sv_cachedV d') (MArr mt) c n r _ _ (proj1 H5) (proj2 H5) Hmt ltac:(lia)) as (p & -> & Gp & Hp). cbn [bind]. apply wp_ok. cbn [fst snd].
    split; auto. split; auto. exists (sv_cachedV d'), (MArr mt). exact Hp.
Qed.
Lemma sv_calls_ok d d' : sv_calls d d' -> ok d -> ok d'.
Proof.
  induction 1 as [d|d d1 d2 m E _ IH|d d1 d2 m E _ IH|d d1 d2 m E _ IH|d d1 d2 mn m E _ IH|d d1 d2 m E _ IH]; intros H; auto; apply IH.
  - destruct (sv_UT_ok d H) as (x & E' & _ & _ & G). rewrite E in E'. inversion E'. subst. exact G.
  - destruct (sv_VT_ok d H) as (x & E' & _ & _ & G). rewrite E in E'. inversion E'. subst. exact G.
  - destruct (sv_S_ok d H) as (x & E' & _ & _ & G). rewrite E in E'. inversion E'. subst. exact G.
  - destruct (sv_Covariance_ok d mn H) as (k & K & K0 & K1). destruct (Z.eq_dec k 0) as [e|e]; [rewrite (K0 e) in E; discriminate|].
    destruct (K1 ltac:(destruct K; lia)) as (x & E' & _ & _ & G). rewrite E in E'. inversion E'. subst. exact G.
  - destruct (sv_Solver_ok d H) as (x & E' & _ & _ & G). rewrite E in E'. inversion E'. subst. exact G.
Qed.
End Acc.

(** A decomposition of x. *)
Lemma svd_of_ok x r c A d : library x -> MatIs x r c A -> 1 <= r -> 1 <= c -> svd_of x d ->
  exists y, svRs (Z.max r c) (Z.min r c) (sv0 (Z.max r c) (Z.min r c) (wide r c A)) y /\ t_p y = 0 /\
    sv_ok r c (t_S y) (sv_tabU r c y) (sv_tabV r c y) (fmax (flit (inject_Z (Z.max r c)) * t_S y 0 * eps_svd)%f (fsqrt doubleeps)) d.
Proof.
  intros Hl Hx Hr Hc (fuel & d0 & E & Hcalls). pose proof (sv_new_ok fuel x r c A Hl Hx Hr Hc) as K. rewrite E in K. destruct K as (y & K1 & K2 & K3).
  exists y. split; auto. split; auto. eapply sv_calls_ok; [exact Hr|exact Hc|exact Hcalls|]. apply sv_made_ok. auto.
Qed.
(** Two decompositions of x hold the same tables. *)
Lemma svd_of_two x r c A d d' : library x -> MatIs x r c A -> 1 <= r -> 1 <= c -> svd_of x d -> svd_of x d' ->
  exists S U V tol, sv_ok r c S U V tol d /\ sv_ok r c S U V tol d'.
Proof.
  intros Hl Hx Hr Hc (fuel & d0 & E & Hcalls) (fuel' & d0' & E' & Hcalls').
  assert (d0 = d0'). { destruct (Nat.le_ge_cases fuel fuel') as [L|L]; [apply (sv_new_more _ _ _ _ E) in L|apply (sv_new_more _ _ _ _ E') in L]; congruence. } subst d0'.
  pose proof (sv_new_ok fuel x r c A Hl Hx Hr Hc) as K. rewrite E in K. destruct K as (y & K1 & K2 & K3). apply sv_made_ok in K3.
  do 4 eexists. split; eapply sv_calls_ok; eauto.
Qed.
End SVDFacts4.

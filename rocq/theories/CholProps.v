(** The Cholesky properties assembled. *)
From Coq Require Import ZArith QArith List Lia Bool Reals Qreals Lra.
From Verif Require Import Base BaseLemmas Wpe Scalar Vector VecSpec VectorFacts Matrix MatSpec MatFacts Array2D BlockM Diagonal RealMatrixM Array2DFacts MatrixOps TabTac Cholesky CholSpec CholFacts LUFacts2 RealOps RSum Det Tri LUReal CholReal.
Import ListNotations.
Open Scope Z_scope.

Section AnyOps.
Context {O : Ops}.
Lemma ch_calls_ok n M d d' : 1 <= n -> ch_ok n M d -> ch_calls d d' -> ch_ok n M d'.
Proof.
  intros Hn Hd Hc. induction Hc as [d|d d1 d2 m E _ IH|d d1 d2 m E _ IH]; auto; apply IH.
  - destruct (ch_L_ok n M d Hn Hd) as ([m' d1'] & E' & _ & _ & K). rewrite E in E'. injection E' as <- <-. exact K.
  - destruct (ch_LT_ok n M d Hn Hd) as ([m' d1'] & E' & _ & _ & K & _). rewrite E in E'. injection E' as <- <-. exact K.
Qed.
Lemma ch_state m n A rel pos d d' : library m -> MatIs m n n A -> 1 <= n -> NewCholeskyDecomposition m rel pos = Ok d -> ch_calls d d' ->
  exists M, ch_done n A rel pos M /\ ch_ok n M d'.
Proof.
  intros Hl Hm Hn E Hc. pose proof (ch_new_spec m n A rel pos Hl Hm ltac:(lia)) as K. rewrite E in K. unfold wpe in K.
  destruct K as ((M & HT & HD) & Hmm & C1 & C2). exists M. split; [auto|]. eapply ch_calls_ok; eauto. unfold ch_ok. rewrite C1, C2. cbn. auto.
Qed.
(** The outcome of the constructor, in any arithmetic. *)
Lemma ch_outcome m n A rel pos : library m -> MatIs m n n A -> 1 <= n ->
  (forall i j, 0 <= i < j -> j < n -> asym rel A i j = true ->
     (forall a b, 0 <= a < b -> b < n -> a < i \/ (a = i /\ b < j) -> asym rel A a b = false) ->
     NewCholeskyDecomposition m rel pos = Err (ENonSymmetric i j)) /\
  ((forall i j, 0 <= i < j -> j < n -> asym rel A i j = false) ->
     NewCholeskyDecomposition m rel pos = Err ENonPosDef \/ exists d, NewCholeskyDecomposition m rel pos = Ok d).
Proof.
  intros Hl Hm Hn. pose proof (ch_new_spec m n A rel pos Hl Hm ltac:(lia)) as K. split.
  - intros i j Hi Hj Ha Hb. destruct (NewCholeskyDecomposition m rel pos) as [d|e|e]; unfold wpe in K; [| |destruct K].
    + destruct K as ((M & _ & Hs & _) & _). rewrite Hs in Ha by lia. discriminate.
    + destruct K as [(i' & j' & -> & Hi' & Hj' & Ha' & Hb')|(_ & Hs & _)]; [|rewrite Hs in Ha by lia; discriminate].
      destruct (Z.eq_dec i i') as [->|]; [destruct (Z.eq_dec j j') as [->|]; auto|].
      * exfalso. destruct (Z.lt_ge_cases j j'); [rewrite Hb' in Ha by (unfold before; lia)|rewrite Hb in Ha' by lia]; discriminate.
      * exfalso. destruct (Z.lt_ge_cases i i'); [rewrite Hb' in Ha by (unfold before; lia)|rewrite Hb in Ha' by lia]; discriminate.
  - intros Hs. destruct (NewCholeskyDecomposition m rel pos) as [d|e|e]; unfold wpe in K; [eauto| |destruct K].
    destruct K as [(i' & j' & -> & Hi' & Hj' & Ha' & Hb')|(-> & _)]; auto. rewrite Hs in Ha' by lia. discriminate.
Qed.
Lemma ch_any m n A rel pos d d' : library m -> MatIs m n n A -> 1 <= n -> NewCholeskyDecomposition m rel pos = Ok d -> ch_calls d d' ->
  exists Lm Tm L T d1 d2,
    ch_L d' = Ok (Lm, d1) /\ ch_LT d' = Ok (Tm, d2) /\ MatIs Lm n n L /\ MatIs Tm n n T /\
    (forall i j, 0 <= i < n -> 0 <= j < n -> L i j = T j i) /\
    (forall i j, 0 <= i < n -> 0 <= j < n -> i < j -> L i j = fzero) /\
    (forall i, 0 <= i < n -> let x := fsubs (A i i) i (fun t => L i t * L i t)%f in fle x pos = false /\ L i i = fsqrt x) /\
    (forall i j, 0 <= j < i -> i < n -> L i j = (fsubs (A j i) j (fun t => L j t * L i t) * (fone / L j j))%f) /\
    ch_Determinant d' = Ok (accum (fun i x => x * (L i i * L i i))%f (Z.to_nat n) fone).
Proof.
  intros Hl Hm Hn E Hc. destruct (ch_state m n A rel pos d d' Hl Hm Hn E Hc) as (M & (_ & I1 & I2 & _ & I4) & Hok).
  destruct (ch_L_ok n M d' Hn Hok) as ([Lm d1] & EL & _ & HL & _). destruct (ch_LT_ok n M d' Hn Hok) as ([Tm d2] & ET & _ & HT & _). cbn [fst snd] in *.
  exists Lm, Tm, (fun i j => M j i), M, d1, d2. split; [auto|]. split; [auto|]. split; [auto|]. split; [auto|]. split; [auto|]. split; [intros; apply I4; lia|].
  split; [|split].
  - intros i Hi. cbv zeta. destruct (I1 i Hi) as (x & Hx & Hp & Hs). rewrite <- Hx. auto.
  - intros i j Hj Hi. apply I2; lia.
  - apply ch_Det_ok; auto; lia.
Qed.
Lemma ch_any_solve m n A rel pos d d' : library m -> MatIs m n n A -> 1 <= n -> NewCholeskyDecomposition m rel pos = Ok d -> ch_calls d d' ->
  (forall v b, VecIs v n b -> exists r x, chs_SolveVector d' v = Ok r /\ VecIs r n x) /\
  (forall B k b, library b -> MatIs b n k B -> 1 <= k -> exists r X, chs_SolveMatrix d' b = Ok r /\ MatIs r n k X /\
     (* every column is what SolveVector gives *)
     forall c v, 0 <= c < k -> VecIs v n (fun i => B i c) -> exists r' x', chs_SolveVector d' v = Ok r' /\ VecIs r' n x' /\ forall i, 0 <= i < n -> x' i = X i c) /\
  (exists r X, chs_Inverse d' = Ok r /\ MatIs r n n X) /\
  (forall v k b, VecIs v k b -> k <> n -> panics (chs_SolveVector d' v)) /\
  (forall b r c B, MatIs b r c B -> r <> n -> panics (chs_SolveMatrix d' b)).
Proof.
  intros Hl Hm Hn E Hc. destruct (ch_state m n A rel pos d d' Hl Hm Hn E Hc) as (M & _ & Hok). pose proof Hok as (_ & Hmm & _).
  assert (U : forall b x1 x2, ch_sol n M b x1 -> ch_sol n M b x2 -> forall i, 0 <= i < n -> x1 i = x2 i).
  { intros b x1 x2 (y1 & Hy1 & Hx1) (y2 & Hy2 & Hx2).
    assert (Ey : forall i, 0 <= i < n -> y1 i = y2 i).
    { apply (Zup (fun i => y1 i = y2 i)). intros i Hi IH. rewrite Hy1, Hy2 by auto. f_equal. apply fsubs_ext. intros t Ht. rewrite IH by lia. auto. }
    apply (Zdown (fun i => x1 i = x2 i)). intros i Hi IH. rewrite Hx1, Hx2, Ey by auto. f_equal. apply fsubd_ext. intros t Ht. rewrite IH by lia. auto. }
  split; [|split; [|split; [|split]]].
  - intros v b Hv. destruct (chs_SolveVector_ok n M d' v b Hok Hv ltac:(lia)) as (r & Er & x & Hx & _). eauto.
  - intros B k b Hlb Hb Hk. destruct (chs_SolveMatrix_ok n M d' b k B Hn Hk Hok Hlb Hb) as (r & Er & X & _ & HX & HS). exists r, X. split; [auto|]. split; [auto|].
    intros c v Hcc Hv. destruct (chs_SolveVector_ok n M d' v _ Hok Hv ltac:(lia)) as (r' & Er' & x' & Hx' & HS'). exists r', x'. split; [auto|]. split; [auto|].
    apply (U _ _ _ HS' (HS c Hcc)).
  - destruct (chs_Inverse_ok n M d' Hn Hok) as (r & Er & X & _ & HX & _). eauto.
  - intros v k b Hv Hne. eapply chs_SolveVector_bad_dim; eauto. congruence.
  - intros b r c B Hb Hne. eapply chs_SolveMatrix_bad_dim; eauto. congruence.
Qed.
End AnyOps.

(** Exact arithmetic. *)
#[local] Existing Instance ROps.
Lemma ch_of_new m rel pos d : ch_of m rel pos d -> (0 <= pos)%R /\ exists d0, @NewCholeskyDecomposition ROps m rel pos = Ok d0 /\ ch_calls d0 d.
Proof.
  intros (Hp & d0 & [E|(-> & -> & E)] & Hc); (split; [auto|]); exists d0; split; auto.
Qed.
Lemma ch_of_state m n A rel pos d : library m -> MatIs m n n A -> 1 <= n -> ch_of m rel pos d ->
  (0 <= pos)%R /\ exists M, ch_done (O := ROps) n A rel pos M /\ ch_ok n M d.
Proof.
  intros Hl Hm Hn H. destruct (ch_of_new m rel pos d H) as (Hp & d0 & E & Hc). split; [auto|]. eapply ch_state; eauto.
Qed.
Lemma mirror_sym n A : symmetric n A -> meq n n (mirror A) A.
Proof.
  intros H i j Hi Hj. unfold mirror. destruct (Z.le_gt_cases i j).
  - rewrite Z.min_l, Z.max_r by lia. auto.
  - rewrite Z.min_r, Z.max_l by lia. auto.
Qed.
Lemma ch_factor_mirror m n A rel pos d : library m -> MatIs m n n A -> 1 <= n -> ch_of m rel pos d ->
  exists Lm Tm L T d1 d2, ch_L d = Ok (Lm, d1) /\ ch_LT d = Ok (Tm, d2) /\ MatIs Lm n n L /\ MatIs Tm n n T /\
    meq n n (mmul n L T) (mirror A) /\ meq n n T (trm L) /\
    (forall i j, 0 <= i < j -> j < n -> L i j = 0%R) /\ (forall i, 0 <= i < n -> (0 < L i i)%R) /\
    ch_Determinant d = Ok (det n (mirror A)).
Proof.
  intros Hl Hm Hn H. destruct (ch_of_state m n A rel pos d Hl Hm Hn H) as (Hp & M & (_ & HI) & Hok).
  destruct (ch_L_ok n M d Hn Hok) as ([Lm d1] & EL & _ & HL & _). destruct (ch_LT_ok n M d Hn Hok) as ([Tm d2] & ET & _ & HT & _). cbn [fst snd] in *.
  exists Lm, Tm, (fun i j => M j i), M, d1, d2. split; [auto|]. split; [auto|]. split; [auto|]. split; [auto|].
  split; [exact (cd_gram n A pos M Hp HI)|]. split; [intros i j _ _; reflexivity|].
  split; [intros i j Hi Hj; apply (cd_low n A pos M HI); lia|]. split; [intros i Hi; apply (cd_diag n A pos M Hp HI); lia|].
  rewrite (ch_Det_ok n M d ltac:(lia) Hok). f_equal. rewrite (cd_det n A pos M ltac:(lia) Hp HI).
  change (accum (fun i x => (x * (M i i * M i i))%R) (Z.to_nat n) 1%R = Rprod 0 n (fun i => M i i * M i i)%R). rewrite accum_prod_R by lia. ring.
Qed.
Lemma ch_factorisation m n A rel pos d : library m -> MatIs m n n A -> 1 <= n -> symmetric n A -> ch_of m rel pos d ->
  exists Lm Tm L T d1 d2, ch_L d = Ok (Lm, d1) /\ ch_LT d = Ok (Tm, d2) /\ MatIs Lm n n L /\ MatIs Tm n n T /\
    meq n n (mmul n L T) A /\ meq n n T (trm L) /\
    (forall i j, 0 <= i < j -> j < n -> L i j = 0%R) /\ (forall i, 0 <= i < n -> (0 < L i i)%R) /\
    ch_Determinant d = Ok (det n A).
Proof.
  intros Hl Hm Hn Hs H. destruct (ch_factor_mirror m n A rel pos d Hl Hm Hn H) as (Lm & Tm & L & T & d1 & d2 & H1 & H2 & H3 & H4 & H5 & H6 & H7 & H8 & H9).
  exists Lm, Tm, L, T, d1, d2. do 4 (split; [auto|]). split; [eapply meq_trans; [exact H5|apply mirror_sym; auto]|]. do 3 (split; [auto|]).
  rewrite H9. f_equal. apply det_ext. apply mirror_sym. auto.
Qed.
Lemma asym_sym n A rel i j : symmetric n A -> (0 <= rel)%R -> 0 <= i < n -> 0 <= j < n -> asym (O := ROps) rel A i j = false.
Proof.
  intros Hs Hr Hi Hj. unfold asym, fgt. cbn. apply Rltb_false. rewrite (Hs j i) by auto. replace (A i j - A i j)%R with 0%R by ring. rewrite Rabs_R0.
  apply Rmult_le_pos; auto. eapply Rle_trans; [apply Rabs_pos|apply Rmax_l].
Qed.
Lemma ch_accepts m n A rel pos : library m -> MatIs m n n A -> 1 <= n -> symmetric n A -> (0 <= rel)%R -> (0 <= pos)%R ->
  ((forall k x, 0 <= k < n -> x k = 1%R -> (forall j, k < j < n -> x j = 0%R) -> (pos < quad n A x)%R) ->
     exists d, @NewCholeskyDecomposition ROps m rel pos = Ok d) /\
  ((exists k x, 0 <= k < n /\ x k = 1%R /\ (forall j, k < j < n -> x j = 0%R) /\ (quad n A x <= pos)%R) ->
     @NewCholeskyDecomposition ROps m rel pos = Err ENonPosDef).
Proof.
  intros Hl Hm Hn Hs Hr Hp. pose proof (ch_new_spec m n A rel pos Hl Hm ltac:(lia)) as K.
  assert (Q : forall x, quad n (mirror A) x = quad n A x) by (intros; apply quad_ext; auto; apply mirror_sym; auto). split.
  - intros H. destruct (NewCholeskyDecomposition m rel pos) as [d|e|e]; unfold wpe in K; [eauto| |destruct K]. exfalso.
    destruct K as [(i & j & _ & Hi & Hj & Ha & _)|(_ & _ & k & M & Hk & HI & Hf)].
    + rewrite (asym_sym n) in Ha by (auto; lia). discriminate.
    + apply Rleb_true in Hf. destruct (ci_witness n A pos M k Hp Hk HI Hf) as (x & X1 & X0 & Hq). rewrite Q in Hq. specialize (H k x Hk X1 X0). lra.
  - intros (k & x & Hk & X1 & X0 & Hq). destruct (NewCholeskyDecomposition m rel pos) as [d|e|e]; unfold wpe in K; [| |destruct K].
    + exfalso. destruct K as ((M & _ & _ & HI) & _). pose proof (cd_above n A pos M Hp HI k x Hk X1 X0) as C. rewrite Q in C. lra.
    + destruct K as [(i & j & _ & Hi & Hj & Ha & _)|(-> & _)]; auto. rewrite (asym_sym n) in Ha by (auto; lia). discriminate.
Qed.
Lemma ch_definite m n A rel pos d : library m -> MatIs m n n A -> 1 <= n -> symmetric n A -> ch_of m rel pos d ->
  forall x, (exists i, 0 <= i < n /\ x i <> 0%R) -> (0 < quad n A x)%R.
Proof.
  intros Hl Hm Hn Hs H x Hx. destruct (ch_of_state m n A rel pos d Hl Hm Hn H) as (Hp & M & (_ & HI) & _).
  rewrite <- (quad_ext n (mirror A) A x x) by (auto; apply mirror_sym; auto). apply (cd_definite n A pos M Hp HI). auto.
Qed.
Lemma ch_accepts_definite m n A rel pos c : library m -> MatIs m n n A -> 1 <= n -> symmetric n A -> (0 <= rel)%R -> (0 <= pos < c)%R ->
  (forall x, (c * dot n x x <= quad n A x)%R) -> exists d, @NewCholeskyDecomposition ROps m rel pos = Ok d.
Proof.
  intros Hl Hm Hn Hs Hr Hp H. apply (ch_accepts m n A rel pos Hl Hm Hn Hs Hr); [lra|]. intros k x Hk X1 _.
  assert (1 <= dot n x x)%R. { unfold dot. replace 1%R with (x k * x k)%R by (rewrite X1; ring). apply (Rs_term 0 n (fun i => x i * x i)%R); auto. intros. apply Rle_0_sqr. }
  specialize (H x). assert (c * 1 <= c * dot n x x)%R by (apply Rmult_le_compat_l; lra). lra.
Qed.

(** The solver. *)
Lemma ch_solve_vector m n A rel pos d v b : library m -> MatIs m n n A -> 1 <= n -> symmetric n A -> ch_of m rel pos d -> VecIs v n b ->
  exists r x, chs_SolveVector d v = Ok r /\ VecIs r n x /\ (forall i, 0 <= i < n -> mvec n A x i = b i) /\
    forall x', (forall i, 0 <= i < n -> mvec n A x' i = b i) -> forall i, 0 <= i < n -> x' i = x i.
Proof.
  intros Hl Hm Hn Hs H Hv. destruct (ch_of_state m n A rel pos d Hl Hm Hn H) as (Hp & M & (_ & HI) & Hok).
  destruct (chs_SolveVector_ok n M d v b Hok Hv ltac:(lia)) as (r & Er & x & Hx & HS). exists r, x. split; [auto|]. split; [auto|].
  assert (Ex : forall i, 0 <= i < n -> mvec n A x i = b i).
  { intros i Hi. rewrite <- (cd_solve n A pos M Hp HI b x HS i Hi). apply mvec_ext; auto. intros. symmetry. apply mirror_sym with (n := n); auto. }
  split; [auto|]. intros x' Hx' i Hi.
  assert (K : (x' i - x i)%R = 0%R); [|lra]. apply (cd_inj n A pos M Hp HI (fun t => x' t - x t)%R); auto. intros j Hj.
  rewrite (mvec_ext n (mirror A) A _ (fun t => x' t - x t)%R) by (auto; intros; apply mirror_sym with (n := n); auto).
  unfold mvec. rewrite (Rs_ext 0 n _ (fun t => A j t * x' t - A j t * x t)%R) by (intros; ring). rewrite Rs_minus.
  specialize (Hx' j Hj). specialize (Ex j Hj). unfold mvec in *. rewrite Hx', Ex. ring.
Qed.
Lemma ch_solve_matrix m n A rel pos d b k B : library m -> MatIs m n n A -> 1 <= n -> 1 <= k -> symmetric n A -> ch_of m rel pos d -> library b -> MatIs b n k B ->
  exists r X, chs_SolveMatrix d b = Ok r /\ MatIs r n k X /\ meq n k (mmul n A X) B.
Proof.
  intros Hl Hm Hn Hk Hs H Hlb Hb. destruct (ch_of_state m n A rel pos d Hl Hm Hn H) as (Hp & M & (_ & HI) & Hok).
  destruct (chs_SolveMatrix_ok n M d b k B Hn Hk Hok Hlb Hb) as (r & Er & X & _ & HX & HS). exists r, X. split; [auto|]. split; [auto|].
  intros i c Hi Hc. rewrite <- (cd_solve n A pos M Hp HI _ _ (HS c Hc) i Hi). apply Rs_ext. intros t Ht. rewrite (mirror_sym n A Hs) by auto. auto.
Qed.
Lemma ch_inverse m n A rel pos d : library m -> MatIs m n n A -> 1 <= n -> symmetric n A -> ch_of m rel pos d ->
  exists r X, chs_Inverse d = Ok r /\ MatIs r n n X /\ meq n n (mmul n A X) idm /\ meq n n (mmul n X A) idm.
Proof.
  intros Hl Hm Hn Hs H. destruct (ch_of_state m n A rel pos d Hl Hm Hn H) as (Hp & M & (_ & HI) & Hok).
  destruct (chs_Inverse_ok n M d Hn Hok) as (r & Er & X & _ & HX & HS). exists r, X. split; [auto|]. split; [auto|].
  assert (E : meq n n (mmul n A X) idm).
  { intros i c Hi Hc. transitivity (mvec n (mirror A) (fun t => X t c) i).
    - apply Rs_ext. intros t Ht. rewrite (mirror_sym n A Hs) by auto. auto.
    - rewrite (cd_solve n A pos M Hp HI _ _ (HS c Hc) i Hi). reflexivity. }
  split; [auto|]. apply inverse_left; auto. intros w Hw. apply (cd_inj n A pos M Hp HI). intros i Hi. rewrite <- (Hw i Hi). apply mvec_ext; auto.
  intros. apply mirror_sym with (n := n); auto.
Qed.

(** Proofs of the diagonal-matrix properties. *)
From Coq Require Import ZArith List Lia Bool Floats.SpecFloat.
From Verif Require Import Base BaseLemmas Scalar Vector VecSpec VectorFacts Matrix Array2D BlockM Diagonal RealMatrixM MatSpec MatFacts Array2DFacts DiagFacts HistSpec MatHist DiagSpec DiagFacts2 DiagFacts3 Float64 Float64Facts Float64Facts2.
Import ListNotations.
Open Scope Z_scope.

Section DiagProps.
Context {O : Ops}.
(** The call returns a DiagonalMatrix with this diagonal. *)
Definition gives_diag (x : res RealMatrix) (n : Z) (g : Z -> F) : Prop := exists m, x = Ok m /\ DiagIs m n g.
Lemma gives_liftD x n g : wp x (fun d => DIs d n g) -> gives_diag (liftD x) n g.
Proof. intros (d & -> & H). exists (MDiag d). split; auto. apply DIs_DiagIs. auto. Qed.
Lemma liftD_panics x : panics x -> panics (liftD x).
Proof. intros [e ->]. exists e. reflexivity. Qed.

Lemma diag_entries os m n g : DiagIs m n g ->
  DiagIs (fst (e_run m os)) n (fst (de_table n g os)) /\ snd (e_run m os) = snd (de_table n g os).
Proof.
  intros H. destruct (DiagIs_inv _ _ _ H) as (d & -> & Hd). destruct (e_run_diag os d n g Hd) as (d' & -> & H' & E).
  split; auto. apply DIs_DiagIs. auto.
Qed.
Lemma diag_histories os m n g m' : DiagIs m n g -> Forall wf_op os -> o_run m os = Ok m' ->
  exists n' g', DiagIs m' n' g' /\ forall k h, d_tables n g os = Some (k, h) -> k = n' /\ forall i, 0 <= i < k -> g' i = h i.
Proof.
  intros H Hw E. destruct (DiagIs_inv _ _ _ H) as (d & -> & Hd). destruct (o_run_after os d n g m' Hd Hw E) as (d' & n' & g' & -> & H' & Hk).
  exists n', g'. split; auto. apply DIs_DiagIs. auto.
Qed.
Lemma diag_new :
  (forall n, 1 <= n -> gives_diag (liftD (NewDiagonalMatrixWithDimension n)) n (fun _ => fzero)) /\
  (forall n, n < 1 -> rejects (liftD (NewDiagonalMatrixWithDimension n))) /\
  (forall v b, gives_diag (liftD (NewDiagonalMatrix (Some v) b)) (len v) (nthZ v)) /\
  (forall v, gives_diag (liftD (NewDiagonalMatrixFromSlice (Some v))) (len v) (nthZ v)) /\
  (forall b, rejects (liftD (NewDiagonalMatrix None b))).
Proof.
  split; [|split; [|split; [|split]]].
  - intros n Hn. apply gives_liftD. apply NewDiagonalMatrixWithDimension_spec. auto.
  - intros n Hn. unfold NewDiagonalMatrixWithDimension. destruct (Z.ltb_spec n 1); [|lia]. eexists. right. reflexivity.
  - intros v b. apply gives_liftD. apply NewDiagonalMatrix_spec. split; auto.
  - intros v. apply gives_liftD. apply NewDiagonalMatrix_spec. split; auto.
  - intros b. eexists. right. reflexivity.
Qed.

Lemma diag_transpose m n g : zero_like fzero -> DiagIs m n g -> gives_diag (m_Transpose m) n g.
Proof.
  intros Hz H. destruct (DiagIs_inv _ _ _ H) as (d & -> & Hd). cbn [m_Transpose]. apply gives_liftD. apply d_Transpose_spec; auto.
Qed.
Lemma diag_add m p n g h : DiagIs m n g -> DiagIs p n h ->
  gives_diag (m_Add m p) n (fun i => (g i + h i)%f) /\ gives_diag (m_Subtract m p) n (fun i => (g i - h i)%f).
Proof.
  intros H H'. destruct (DiagIs_inv _ _ _ H) as (d & -> & Hd). destruct (DiagIs_inv _ _ _ H') as (d' & -> & Hd').
  split; cbn [m_Add m_Subtract]; apply gives_liftD; [apply d_Add_diag_spec|apply d_Subtract_diag_spec]; auto.
Qed.
Lemma diag_add_other m p n g f : DiagIs m n g -> MatIs p n n f -> 1 <= n -> (forall d, p <> MDiag d) ->
  ((forall i j, 0 <= i < n -> 0 <= j < n -> i <> j -> zero_like (fzero + f i j)%f) ->
    gives_diag (m_Add m p) n (fun i => (g i + f i i)%f)) /\
  (forall i j, 0 <= i < n -> 0 <= j < n -> i <> j -> ~ zero_like (fzero + f i j)%f -> panics (m_Add m p)) /\
  ((forall i j, 0 <= i < n -> 0 <= j < n -> i <> j -> zero_like (fzero - f i j)%f) ->
    gives_diag (m_Subtract m p) n (fun i => (g i - f i i)%f)) /\
  (forall i j, 0 <= i < n -> 0 <= j < n -> i <> j -> ~ zero_like (fzero - f i j)%f -> panics (m_Subtract m p)).
Proof.
  intros H Hp Hn Hnd. destruct (DiagIs_inv _ _ _ H) as (d & -> & Hd). cbn [m_Add m_Subtract].
  destruct (d_Add_other_spec d p n g f Hd Hp Hn Hnd) as [A1 A2]. destruct (d_Subtract_other_spec d p n g f Hd Hp Hn Hnd) as [S1 S2].
  split; [intros; apply gives_liftD; auto|]. split; [intros; apply liftD_panics; eauto|].
  split; [intros; apply gives_liftD; auto|]. intros; apply liftD_panics; eauto.
Qed.
Lemma diag_scalar m n g x : DiagIs m n g -> 1 <= n ->
  (n = 1 \/ zero_like (fzero * x)%f -> gives_diag (m_ScalarMultiply m x) n (fun i => (g i * x)%f)) /\
  (2 <= n -> ~ zero_like (fzero * x)%f -> panics (m_ScalarMultiply m x)) /\
  (n = 1 \/ zero_like (fzero + x)%f -> gives_diag (m_ScalarAdd m x) n (fun i => (g i + x)%f)) /\
  (2 <= n -> ~ zero_like (fzero + x)%f -> panics (m_ScalarAdd m x)).
Proof.
  intros H Hn. destruct (DiagIs_inv _ _ _ H) as (d & -> & Hd). cbn [m_ScalarMultiply m_ScalarAdd].
  split; [intros; apply gives_liftD; apply d_ScalarMultiply_spec; auto|].
  split; [intros; apply liftD_panics; eapply d_ScalarMultiply_panics; eauto|].
  split; [intros; apply gives_liftD; apply d_ScalarAdd_spec; auto|].
  intros; apply liftD_panics; eapply d_ScalarAdd_panics; eauto.
Qed.
Lemma diag_submatrix m n g r0 r1 c0 c1 : zero_like fzero -> DiagIs m n g ->
  (0 <= r0 <= r1 -> r1 < n -> r0 = c0 -> r1 = c1 -> gives_diag (m_SubMatrix m r0 r1 c0 c1) (r1 - r0 + 1) (fun i => g (r0 + i))) /\
  (r1 - r0 <> c1 - c0 -> panics (m_SubMatrix m r0 r1 c0 c1)) /\
  (r0 <> c0 -> forall k, r0 <= k <= r1 -> c0 <= k <= c1 -> 0 <= k < n -> ~ zero_like (g k) -> panics (m_SubMatrix m r0 r1 c0 c1)) /\
  (~ (0 <= r0 <= r1 /\ r1 < n /\ 0 <= c0 <= c1 /\ c1 < n) -> panics (m_SubMatrix m r0 r1 c0 c1)).
Proof.
  intros Hz H. destruct (DiagIs_inv _ _ _ H) as (d & -> & Hd). cbn [m_SubMatrix].
  split; [|split; [|split]].
  - intros Hr Hr1 <- <-. apply gives_liftD. eapply wp_conseq; [apply (d_SubMatrix_spec d n g r0 r1 r0 r1); auto; lia|].
    cbn beta. intros d' H'. eapply DIs_ext; eauto. intros i Hi. cbn beta. apply dg_same.
  - intros E. apply liftD_panics. unfold d_SubMatrix. destruct (Z.eqb_spec (r1 - r0 + 1) (c1 - c0 + 1)); [lia|]. eexists; reflexivity.
  - intros Hne k Hk1 Hk2 Hk Hzk. apply liftD_panics.
    destruct (Z_lt_le_dec r0 0); [eapply d_SubMatrix_bad; eauto; lia|].
    destruct (Z_lt_le_dec c0 0); [eapply d_SubMatrix_bad; eauto; lia|].
    destruct (Z_le_gt_dec n r1); [eapply d_SubMatrix_bad; eauto; lia|].
    destruct (Z_le_gt_dec n c1); [eapply d_SubMatrix_bad; eauto; lia|].
    apply (proj2 (proj2 (d_SubMatrix_spec d n g r0 r1 c0 c1 Hd Hz ltac:(lia) ltac:(lia) ltac:(lia) ltac:(lia))) Hne k); auto.
  - intros Hb. apply liftD_panics. eapply d_SubMatrix_bad; eauto.
Qed.
Lemma diag_setsub m n g s row column : DiagIs m n g -> good s -> fits s row column n n ->
  ((forall i j, 0 <= i < len s -> 0 <= j < len (nthZ s 0) -> row + i <> column + j -> zero_like (nthZ (nthZ s i) j)) ->
   gives_diag (m_SetSubMatrix m (Some s) row column) n (fun i =>
     if (row <=? i) && (i <? row + len s) && (column <=? i) && (i <? column + len (nthZ s 0))
     then nthZ (nthZ s (i - row)) (i - column) else g i)) /\
  (forall i j, 0 <= i < len s -> 0 <= j < len (nthZ s 0) -> row + i <> column + j -> ~ zero_like (nthZ (nthZ s i) j) ->
     panics (m_SetSubMatrix m (Some s) row column)).
Proof.
  intros H Hg (F1 & F2 & F3 & F4). destruct (DiagIs_inv _ _ _ H) as (d & -> & Hd). cbn [m_SetSubMatrix].
  pose proof Hg as (G1 & G2 & _). pose proof (good_RTab s Hg) as (_ & _ & HT).
  destruct (d_SetSub_spec d n g s row column (len s) (len (nthZ s 0)) (fun i j => nthZ (nthZ s i) j) Hd HT G1 G2 F1 F2 F3 F4) as [A B].
  split; [intros; apply gives_liftD; auto|intros; apply liftD_panics; eauto].
Qed.
Lemma diag_rows m n g k : DiagIs m n g -> 0 <= k < n ->
  wp (m_RowAt m k) (fun v => VecIs (VArr v) n (diagonal g k)) /\
  wp (m_ColumnAt m k) (fun v => VecIs (VArr v) n (fun i => diagonal g i k)) /\
  wp (m_RowVectorAt m k) (fun v => VecIs v n (diagonal g k)) /\
  wp (m_ColumnVectorAt m k) (fun v => VecIs v n (fun i => diagonal g i k)).
Proof.
  intros H Hk. destruct (DiagIs_inv _ _ _ H) as (d & -> & Hd).
  cbn [m_RowAt m_ColumnAt m_RowVectorAt m_ColumnVectorAt].
  split; [eapply wp_conseq; [apply (d_RowAt_spec d n g k); auto|]; cbn beta; intros v Hv; apply VTab_VecIs; exact Hv|].
  split; [eapply wp_conseq; [apply (d_ColumnAt_spec d n g k); auto|]; cbn beta; intros v Hv; apply VTab_VecIs; exact Hv|].
  split; [unfold d_RowVectorAt; wpb; eapply wp_conseq; [apply (d_RowAt_spec d n g k); auto|]; cbn beta; intros v Hv; apply wp_ok; apply VTab_VecIs; exact Hv|].
  unfold d_ColumnVectorAt; wpb; eapply wp_conseq; [apply (d_ColumnAt_spec d n g k); auto|]; cbn beta; intros v Hv; apply wp_ok; apply VTab_VecIs; exact Hv.
Qed.
Lemma diag_set_lines m n g k v : DiagIs m n g -> 0 <= k < n -> len v = n ->
  ((forall i, 0 <= i < n -> i <> k -> zero_like (nthZ v i)) ->
    gives_diag (m_SetRow m k v) n (fun i => if i =? k then nthZ v k else g i) /\
    gives_diag (m_SetColumn m k v) n (fun i => if i =? k then nthZ v k else g i)) /\
  (forall i, 0 <= i < n -> i <> k -> ~ zero_like (nthZ v i) -> panics (m_SetRow m k v) /\ panics (m_SetColumn m k v)).
Proof.
  intros H Hk Hl. destruct (DiagIs_inv _ _ _ H) as (d & -> & Hd). assert (Hv : VTab v n (nthZ v)) by (split; auto).
  cbn [m_SetRow m_SetColumn].
  destruct (d_SetRow_spec d n g k v _ Hd Hk Hv) as [A B]. destruct (d_SetColumn_spec d n g k v _ Hd Hk Hv) as [C D].
  split; [intros; split; apply gives_liftD; auto|intros; split; apply liftD_panics; eauto].
Qed.

(** ** Products *)
Lemma diag_product m n g : DiagIs m n g ->
  (forall p h, DiagIs p n h -> gives_diag (m_Multiply m p) n (fun i => (g i * h i)%f)) /\
  (forall p c f, 1 <= n -> 1 <= c -> MatIs p n c f -> (forall d, p <> MDiag d) ->
     gives (m_Multiply m p) n c (fun i j => (g i * f i j)%f)).
Proof.
  intros H. destruct (DiagIs_inv _ _ _ H) as (d & -> & Hd). split.
  - intros p h H'. destruct (DiagIs_inv _ _ _ H') as (d' & -> & Hd'). cbn [m_Multiply].
    destruct (d_Multiply_diag_spec d d' n g h Hd Hd') as (r & -> & d2 & -> & H2). exists (MDiag d2). split; auto. apply DIs_DiagIs; auto.
  - intros p c f Hn Hc Hp Hnd. cbn [m_Multiply]. destruct (d_Multiply_other_spec d p n c g f Hd Hp Hn Hc Hnd) as (r & -> & a & -> & H2).
    exists (MArr a). split; auto. split; [exact I|auto].
Qed.
Lemma diag_operate m n g v h : DiagIs m n g -> VecIs (VArr v) n h ->
  wp (m_Operate m v) (fun out => VecIs (VArr out) n (fun i => (g i * h i)%f)) /\
  wp (m_PreMultiply m v) (fun out => VecIs (VArr out) n (fun i => (g i * h i)%f)) /\
  wp (m_OperateVector m (VArr v)) (fun out => VecIs out n (fun i => (g i * h i)%f)) /\
  wp (m_PreMultiplyVector m (VArr v)) (fun out => VecIs out n (fun i => (g i * h i)%f)).
Proof.
  intros H Hv. destruct (DiagIs_inv _ _ _ H) as (d & -> & Hd). cbn [m_Operate m_PreMultiply m_OperateVector m_PreMultiplyVector].
  split; [apply d_Operate_spec; auto|]. split; [apply d_Operate_spec; auto|].
  split; [apply d_OperateVector_arr; auto|apply d_PreMultiplyVector_spec; auto].
Qed.
Lemma diag_inverse d n g t : DiagIs (MDiag d) n g ->
  ((forall i, 0 <= i < n -> equalsWithError (g i) fzero t = false) ->
    gives_diag (liftD (d_InverseWithThreshold d t)) n (fun i => (fone / g i)%f)) /\
  (forall i, 0 <= i < n -> equalsWithError (g i) fzero t = true -> panics (d_InverseWithThreshold d t)).
Proof.
  intros H. apply DIs_DiagIs in H. destruct (d_Inverse_spec d n g t H) as [A B]. split.
  - intros Hi. apply gives_liftD. auto.
  - intros i Hi E. rewrite B by eauto. eexists; reflexivity.
Qed.
Lemma foreign_vectors m n g v h : DiagIs m n g -> VecIs (VOther v) n h ->
  wp (m_OperateVector m (VOther v)) (fun out => VecIs out n (fun i => fsum n (fun k => (diagonal g i k * h k)%f))) /\
  wp (m_PreMultiplyVector m (VOther v)) (fun out => VecIs out n (fun i => (g i * h i)%f)).
Proof.
  intros H Hv. destruct (DiagIs_inv _ _ _ H) as (d & -> & Hd). cbn [m_OperateVector m_PreMultiplyVector].
  split; [apply d_OperateVector_other; auto|apply d_PreMultiplyVector_spec; auto].
Qed.
End DiagProps.

(** ** On float64 *)
Definition sf_finite (x : sf) : bool := match x with S754_zero _ | S754_finite _ _ _ => true | _ => false end.
Lemma sf_zero_like c x : 1 < c -> sf_valid x = true -> (@zero_like (SFOps c) x <-> x = S754_zero false).
Proof. intros. unfold zero_like. apply ulp_zero; auto. Qed.
Lemma ulp_nan c x : equalsWithULP c x S754_nan 1 = false.
Proof. unfold equalsWithULP. apply andb_false_r. Qed.
Lemma zero_like_mul c x : 1 < c -> (@zero_like (SFOps c) (sf_mul sf_zero x) <-> sf_finite x = true /\ sf_signbit x = false).
Proof.
  intros Hc. destruct x as [s|s| |s m e].
  - replace (sf_mul sf_zero (S754_zero s)) with (S754_zero s) by (destruct s; reflexivity). rewrite sf_zero_like by auto. destruct s; cbn; intuition discriminate.
  - change (sf_mul sf_zero (S754_infinity s)) with S754_nan. unfold zero_like. change (@fulp1 (SFOps c) fzero S754_nan) with (equalsWithULP c sf_zero S754_nan 1).
    rewrite ulp_nan. cbn; intuition discriminate.
  - change (sf_mul sf_zero S754_nan) with S754_nan. unfold zero_like. change (@fulp1 (SFOps c) fzero S754_nan) with (equalsWithULP c sf_zero S754_nan 1).
    rewrite ulp_nan. cbn; intuition discriminate.
  - replace (sf_mul sf_zero (S754_finite s m e)) with (S754_zero s) by (destruct s; reflexivity). rewrite sf_zero_like by auto. destruct s; cbn; intuition discriminate.
Qed.
Lemma diag_scale_ok c m n g x : 1 < c -> @DiagIs (SFOps c) m n g -> 1 <= n ->
  n = 1 \/ sf_finite x = true /\ sf_signbit x = false ->
  @gives_diag (SFOps c) (@m_ScalarMultiply (SFOps c) m x) n (fun i => sf_mul (g i) x).
Proof.
  intros Hc H Hn Hx. apply (@diag_scalar (SFOps c) m n g x H Hn). destruct Hx as [Hx|Hx]; auto. right. apply zero_like_mul; auto.
Qed.
Lemma diag_scale_bad c m n g x : 1 < c -> @DiagIs (SFOps c) m n g -> 2 <= n ->
  ~ (sf_finite x = true /\ sf_signbit x = false) -> panics (@m_ScalarMultiply (SFOps c) m x).
Proof.
  intros Hc H Hn Hx. apply (@diag_scalar (SFOps c) m n g x H ltac:(lia)); auto. intros Hz. apply Hx. apply (zero_like_mul c); auto.
Qed.

(** The DiagonalMatrix operations: when exactly they succeed. *)
From Coq Require Import ZArith List Lia Bool.
From Verif Require Import Base BaseLemmas Scalar Vector VecSpec VectorFacts Matrix Array2D BlockM Diagonal RealMatrixM MatSpec MatFacts Array2DFacts DiagFacts HistSpec MatHist DiagSpec DiagFacts2.
Import ListNotations.
Open Scope Z_scope.

Section DiagFacts3.
Context {O : Ops}.

(** Writing a table through a shift: success when what falls off the diagonal is zero. *)
Lemma sgrid_ok d0 n g r0 r1 c0 c1 (pi pj : Z -> Z) (val : Z -> Z -> F) (body : Z -> Z -> Diag -> res Diag) :
  DIs d0 n g ->
  (forall i j d, r0 <= i < r1 -> c0 <= j < c1 -> body i j d = d_SetEntry d (pi i) (pj j) (val i j)) ->
  (forall i j, r0 <= i < r1 -> c0 <= j < c1 -> pi i = pj j -> 0 <= pi i < n) ->
  (forall i j, r0 <= i < r1 -> c0 <= j < c1 -> pi i <> pj j -> zlike (val i j)) ->
  wp (for_ r0 r1 (fun i d => for_ c0 c1 (fun j d => body i j d) d) d0) (fun d => exists g, DIs d n g).
Proof.
  intros H0 Hb Hin Hz.
  assert (Step : forall i j d, r0 <= i < r1 -> c0 <= j < c1 -> (exists g, DIs d n g) -> wp (body i j d) (fun d => exists g, DIs d n g)).
  { intros i j d Hi Hj [g' Hd]. rewrite Hb by auto. destruct (Z.eq_dec (pi i) (pj j)) as [E|N].
    - rewrite <- E. destruct (d_Set_on d n g' (pi i) (val i j) Hd (Hin i j Hi Hj E)) as (d' & -> & H'). apply wp_ok. eauto.
    - rewrite d_Set_off by auto. apply wp_ok. eauto. }
  destruct (Z_lt_le_dec r0 r1) as [Hr|Hr]; [|rewrite for_nil by lia; apply wp_ok; eauto].
  apply (wp_for (fun _ d => exists g, DIs d n g)); try lia; eauto.
  intros i d Hi Hd. destruct (Z_lt_le_dec c0 c1) as [Hc|Hc]; [|rewrite for_nil by lia; apply wp_ok; eauto].
  apply (wp_for (fun _ d => exists g, DIs d n g)); try lia; eauto.
Qed.
Lemma d_Set_any d n g i j v : DIs d n g ->
  wp (d_SetEntry d i j v) (fun d => exists g, DIs d n g) \/ panics (d_SetEntry d i j v).
Proof.
  intros H. destruct (d_SetEntry d i j v) as [d'|e|e] eqn:E.
  - left. apply wp_ok. apply (d_SetEntry_if d n g) in E; auto. eauto.
  - exfalso. unfold d_SetEntry in E. destruct (i =? j); [unfold checkRowIndex in E|unfold ensureZero in E];
      repeat (match type of E with context [if ?b then _ else _] => destruct b end; cbn [orpanic bind] in E); try discriminate.
    unfold zset in E. destruct (inb i (len (d_data d))); discriminate.
  - right. eexists; eauto.
Qed.
Lemma sgrid_panics d0 n g r0 r1 c0 c1 (pi pj : Z -> Z) (val : Z -> Z -> F) (body : Z -> Z -> Diag -> res Diag) i j :
  DIs d0 n g ->
  (forall i j d, r0 <= i < r1 -> c0 <= j < c1 -> body i j d = d_SetEntry d (pi i) (pj j) (val i j) \/ panics (body i j d)) ->
  r0 <= i < r1 -> c0 <= j < c1 ->
  (forall d, (exists g, DIs d n g) -> panics (body i j d)) ->
  panics (for_ r0 r1 (fun i d => for_ c0 c1 (fun j d => body i j d) d) d0).
Proof.
  intros H0 Hb Hi Hj Hp.
  assert (Step : forall i j d, r0 <= i < r1 -> c0 <= j < c1 -> (exists g, DIs d n g) ->
     wp (body i j d) (fun d => exists g, DIs d n g) \/ panics (body i j d)).
  { intros a b d Ha Hb' [g' Hd]. destruct (Hb a b d Ha Hb') as [->|]; auto. eapply d_Set_any; eauto. }
  apply for_panics with (P := fun d => exists g, DIs d n g) (i := i); eauto.
  - intros k d Hk Hd. apply for_ok_or_panics; auto.
  - intros d Hd. apply for_panics with (P := fun d => exists g, DIs d n g) (i := j); auto.
Qed.

Lemma d_Transpose_spec d n g : DIs d n g -> zlike fzero -> wp (d_Transpose d) (fun d' => DIs d' n g).
Proof.
  intros Hd Hz. pose proof (DIs_nonneg _ _ _ Hd). pose proof (d_Transpose_if d n g Hd) as G.
  assert (W : wp (d_Transpose d) (fun _ => True)).
  { unfold d_Transpose. rewrite (proj1 Hd). wpb. apply wp_make; auto.
    unfold d_WalkInOptimizedOrder, d_WalkInRowOrder. cbn [mv_start mv_visit mv_end]. wpb. rewrite (proj1 Hd). wpb.
    eapply wp_conseq; [apply (sgrid_ok _ n (fun _ => fzero) 0 n 0 n (fun i => i) (fun j => j) (dg g))|cbn beta; intros; apply wp_ok; apply wp_ok; exact I]; auto.
    - apply VTab_zeros; auto.
    - intros i j c Hi Hj. unfold d_cell. rewrite (d_At_ok d n g) by auto. simp. cbn [mv_visit].
      destruct (Z.eq_dec i j) as [->|Hne].
      + rewrite dg_same. destruct (d_SetEntry c j j (g j)); reflexivity.
      + assert (Hzz : zlike (dg g i j)) by (unfold dg; destruct (Z.eqb_spec i j); [contradiction|exact Hz]).
        rewrite (d_Set_off c j i) by auto. rewrite (d_Set_off c i j) by auto. reflexivity.
    - intros i j Hi Hj Hne. unfold dg. destruct (Z.eqb_spec i j); [contradiction|auto]. }
  destruct W as (d' & E & _). rewrite E in *. apply wp_ok. apply G. auto.
Qed.

(** A window on a diagonal: its square part must be diagonal. *)
Lemma d_SubMatrix_spec d n g r0 r1 c0 c1 : DIs d n g -> zlike fzero ->
  0 <= r0 <= r1 -> r1 < n -> 0 <= c0 <= c1 -> c1 < n ->
  (r1 - r0 = c1 - c0 -> (r0 = c0 \/ forall k, r0 <= k <= r1 -> c0 <= k <= c1 -> zlike (g k)) ->
   wp (d_SubMatrix d r0 r1 c0 c1) (fun d' => DIs d' (r1 - r0 + 1) (fun i => dg g (r0 + i) (c0 + i)))) /\
  (r1 - r0 <> c1 - c0 -> panics (d_SubMatrix d r0 r1 c0 c1)) /\
  (r0 <> c0 -> forall k, r0 <= k <= r1 -> c0 <= k <= c1 -> ~ zlike (g k) -> panics (d_SubMatrix d r0 r1 c0 c1)).
Proof.
  intros Hd Hz0 Hr Hr1 Hc Hc1.
  assert (Hbody : forall i j (c : Diag), r0 <= i < r1 + 1 -> c0 <= j < c1 + 1 ->
    (let* x := d_At d i j in d_SetEntry c (i - r0) (j - c0) x) = d_SetEntry c (i - r0) (j - c0) (dg g i j)).
  { intros i j c Hi Hj. rewrite (d_At_ok d n g) by (auto; lia). reflexivity. }
  split; [|split].
  - intros E Hz. pose proof (d_SubMatrix_if d n g r0 r1 c0 c1 Hd) as G.
    assert (W : wp (d_SubMatrix d r0 r1 c0 c1) (fun _ => True)).
    { unfold d_SubMatrix. destruct (Z.eqb_spec (r1 - r0 + 1) (c1 - c0 + 1)); [|lia]. cbn [negb].
      destruct (NewDiag_ok (r1 - r0 + 1)) as (d0 & -> & H0); [lia|]. simp.
      eapply wp_conseq; [apply (sgrid_ok d0 (r1 - r0 + 1) (fun _ => fzero) r0 (r1 + 1) c0 (c1 + 1) (fun i => i - r0) (fun j => j - c0) (dg g)); auto|auto].
      - intros. lia.
      - intros i j Hi Hj Hne. unfold dg. destruct (Z.eqb_spec i j) as [->|]; auto. destruct Hz as [->|Hz]; [lia|]. apply Hz; lia. }
    destruct W as (d' & E' & _). rewrite E' in *. apply wp_ok. apply G. auto.
  - intros E. unfold d_SubMatrix. destruct (Z.eqb_spec (r1 - r0 + 1) (c1 - c0 + 1)); [lia|]. eexists; reflexivity.
  - intros Hne k Hk1 Hk2 Hz. unfold d_SubMatrix. destruct (Z.eqb_spec (r1 - r0 + 1) (c1 - c0 + 1)); [|eexists; reflexivity]. cbn [negb].
    destruct (NewDiag_ok (r1 - r0 + 1)) as (d0 & -> & H0); [lia|]. simp.
    apply (sgrid_panics d0 (r1 - r0 + 1) (fun _ => fzero) r0 (r1 + 1) c0 (c1 + 1) (fun i => i - r0) (fun j => j - c0) (dg g) _ k k); auto; try lia.
    intros c _. rewrite Hbody by lia. rewrite d_Set_off_bad; [eexists; reflexivity|lia|]. rewrite dg_same. auto.
Qed.
Lemma d_SubMatrix_bad d n g r0 r1 c0 c1 : DIs d n g ->
  ~ (0 <= r0 <= r1 /\ r1 < n /\ 0 <= c0 <= c1 /\ c1 < n) -> panics (d_SubMatrix d r0 r1 c0 c1).
Proof.
  intros Hd Hbad. unfold d_SubMatrix. destruct (Z.eqb_spec (r1 - r0 + 1) (c1 - c0 + 1)); [|eexists; reflexivity]. cbn [negb].
  destruct (Z_lt_le_dec (r1 - r0 + 1) 1) as [Hlt|Hge].
  { unfold NewDiagonalMatrixWithDimension. destruct (Z.ltb_spec (r1 - r0 + 1) 1); [|lia]. eexists; reflexivity. }
  destruct (NewDiag_ok (r1 - r0 + 1)) as (d0 & -> & H0); [lia|]. simp.
  assert (Hat : forall i j, d_At d i j = Ok (dg g i j) \/ panics (d_At d i j)).
  { intros i j. destruct (inb_cases i n), (inb_cases j n); [left; apply (d_At_ok d n g); auto|right..];
      apply (MatIs_At_bad _ _ _ _ i j (DIs_MatIs _ _ _ Hd)); lia. }
  assert (exists i j, r0 <= i < r1 + 1 /\ c0 <= j < c1 + 1 /\ panics (d_At d i j)) as (i & j & Hi & Hj & Hp).
  { assert (exists i j, r0 <= i < r1 + 1 /\ c0 <= j < c1 + 1 /\ ~ (0 <= i < n /\ 0 <= j < n)) as (i & j & Hi & Hj & Hp).
    { destruct (Z_lt_le_dec r0 0); [exists r0, c0; lia|]. destruct (Z_lt_le_dec c0 0); [exists r0, c0; lia|]. exists r1, c1. lia. }
    exists i, j. split; auto. split; auto. apply (MatIs_At_bad _ _ _ _ i j (DIs_MatIs _ _ _ Hd)). lia. }
  apply (sgrid_panics d0 (r1 - r0 + 1) (fun _ => fzero) r0 (r1 + 1) c0 (c1 + 1) (fun i => i - r0) (fun j => j - c0) (dg g) _ i j); auto.
  - intros a b c _ _. destruct (Hat a b) as [->|H]; [left; reflexivity|right; apply panics_bind; auto].
  - intros c _. apply panics_bind; auto.
Qed.

(** Writing a window. *)
Lemma d_SetSub_spec d n g sub row column h w f : DIs d n g -> RTab sub h w f -> 1 <= h -> 1 <= w ->
  0 <= row -> row + h <= n -> 0 <= column -> column + w <= n ->
  ((forall i j, 0 <= i < h -> 0 <= j < w -> row + i <> column + j -> zlike (f i j)) ->
    wp (d_SetSubMatrix d (Some sub) row column) (fun d' => DIs d' n (fun i =>
      if (row <=? i) && (i <? row + h) && (column <=? i) && (i <? column + w) then f (i - row) (i - column) else g i))) /\
  (forall i j, 0 <= i < h -> 0 <= j < w -> row + i <> column + j -> ~ zlike (f i j) -> panics (d_SetSubMatrix d (Some sub) row column)).
Proof.
  intros Hd [[Hl Hlw] Hf] Hh Hw Hr0 Hr1 Hc0 Hc1.
  assert (Hbody : forall i j (c : Diag), 0 <= i < h -> 0 <= j < w ->
    (let* x := mget sub i j in d_SetEntry c (row + i) (column + j) x) = d_SetEntry c (row + i) (column + j) (f i j)).
  { intros i j c Hi Hj. unfold mget. rewrite zget_ok by lia. simp. rewrite zget_ok by (rewrite Hlw; auto). simp. rewrite Hf by auto. reflexivity. }
  assert (Hchk : for_ 1 h (fun r _ => let* sr := zget sub r in if negb (len sr =? w) then Panic EDimMismatch else Ok tt) tt = Ok tt).
  { destruct (wp_for (fun _ _ => True) 1 h (fun r (_ : unit) => let* sr := zget sub r in if negb (len sr =? w) then Panic EDimMismatch else Ok tt) tt (fun _ => True)) as ([] & -> & _); auto; try lia.
    intros k [] Hk _. rewrite zget_ok by lia. simp. rewrite Hlw by lia. rewrite Z.eqb_refl. cbn [negb]. apply wp_ok. auto. }
  split.
  - intros Hz. pose proof (d_SetSub_if d n g sub row column Hd) as G. rewrite Hl, (Hlw 0) in G by lia.
    assert (W : wp (d_SetSubMatrix d (Some sub) row column) (fun _ => True)).
    { unfold d_SetSubMatrix. rewrite Hl. destruct (Z.eqb_spec h 0); [lia|]. rewrite zget_ok by lia. simp. rewrite (Hlw 0) by lia.
      destruct (Z.eqb_spec w 0); [lia|]. rewrite Hchk. simp.
      eapply wp_conseq; [apply (sgrid_ok d n g 0 h 0 w (fun i => row + i) (fun j => column + j) f); auto|auto].
      intros. lia. }
    destruct W as (d' & E' & _). rewrite E' in *. apply wp_ok. destruct (G d' eq_refl) as (g' & H' & Hg). eapply DIs_ext; eauto.
    intros i Hi. cbn beta. rewrite Hg by auto. destruct (_ && _) eqn:E; auto. rewrite !andb_true_iff, !Z.leb_le, !Z.ltb_lt in E. apply Hf; lia.
  - intros i j Hi Hj Hne Hz. unfold d_SetSubMatrix. rewrite Hl. destruct (Z.eqb_spec h 0); [lia|]. rewrite zget_ok by lia. simp. rewrite (Hlw 0) by lia.
    destruct (Z.eqb_spec w 0); [lia|]. rewrite Hchk. simp.
    apply (sgrid_panics d n g 0 h 0 w (fun i => row + i) (fun j => column + j) f _ i j); auto.
    intros c _. rewrite Hbody by auto. rewrite d_Set_off_bad; auto. eexists; reflexivity.
Qed.

(** ** Products with vectors *)
Lemma d_OperateVector_arr d v n g h : DIs d n g -> VecIs (VArr v) n h ->
  wp (d_OperateVector d (VArr v)) (fun out => VecIs out n (fun i => (g i * h i)%f)).
Proof.
  intros Hd Hv. cbn [d_OperateVector]. wpb. eapply wp_conseq; [apply (d_Operate_spec d v n g h); auto|]. cbn beta. intros out H. apply wp_ok. exact H.
Qed.
Lemma d_OperateVector_other d v n g h : DIs d n g -> VecIs (VOther v) n h ->
  wp (d_OperateVector d (VOther v)) (fun out => VecIs out n (fun i => fsum n (fun k => (dg g i k * h k)%f))).
Proof.
  intros Hd Hv. pose proof (DIs_nonneg _ _ _ Hd). destruct Hv as (Hl & Hv & _). cbn [d_OperateVector]. rewrite Hl, (proj1 Hd), Z.eqb_refl. cbn [negb].
  wpb. apply wp_make; auto. wpb. apply wp_fillv with (f := fun i => fsum n (fun k => (dg g i k * h k)%f)); auto.
  - apply len_repeat; auto.
  - intros i l Hi Hll _. assert (E : for_ 0 n (fun k s => let* x := d_At d i k in let* y := v_At (VOther v) k in Ok (s + x * y)%f) fzero
      = Ok (fsum n (fun k => (dg g i k * h k)%f))).
    { apply (for_pure _ (fun k s => (s + dg g i k * h k)%f)); auto. intros k s Hk. rewrite (d_At_ok d n g) by auto. simp. rewrite Hv by auto. reflexivity. }
    rewrite E. simp. rewrite zset_ok by lia. reflexivity.
  - intros l Hlt. apply wp_ok. apply VTab_VecIs. exact Hlt.
Qed.
Lemma d_PreMultiplyVector_spec d v n g h : DIs d n g -> VecIs v n h ->
  wp (d_PreMultiplyVector d v) (fun out => VecIs out n (fun i => (g i * h i)%f)).
Proof.
  intros Hd Hv. assert (Hv' : VecIs (VArr (v_data v)) n h) by exact Hv. unfold d_PreMultiplyVector. wpb.
  eapply wp_conseq; [apply (d_Operate_spec d (v_data v) n g h); auto|]. cbn beta. intros out H. apply wp_ok. exact H.
Qed.
Lemma d_vec_panics d v n g : DIs d n g -> v_Dimension v <> n ->
  panics (d_OperateVector d v) /\ panics (d_PreMultiplyVector d v).
Proof.
  intros Hd Hne. split.
  - destruct v as [v|v]; cbn [d_OperateVector].
    + apply panics_bind. eapply d_Operate_panics; eauto.
    + rewrite (proj1 Hd). destruct (Z.eqb_spec (v_Dimension (VOther v)) n); [contradiction|]. eexists; reflexivity.
  - unfold d_PreMultiplyVector. apply panics_bind. eapply d_Operate_panics; eauto.
Qed.
End DiagFacts3.

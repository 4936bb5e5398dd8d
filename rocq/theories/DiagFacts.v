(** Proofs about the DiagonalMatrix model. *)
From Coq Require Import ZArith List Lia Bool.
From Verif Require Import Base BaseLemmas Scalar Vector VecSpec VectorFacts Matrix Array2D Diagonal MatSpec MatFacts Array2DFacts.
Import ListNotations.
Open Scope Z_scope.

Lemma panics_bind {A B} (m : res A) (f : A -> res B) : panics m -> panics (bind m f).
Proof. intros [e ->]. exists e. reflexivity. Qed.
Lemma for_panics {S} (P : S -> Prop) lo hi (body : Z -> S -> res S) s i : lo <= i < hi -> P s ->
  (forall k s, lo <= k < hi -> P s -> wp (body k s) P \/ panics (body k s)) ->
  (forall s, P s -> panics (body i s)) -> panics (for_ lo hi body s).
Proof.
  intros Hi HP Hb Hp.
  assert (G : forall n lo' s, Z.of_nat n = hi - lo' -> lo <= lo' <= i -> P s -> panics (for_ lo' hi body s)).
  { induction n as [|n IH]; intros lo' s' Hn Hl HP'; [lia|].
    rewrite for_step by lia. destruct (Z.eq_dec lo' i) as [->|Hne].
    - apply panics_bind. auto.
    - destruct (Hb lo' s' ltac:(lia) HP') as [(s2 & -> & HP2)|He]; [|apply panics_bind; auto].
      cbn [bind]. apply IH; auto; lia. }
  apply (G (Z.to_nat (hi - lo)) lo s); auto; lia.
Qed.
(** Either finishes with [P] kept, or panics. *)
Lemma for_ok_or_panics {S} (P : S -> Prop) lo hi (body : Z -> S -> res S) s : P s ->
  (forall k s, lo <= k < hi -> P s -> wp (body k s) P \/ panics (body k s)) ->
  wp (for_ lo hi body s) P \/ panics (for_ lo hi body s).
Proof.
  intros HP Hb.
  assert (G : forall n lo' s, Z.to_nat (hi - lo') = n -> lo <= lo' -> P s -> wp (for_ lo' hi body s) P \/ panics (for_ lo' hi body s)).
  { induction n as [|n IH]; intros lo' s' Hn Hl HP'.
    - rewrite for_nil by lia. left. apply wp_ok; auto.
    - rewrite for_step by lia. destruct (Hb lo' s' ltac:(lia) HP') as [(s2 & -> & HP2)|He].
      + cbn [bind]. apply IH; auto; lia.
      + right. apply panics_bind; auto. }
  apply (G (Z.to_nat (hi - lo)) lo s); auto; lia.
Qed.

Section DiagFacts.
Context {O : Ops}.

Definition dg (g : Z -> F) : Z -> Z -> F := fun i j => if i =? j then g i else fzero.
Definition DIs (d : Diag) (n : Z) (g : Z -> F) : Prop := VTab (d_data d) n g.
(** What ensureZero lets through. *)
Definition zlike (x : F) : Prop := fulp1 fzero x = true.

Lemma DIs_MatIs d n g : DIs d n g -> MatIs (MDiag d) n n (dg g).
Proof.
  intros [H1 H2]. destruct d as [v]. cbn [d_data] in *. apply MatIs_diag'; auto.
  - intros i Hi. unfold dg. rewrite Z.eqb_refl. auto.
  - intros i j Hi Hj Hne. unfold dg. destruct (Z.eqb_spec i j); auto. contradiction.
Qed.
Lemma MatIs_DIs d r c f : MatIs (MDiag d) r c f -> r = c /\ DIs d r (fun i => f i i) /\
  (forall i j, 0 <= i < r -> 0 <= j < r -> i <> j -> f i j = fzero).
Proof.
  intros H. apply MatIs_diag_inv in H. destruct H as (v & -> & H1 & -> & H2 & H3). split; auto. split; auto. split; auto.
Qed.
Lemma DIs_ext d n f g : DIs d n f -> (forall i, 0 <= i < n -> f i = g i) -> DIs d n g.
Proof. intros. eapply VTab_ext; eauto. Qed.

Lemma d_At_ok d n g i j : DIs d n g -> 0 <= i < n -> 0 <= j < n -> d_At d i j = Ok (dg g i j).
Proof. intros H Hi Hj. apply DIs_MatIs in H. apply (MatIs_At _ _ _ _ i j H Hi Hj). Qed.
Lemma d_Set_on d n g i v : DIs d n g -> 0 <= i < n ->
  exists d', d_SetEntry d i i v = Ok d' /\ DIs d' n (fun j => if j =? i then v else g j).
Proof.
  intros H Hi. unfold d_SetEntry. rewrite Z.eqb_refl.
  rewrite checkRowIndex_ok by (cbn; destruct H as [-> _]; auto). simp.
  destruct (VTab_set (d_data d) n g i v H Hi) as (l & -> & Hl). simp. eexists; split; [reflexivity|]. exact Hl.
Qed.
Lemma d_Set_on_bad d n g i v : DIs d n g -> ~ 0 <= i < n -> d_SetEntry d i i v = Panic EOutOfRange.
Proof.
  intros H Hi. unfold d_SetEntry. rewrite Z.eqb_refl.
  rewrite checkRowIndex_err by (cbn; destruct H as [-> _]; auto). reflexivity.
Qed.
Lemma d_Set_off d i j v : i <> j -> zlike v -> d_SetEntry d i j v = Ok d.
Proof. intros Hne Hz. unfold d_SetEntry. destruct (Z.eqb_spec i j); [contradiction|]. unfold ensureZero. rewrite Hz. reflexivity. Qed.
Lemma d_Set_off_bad d i j v : i <> j -> ~ zlike v -> d_SetEntry d i j v = Panic ETooLarge.
Proof.
  intros Hne Hz. unfold d_SetEntry. destruct (Z.eqb_spec i j); [contradiction|]. unfold ensureZero, zlike in *.
  destruct (fulp1 fzero v); auto. congruence.
Qed.
Lemma d_Set_cases d n g i j v : DIs d n g -> 0 <= i < n -> 0 <= j < n ->
  wp (d_SetEntry d i j v) (fun d' => DIs d' n (fun k => if (k =? i) && (i =? j) then v else g k)) \/
  panics (d_SetEntry d i j v).
Proof.
  intros H Hi Hj. destruct (Z.eq_dec i j) as [->|Hne].
  - left. destruct (d_Set_on d n g j v H Hi) as (d' & -> & H'). apply wp_ok. eapply DIs_ext; eauto. intros k Hk. cbn beta.
    rewrite Z.eqb_refl, andb_true_r. auto.
  - destruct (fulp1 fzero v) eqn:E.
    + left. rewrite d_Set_off by auto. apply wp_ok. eapply DIs_ext; eauto. intros k Hk. cbn beta.
      destruct (Z.eqb_spec i j); [contradiction|]. rewrite andb_false_r. auto.
    + right. rewrite d_Set_off_bad; auto. exists ETooLarge; auto. unfold zlike. congruence.
Qed.

(** Writing a whole table into a diagonal matrix. *)
Definition grid n (val : Z -> Z -> F) (body : Z -> Z -> Diag -> res Diag) : Prop :=
  forall i j d g, 0 <= i < n -> 0 <= j < n -> DIs d n g -> body i j d = d_SetEntry d i j (val i j).
Definition offzero n (val : Z -> Z -> F) : Prop :=
  forall i j, 0 <= i < n -> 0 <= j < n -> i <> j -> zlike (val i j).

Lemma wp_grid n val (body : Z -> Z -> Diag -> res Diag) d0 g0 (Q : Diag -> Prop) :
  0 <= n -> DIs d0 n g0 -> grid n val body -> offzero n val ->
  (forall d, DIs d n (fun i => val i i) -> Q d) ->
  wp (for_ 0 n (fun i d => for_ 0 n (fun j d => body i j d) d) d0) Q.
Proof.
  intros Hn H0 Hb Hz HQ.
  apply (wp_for (fun k d => DIs d n (fun i => if i <? k then val i i else g0 i))); auto.
  - eapply DIs_ext; eauto. intros i Hi. cbn beta. zb.
  - intros i d Hi Hd.
    apply (wp_for (fun l d => DIs d n (fun k => if (k <? i) || (k =? i) && (i <? l) then val k k else g0 k))); auto.
    + eapply DIs_ext; eauto. intros k Hk. cbn beta. zb.
    + intros j d' Hj Hd'. rewrite (Hb i j d' _ Hi Hj Hd'). destruct (Z.eq_dec i j) as [->|Hne].
      * destruct (d_Set_on d' n _ j (val j j) Hd' Hi) as (d2 & -> & H2). apply wp_ok. eapply DIs_ext; eauto. intros k Hk. cbn beta.
        destruct (Z.eqb_spec k j); [subst k; zb|]. zb.
      * rewrite d_Set_off by auto. apply wp_ok. eapply DIs_ext; eauto. intros k Hk. cbn beta. zb.
    + intros d' Hd'. eapply DIs_ext; eauto. intros k Hk. cbn beta. zb.
  - intros d Hd. apply HQ. eapply DIs_ext; eauto. intros i Hi. cbn beta. zb.
Qed.
Lemma grid_panics n val (body : Z -> Z -> Diag -> res Diag) d0 g0 i j :
  DIs d0 n g0 -> grid n val body -> 0 <= i < n -> 0 <= j < n -> i <> j -> ~ zlike (val i j) ->
  panics (for_ 0 n (fun i d => for_ 0 n (fun j d => body i j d) d) d0).
Proof.
  intros H0 Hb Hi Hj Hne Hz.
  assert (Hstep : forall i j d, 0 <= i < n -> 0 <= j < n -> (exists g, DIs d n g) ->
    wp (body i j d) (fun d => exists g, DIs d n g) \/ panics (body i j d)).
  { intros a b d Ha Hb' [g Hd]. rewrite (Hb a b d g Ha Hb' Hd).
    destruct (d_Set_cases d n g a b (val a b) Hd Ha Hb') as [H|H]; auto. left. eapply wp_conseq; eauto. cbn beta. eauto. }
  apply for_panics with (P := fun d => exists g, DIs d n g) (i := i); auto.
  - eauto.
  - intros k d Hk Hd. apply for_ok_or_panics; auto.
  - intros d Hd. apply for_panics with (P := fun d => exists g, DIs d n g) (i := j); auto.
    intros d' [g Hd']. rewrite (Hb i j d' g Hi Hj Hd'). rewrite d_Set_off_bad by auto. eexists; eauto.
Qed.

Lemma NewDiagonalMatrixWithDimension_spec n : 1 <= n ->
  wp (NewDiagonalMatrixWithDimension n) (fun d => DIs d n (fun _ => fzero)).
Proof.
  intros Hn. unfold NewDiagonalMatrixWithDimension. destruct (Z.ltb_spec n 1); [lia|].
  wpb. apply wp_make; [lia|]. apply wp_ok. apply VTab_zeros. lia.
Qed.
Lemma NewDiag_ok n : 1 <= n -> exists d, NewDiagonalMatrixWithDimension n = Ok d /\ DIs d n (fun _ => fzero).
Proof. intros H. apply (NewDiagonalMatrixWithDimension_spec n H). Qed.
Lemma NewDiagonalMatrix_spec v n g b : VTab v n g ->
  wp (NewDiagonalMatrix (Some v) b) (fun d => DIs d n g).
Proof. intros H. unfold NewDiagonalMatrix. cbn [app]. destruct b; apply wp_ok; exact H. Qed.
Lemma d_Copy_spec d n g : DIs d n g -> wp (d_Copy d) (fun d' => DIs d' n g).
Proof. intros H. apply wp_ok. exact H. Qed.

(** Entrywise loops over two diagonals. *)
Lemma d_zip (op : F -> F -> F) d m n g h : DIs d n g -> DIs m n h -> 0 <= n ->
  wp (let* outData := make fzero (len (d_data d)) in
      let* outData := for_ 0 (len (d_data d)) (fun i outData =>
        let* x := zget (d_data d) i in
        let* y := zget (d_data m) i in
        zset outData i (op x y)) outData in
      Ok (mkDiag outData)) (fun d' => DIs d' n (fun i => op (g i) (h i))).
Proof.
  intros Hd Hm Hn. rewrite (proj1 Hd). wpb. apply wp_make; auto. wpb.
  apply wp_fillv with (f := fun i => op (g i) (h i)); auto.
  - apply len_repeat; auto.
  - intros i l Hi Hl _. rewrite (VTab_get _ _ _ _ Hd Hi), (VTab_get _ _ _ _ Hm Hi). simp.
    rewrite zset_ok by lia. reflexivity.
  - intros l Hl. apply wp_ok. exact Hl.
Qed.
Lemma DIs_nonneg d n g : DIs d n g -> 0 <= n.
Proof. intros [<- _]. apply len_nonneg. Qed.

Lemma d_Add_diag_spec d m n g h : DIs d n g -> DIs m n h ->
  wp (d_Add d (MDiag m)) (fun d' => DIs d' n (fun i => (g i + h i)%f)).
Proof.
  intros Hd Hm. unfold d_Add. rewrite (checkAddition_ok _ _ n) by (cbn; rewrite ?(proj1 Hd), ?(proj1 Hm); auto). simp.
  apply d_zip with (op := fadd); auto. eapply DIs_nonneg; eauto.
Qed.
Lemma d_Subtract_diag_spec d m n g h : DIs d n g -> DIs m n h ->
  wp (d_Subtract d (MDiag m)) (fun d' => DIs d' n (fun i => (g i - h i)%f)).
Proof.
  intros Hd Hm. unfold d_Subtract. rewrite (checkAddition_ok _ _ n) by (cbn; rewrite ?(proj1 Hd), ?(proj1 Hm); auto). simp.
  apply d_zip with (op := fsub); auto. eapply DIs_nonneg; eauto.
Qed.
Lemma d_Multiply_diag_spec d m n g h : DIs d n g -> DIs m n h ->
  wp (d_Multiply d (MDiag m)) (fun r => exists d', r = MDiag d' /\ DIs d' n (fun i => (g i * h i)%f)).
Proof.
  intros Hd Hm. unfold d_Multiply. rewrite checkMultiplication_ok by (cbn; rewrite (proj1 Hd), (proj1 Hm); auto). simp.
  wpb. unfold d_MultiplyDiag. eapply wp_conseq; [apply (d_zip fmul d m n g h); auto; eapply DIs_nonneg; eauto|].
  cbn beta. intros d' H'. apply wp_ok. eauto.
Qed.
Lemma d_Operate_spec d v n g h : DIs d n g -> VecIs (VArr v) n h ->
  wp (d_Operate d v) (fun out => VecIs (VArr out) n (fun i => (g i * h i)%f)).
Proof.
  intros Hd Hv. apply VTab_VecIs in Hv. unfold d_Operate.
  rewrite checkMultiplication_ok by (cbn; rewrite (proj1 Hd), (proj1 Hv); auto). simp.
  wpb. unfold d_MultiplyDiag. eapply wp_conseq; [apply (d_zip fmul d (mkDiag v) n g h); auto; eapply DIs_nonneg; eauto|].
  cbn beta. intros d' H'. apply wp_ok. apply VTab_VecIs. exact H'.
Qed.
Lemma d_Operate_panics d v n g : DIs d n g -> len v <> n -> panics (d_Operate d v).
Proof.
  intros Hd Hv. unfold d_Operate. rewrite (checkMultiplication_err _ _ n); [eexists; reflexivity|cbn; rewrite (proj1 Hd); auto|cbn; auto].
Qed.

(** Any other matrix: scale its rows. *)
Lemma d_Multiply_other_spec d m n c g h : DIs d n g -> MatIs m n c h -> 1 <= n -> 1 <= c ->
  (forall d', m <> MDiag d') ->
  wp (d_Multiply d m) (fun r => exists a, r = MArr a /\ MatIs (MArr a) n c (fun i j => (g i * h i j)%f)).
Proof.
  intros Hd Hm Hn Hc Hnd. unfold d_Multiply.
  rewrite checkMultiplication_ok by (rewrite (MatIs_rows _ _ _ _ Hm); cbn; rewrite (proj1 Hd); auto). simp.
  match goal with |- wp (match _ with MArr _ => ?X | MBlk _ => _ | MDiag _ => _ | MOther _ _ _ => _ end) ?Q =>
    assert (G : wp X Q); [|destruct m; auto; exfalso; eapply Hnd; reflexivity] end.
  rewrite (MatIs_rows _ _ _ _ Hm), (MatIs_cols _ _ _ _ Hm). simp.
  wpb. apply wp_make; [lia|]. wpb.
  eapply (wp_build_rows _ n c (fun i j => (g i * h i j)%f)); try lia.
  - apply len_repeat; lia.
  - intros i p Hi Hl _. wpb. apply wp_make; [lia|]. wpb.
    apply wp_fillv with (f := fun j => (g i * h i j)%f); try lia.
    + apply len_repeat; lia.
    + intros j row Hj Hlr _. rewrite (VTab_get _ _ _ _ Hd Hi). simp. rewrite (MatIs_At _ _ _ _ _ _ Hm Hi Hj). simp.
      rewrite zset_ok by lia. reflexivity.
    + intros row Hrow. rewrite zset_ok by lia. apply wp_ok. eauto.
  - intros p Hp. wpb. eapply wp_conseq; [apply (a2_copyIn_spec p n c (fun i j => (g i * h i j)%f)); auto|].
    cbn beta. intros a Ha. apply wp_ok. eauto.
Qed.

Lemma d_Data_spec d n g : DIs d n g -> wp (d_Data d) (fun r => RTab r n n (dg g)).
Proof.
  intros Hd. pose proof (DIs_nonneg _ _ _ Hd). unfold d_Data. rewrite (proj1 Hd). wpb. apply wp_make; auto.
  eapply (wp_build_rows _ n n (dg g)); auto; try lia.
  - apply len_repeat; lia.
  - intros i p Hi Hl _. wpb. apply wp_make; [lia|]. rewrite (VTab_get _ _ _ _ Hd Hi). simp.
    edestruct VTab_set as (l & -> & Hl'); [apply (VTab_zeros n); lia|exact Hi|]. simp.
    rewrite zset_ok by lia. apply wp_ok. eexists; split; [reflexivity|]. eapply VTab_ext; [exact Hl'|]. intros j Hj. cbn beta.
    unfold dg. rewrite Z.eqb_sym. destruct (Z.eqb_spec i j); subst; auto.
Qed.

Lemma d_scal (op : F -> F -> F) d n g x : DIs d n g -> 1 <= n ->
  (offzero n (fun i j => op (dg g i j) x) ->
   wp (let* out := orpanic (NewDiagonalMatrixWithDimension (len (d_data d))) in
       for_ 0 (len (d_data d)) (fun row out => for_ 0 (len (d_data d)) (fun col out =>
         let* y := d_At d row col in d_SetEntry out row col (op y x)) out) out)
     (fun d' => DIs d' n (fun i => op (g i) x))) /\
  (2 <= n -> ~ zlike (op fzero x) ->
   panics (let* out := orpanic (NewDiagonalMatrixWithDimension (len (d_data d))) in
       for_ 0 (len (d_data d)) (fun row out => for_ 0 (len (d_data d)) (fun col out =>
         let* y := d_At d row col in d_SetEntry out row col (op y x)) out) out)).
Proof.
  intros Hd Hn. rewrite (proj1 Hd). destruct (NewDiag_ok n Hn) as (d0 & -> & H0). simp.
  assert (Hg : grid n (fun i j => op (dg g i j) x) (fun row col out => let* y := d_At d row col in d_SetEntry out row col (op y x))).
  { intros i j d1 g1 Hi Hj _. rewrite (d_At_ok d n g) by auto. reflexivity. }
  split.
  - intros Hz. eapply wp_grid; eauto; try lia. intros d1 H1. eapply DIs_ext; eauto. intros i Hi. cbn beta. unfold dg. rewrite Z.eqb_refl. auto.
  - intros H2 Hz. eapply grid_panics with (i := 0) (j := 1); eauto; try lia.
Qed.
Lemma d_ScalarMultiply_spec d n g x : DIs d n g -> 1 <= n -> (n = 1 \/ zlike (fzero * x)%f) ->
  wp (d_ScalarMultiply d x) (fun d' => DIs d' n (fun i => (g i * x)%f)).
Proof.
  intros Hd Hn Hz. unfold d_ScalarMultiply. rewrite Z.eqb_refl. cbn [negb]. apply (proj1 (d_scal fmul d n g x Hd Hn)).
  intros i j Hi Hj Hne. destruct Hz as [->|Hz]; [lia|]. unfold dg. destruct (Z.eqb_spec i j); [contradiction|]. auto.
Qed.
Lemma d_ScalarMultiply_panics d n g x : DIs d n g -> 2 <= n -> ~ zlike (fzero * x)%f -> panics (d_ScalarMultiply d x).
Proof.
  intros Hd Hn Hz. unfold d_ScalarMultiply. rewrite Z.eqb_refl. cbn [negb].
  apply (proj2 (d_scal fmul d n g x Hd ltac:(lia))); auto.
Qed.
Lemma d_ScalarAdd_spec d n g x : DIs d n g -> 1 <= n -> (n = 1 \/ zlike (fzero + x)%f) ->
  wp (d_ScalarAdd d x) (fun d' => DIs d' n (fun i => (g i + x)%f)).
Proof.
  intros Hd Hn Hz. unfold d_ScalarAdd. rewrite Z.eqb_refl. cbn [negb]. apply (proj1 (d_scal fadd d n g x Hd Hn)).
  intros i j Hi Hj Hne. destruct Hz as [->|Hz]; [lia|]. unfold dg. destruct (Z.eqb_spec i j); [contradiction|]. auto.
Qed.
Lemma d_ScalarAdd_panics d n g x : DIs d n g -> 2 <= n -> ~ zlike (fzero + x)%f -> panics (d_ScalarAdd d x).
Proof.
  intros Hd Hn Hz. unfold d_ScalarAdd. rewrite Z.eqb_refl. cbn [negb].
  apply (proj2 (d_scal fadd d n g x Hd ltac:(lia))); auto.
Qed.

(** Adding a matrix of another type. *)
Lemma d_arith (op : F -> F -> F) d m n g h : DIs d n g -> MatIs m n n h -> 1 <= n ->
  let call :=
    (let* columnCount := m_cols m in
      if negb (m_rows m =? columnCount) then Panic EDimMismatch else
      let* out := orpanic (NewDiagonalMatrixWithDimension (m_rows m)) in
      for_ 0 (m_rows m) (fun row out =>
        for_ 0 columnCount (fun col out =>
          let* x := d_At d row col in
          let* y := m_At m row col in
          d_SetEntry out row col (op x y)) out) out) in
  (offzero n (fun i j => op (dg g i j) (h i j)) -> wp call (fun d' => DIs d' n (fun i => op (g i) (h i i)))) /\
  (forall i j, 0 <= i < n -> 0 <= j < n -> i <> j -> ~ zlike (op fzero (h i j)) -> panics call).
Proof.
  intros Hd Hm Hn call. unfold call. clear call. rewrite (MatIs_rows _ _ _ _ Hm), (MatIs_cols _ _ _ _ Hm). simp.
  rewrite Z.eqb_refl. cbn [negb]. destruct (NewDiag_ok n Hn) as (d0 & -> & H0). simp.
  assert (Hg : grid n (fun i j => op (dg g i j) (h i j)) (fun row col out => let* x := d_At d row col in
          let* y := m_At m row col in d_SetEntry out row col (op x y))).
  { intros i j d1 g1 Hi Hj _. rewrite (d_At_ok d n g) by auto. simp. rewrite (MatIs_At _ _ _ _ _ _ Hm Hi Hj). reflexivity. }
  split.
  - intros Hz. eapply wp_grid; eauto; try lia. intros d1 H1. eapply DIs_ext; eauto. intros i Hi. cbn beta. unfold dg. rewrite Z.eqb_refl. auto.
  - intros i j Hi Hj Hne Hz. eapply grid_panics with (i := i) (j := j); eauto. cbn beta. unfold dg. destruct (Z.eqb_spec i j); [contradiction|]. auto.
Qed.
Lemma d_Add_other_spec d m n g h : DIs d n g -> MatIs m n n h -> 1 <= n -> (forall d', m <> MDiag d') ->
  (offzero n (fun i j => (fzero + h i j)%f) ->
     wp (d_Add d m) (fun d' => DIs d' n (fun i => (g i + h i i)%f))) /\
  (forall i j, 0 <= i < n -> 0 <= j < n -> i <> j -> ~ zlike (fzero + h i j)%f -> panics (d_Add d m)).
Proof.
  intros Hd Hm Hn Hnd. unfold d_Add.
  rewrite (checkAddition_ok _ _ n); [|cbn; rewrite (proj1 Hd), (MatIs_rows _ _ _ _ Hm); auto|cbn; rewrite (proj1 Hd); auto|eapply MatIs_cols; eauto].
  simp. pose proof (d_arith fadd d m n g h Hd Hm Hn) as [G1 G2].
  split.
  - intros Hz. assert (G : offzero n (fun i j => (dg g i j + h i j)%f)).
    { intros i j Hi Hj Hne. unfold dg. destruct (Z.eqb_spec i j); [contradiction|]. apply Hz; auto. }
    specialize (G1 G). destruct m; auto; exfalso; eapply Hnd; reflexivity.
  - intros i j Hi Hj Hne Hz. specialize (G2 i j Hi Hj Hne Hz). destruct m; auto; exfalso; eapply Hnd; reflexivity.
Qed.
Lemma d_Subtract_other_spec d m n g h : DIs d n g -> MatIs m n n h -> 1 <= n -> (forall d', m <> MDiag d') ->
  (offzero n (fun i j => (fzero - h i j)%f) ->
     wp (d_Subtract d m) (fun d' => DIs d' n (fun i => (g i - h i i)%f))) /\
  (forall i j, 0 <= i < n -> 0 <= j < n -> i <> j -> ~ zlike (fzero - h i j)%f -> panics (d_Subtract d m)).
Proof.
  intros Hd Hm Hn Hnd. unfold d_Subtract.
  rewrite (checkAddition_ok _ _ n); [|cbn; rewrite (proj1 Hd), (MatIs_rows _ _ _ _ Hm); auto|cbn; rewrite (proj1 Hd); auto|eapply MatIs_cols; eauto].
  simp. pose proof (d_arith fsub d m n g h Hd Hm Hn) as [G1 G2].
  split.
  - intros Hz. assert (G : offzero n (fun i j => (dg g i j - h i j)%f)).
    { intros i j Hi Hj Hne. unfold dg. destruct (Z.eqb_spec i j); [contradiction|]. apply Hz; auto. }
    specialize (G1 G). destruct m; auto; exfalso; eapply Hnd; reflexivity.
  - intros i j Hi Hj Hne Hz. specialize (G2 i j Hi Hj Hne Hz). destruct m; auto; exfalso; eapply Hnd; reflexivity.
Qed.

Lemma d_ColumnAt_spec d n g j : DIs d n g -> 0 <= j < n -> wp (d_ColumnAt d j) (fun v => VTab v n (fun i => dg g i j)).
Proof.
  intros Hd Hj. unfold d_ColumnAt. rewrite (checkColumnIndex_ok _ n); [|cbn; rewrite (proj1 Hd); auto|auto]. simp. rewrite (proj1 Hd).
  wpb. apply wp_make; [lia|]. apply wp_fillv with (f := fun i => dg g i j); try lia.
  - apply len_repeat; lia.
  - intros i l Hi Hl _. rewrite (d_At_ok d n g) by auto. simp. rewrite zset_ok by lia. reflexivity.
  - auto.
Qed.
Lemma d_RowAt_spec d n g i : DIs d n g -> 0 <= i < n -> wp (d_RowAt d i) (fun v => VTab v n (fun j => dg g i j)).
Proof.
  intros Hd Hi. unfold d_RowAt. rewrite checkRowIndex_ok by (cbn; rewrite (proj1 Hd); auto). simp. rewrite (proj1 Hd).
  wpb. apply wp_make; [lia|]. apply wp_fillv with (f := fun j => dg g i j); try lia.
  - apply len_repeat; lia.
  - intros j l Hj Hl _. rewrite (d_At_ok d n g) by auto. simp. rewrite zset_ok by lia. reflexivity.
  - auto.
Qed.

Lemma d_Trace_spec d n g : DIs d n g -> d_Trace d = Ok (fsum n g).
Proof.
  intros Hd. unfold d_Trace. rewrite (proj1 Hd). pose proof (DIs_nonneg _ _ _ Hd).
  apply (for_pure _ (fun i s => (s + g i)%f)); auto. intros i s Hi. rewrite (d_At_ok d n g) by auto. simp. unfold dg. rewrite Z.eqb_refl. auto.
Qed.

(** One row, or one column, written entry by entry. *)
Lemma wp_line (isrow : bool) n k (val : Z -> F) (body : Z -> Diag -> res Diag) d0 g0 (Q : Diag -> Prop) :
  0 <= k < n -> DIs d0 n g0 ->
  (forall i d, 0 <= i < n -> body i d = if isrow then d_SetEntry d k i (val i) else d_SetEntry d i k (val i)) ->
  (forall i, 0 <= i < n -> i <> k -> zlike (val i)) ->
  (forall d, DIs d n (fun i => if i =? k then val k else g0 i) -> Q d) ->
  wp (for_ 0 n body d0) Q.
Proof.
  intros Hk H0 Hb Hz HQ.
  apply (wp_for (fun l d => DIs d n (fun i => if (i =? k) && (k <? l) then val k else g0 i))); try lia.
  - eapply DIs_ext; eauto. intros i Hi. cbn beta. zb.
  - intros i d Hi Hd. rewrite Hb by auto. destruct (Z.eq_dec i k) as [->|Hne].
    + destruct (d_Set_on d n _ k (val k) Hd Hi) as (d2 & E & H2). destruct isrow; rewrite E; apply wp_ok;
      (eapply DIs_ext; eauto; intros j Hj; cbn beta; zb).
    + destruct isrow; rewrite d_Set_off by auto; apply wp_ok; (eapply DIs_ext; eauto; intros j Hj; cbn beta; zb).
  - intros d Hd. apply HQ. eapply DIs_ext; eauto. intros i Hi. cbn beta. zb.
Qed.
Lemma line_panics (isrow : bool) n k i (val : Z -> F) (body : Z -> Diag -> res Diag) d0 g0 :
  0 <= k < n -> DIs d0 n g0 ->
  (forall i d, 0 <= i < n -> body i d = if isrow then d_SetEntry d k i (val i) else d_SetEntry d i k (val i)) ->
  0 <= i < n -> i <> k -> ~ zlike (val i) -> panics (for_ 0 n body d0).
Proof.
  intros Hk H0 Hb Hi Hne Hz. apply for_panics with (P := fun d => exists g, DIs d n g) (i := i); eauto.
  - intros j d Hj [g Hd]. rewrite Hb by auto. destruct isrow.
    + destruct (d_Set_cases d n g k j (val j) Hd Hk Hj) as [H|H]; auto. left. eapply wp_conseq; eauto. cbn beta. eauto.
    + destruct (d_Set_cases d n g j k (val j) Hd Hj Hk) as [H|H]; auto. left. eapply wp_conseq; eauto. cbn beta. eauto.
  - intros d _. rewrite Hb by auto. destruct isrow; rewrite d_Set_off_bad by auto; eexists; eauto.
Qed.

Lemma d_SetColumn_spec d n g k v h : DIs d n g -> 0 <= k < n -> VTab v n h ->
  ((forall i, 0 <= i < n -> i <> k -> zlike (h i)) ->
   wp (d_SetColumn d k v) (fun d' => DIs d' n (fun i => if i =? k then h k else g i))) /\
  (forall i, 0 <= i < n -> i <> k -> ~ zlike (h i) -> panics (d_SetColumn d k v)).
Proof.
  intros Hd Hk Hv. unfold d_SetColumn. rewrite (checkColumnIndex_ok _ n); [|cbn; rewrite (proj1 Hd); auto|auto]. simp.
  rewrite (proj1 Hd), (proj1 Hv), Z.eqb_refl. cbn [negb].
  assert (Hb : forall i d, 0 <= i < n -> (let* x := zget v i in d_SetEntry d i k x) = d_SetEntry d i k (h i)).
  { intros i d' Hi. rewrite (VTab_get _ _ _ _ Hv Hi). reflexivity. }
  split; [intros Hz; apply (wp_line false n k h) with (g0 := g)|intros; apply (line_panics false n k i h) with (g0 := g)]; auto.
Qed.
Lemma d_SetRow_spec d n g k v h : DIs d n g -> 0 <= k < n -> VTab v n h ->
  ((forall i, 0 <= i < n -> i <> k -> zlike (h i)) ->
   wp (d_SetRow d k v) (fun d' => DIs d' n (fun i => if i =? k then h k else g i))) /\
  (forall i, 0 <= i < n -> i <> k -> ~ zlike (h i) -> panics (d_SetRow d k v)).
Proof.
  intros Hd Hk Hv. unfold d_SetRow. rewrite checkRowIndex_ok by (cbn; rewrite (proj1 Hd); auto). simp.
  rewrite (proj1 Hd), (proj1 Hv), Z.eqb_refl. cbn [negb].
  assert (Hb : forall i d, 0 <= i < n -> (let* x := zget v i in d_SetEntry d k i x) = d_SetEntry d k i (h i)).
  { intros i d' Hi. rewrite (VTab_get _ _ _ _ Hv Hi). reflexivity. }
  split; [intros Hz; apply (wp_line true n k h) with (g0 := g)|intros; apply (line_panics true n k i h) with (g0 := g)]; auto.
Qed.

Lemma d_Equals_spec d n g m r c h : DIs d n g -> MatIs m r c h ->
  exists b, d_Equals d false (Some m) = Ok b /\
  (b = true <-> r = n /\ c = n /\ forall i j, 0 <= i < n -> 0 <= j < n -> feq (dg g i j) (h i j) = true).
Proof.
  intros Hd Hm. unfold d_Equals. rewrite (MatIs_rows _ _ _ _ Hm), (MatIs_cols _ _ _ _ Hm). simp. rewrite (proj1 Hd).
  destruct (Z.eqb_spec c n), (Z.eqb_spec r n); cbn [negb orb]; try (exists false; split; auto; split; [discriminate|intros (?&?&?); contradiction]).
  subst r c. pose proof (DIs_nonneg _ _ _ Hd).
  edestruct (for_brk2_exists n n (fun i j => fne (dg g i j) (h i j))
     (fun row col _ => let* x := d_At d row col in let* y := m_At m row col in Ok (fne x y, tt))) as (b & E & Hb); auto.
  { intros i j u Hi Hj. rewrite (d_At_ok d n g) by auto. simp. rewrite (MatIs_At _ _ _ _ _ _ Hm Hi Hj). simp. destruct u. reflexivity. }
  rewrite E. simp. exists (negb b). split; auto. rewrite negb_true_iff. split.
  - intros ->. split; auto. split; auto. intros i j Hi Hj. destruct (feq (dg g i j) (h i j)) eqn:Ef; auto.
    assert (false = true); [|discriminate]. apply Hb. exists i, j. unfold fne. rewrite Ef. auto.
  - intros (_ & _ & Hall). destruct b; auto. destruct Hb as [Hb _]. destruct (Hb eq_refl) as (i & j & Hi & Hj & Hne).
    unfold fne in Hne. rewrite Hall in Hne by auto. discriminate.
Qed.

Lemma d_IsSingular_spec d n g t : DIs d n g ->
  exists b, d_IsSingular d t = Ok b /\ (b = true <-> exists i, 0 <= i < n /\ equalsWithError (g i) fzero t = true).
Proof.
  intros Hd. unfold d_IsSingular. rewrite (proj1 Hd). pose proof (DIs_nonneg _ _ _ Hd).
  edestruct (for_brk_exists n (fun i => equalsWithError (g i) fzero t)
    (fun i _ => let* x := zget (d_data d) i in Ok (equalsWithError x fzero t, tt))) as (b & E & Hb); auto.
  { intros i s Hi. rewrite (VTab_get _ _ _ _ Hd Hi). reflexivity. }
  rewrite E. simp. eauto.
Qed.
Lemma d_Inverse_spec d n g t : DIs d n g -> 
  ((forall i, 0 <= i < n -> equalsWithError (g i) fzero t = false) ->
    wp (d_InverseWithThreshold d t) (fun d' => DIs d' n (fun i => (fone / g i)%f))) /\
  ((exists i, 0 <= i < n /\ equalsWithError (g i) fzero t = true) -> d_InverseWithThreshold d t = Panic ESingular).
Proof.
  intros Hd. pose proof (DIs_nonneg _ _ _ Hd). unfold d_InverseWithThreshold. destruct (d_IsSingular_spec d n g t Hd) as (b & -> & Hb). simp. split.
  - intros Hall. destruct b. { destruct Hb as [Hb _]. destruct (Hb eq_refl) as (i & Hi & E). rewrite Hall in E; auto. discriminate. }
    rewrite (proj1 Hd). wpb. apply wp_make; auto. wpb. apply wp_fillv with (f := fun i => (fone / g i)%f); auto.
    + apply len_repeat; auto.
    + intros i l Hi Hl _. rewrite (VTab_get _ _ _ _ Hd Hi). simp. rewrite zset_ok by lia. reflexivity.
    + intros l Hl. apply wp_ok. exact Hl.
  - intros Hex. apply Hb in Hex. subst. reflexivity.
Qed.
End DiagFacts.

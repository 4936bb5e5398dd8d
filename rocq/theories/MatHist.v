(** Facts about histories of matrix operations and about the constructors. *)
From Coq Require Import ZArith List Lia Bool.
From Verif Require Import Base BaseLemmas Scalar Vector VecSpec VectorFacts Matrix Array2D BlockM Diagonal RealMatrixM MatSpec MatFacts Array2DFacts BlockLoops BlockFacts BlockFacts2 BlockFacts3 BlockSub BlockMul DiagFacts WalkFacts MatrixOps HistSpec.
Import ListNotations.
Open Scope Z_scope.

Section Hist.
Context {O : Ops}.

Lemma e_run_ok os : forall m r c f, general m -> MatIs m r c f ->
  general (fst (e_run m os)) /\ MatIs (fst (e_run m os)) r c (fst (e_table r c f os)) /\
  snd (e_run m os) = snd (e_table r c f os).
Proof.
  induction os as [|o os IH]; intros m r c f Hg H; cbn [e_run e_table].
  - auto.
  - assert (G : forall i j x, e_val f o = ((i, j), x) ->
      (0 <= i < r /\ 0 <= j < c -> gives (e_exec m o) r c (tset f i j x)) /\
      (~ (0 <= i < r /\ 0 <= j < c) -> panics (e_exec m o))).
    { intros i j x E. destruct o as [i' j' x'|i' j' x'|i' j' x']; cbn [e_val] in E; injection E as <- <- <-; cbn [e_exec]; split; intros Hij.
      - apply m_SetEntry_ok; tauto.
      - apply (m_entry_bad m r c f i' j' x' Hg H Hij).
      - apply m_AddToEntry_ok; tauto.
      - apply (m_entry_bad m r c f i' j' x' Hg H Hij).
      - apply m_MultiplyEntry_ok; tauto.
      - apply (m_entry_bad m r c f i' j' x' Hg H Hij). }
    destruct (e_val f o) as [[i j] x] eqn:E. destruct (G i j x eq_refl) as [G1 G2].
    destruct (inb i r) eqn:Ei; [destruct (inb j c) eqn:Ej|]; cbn [andb].
    + apply inb_true in Ei. apply inb_true in Ej. destruct (G1 (conj Ei Ej)) as (m' & -> & Hg' & Hm').
      specialize (IH m' r c _ Hg' Hm'). destruct (e_run m' os), (e_table r c (tset f i j x) os). cbn [fst snd] in *.
      destruct IH as (? & ? & ->). auto.
    + apply inb_false in Ej. destruct G2 as (e & ->); [tauto|].
      specialize (IH m r c f Hg H). destruct (e_run m os), (e_table r c f os). cbn [fst snd] in *.
      destruct IH as (? & ? & ->). auto.
    + apply inb_false in Ei. destruct G2 as (e & ->); [tauto|].
      specialize (IH m r c f Hg H). destruct (e_run m os), (e_table r c f os). cbn [fst snd] in *.
      destruct IH as (? & ? & ->). auto.
Qed.

Lemma MatIs_ent n r c f : MatIs n r c f -> MatIs n r c (ent n) /\ rows_of n = r /\ cols_of n = c.
Proof.
  intros H. split; [|split].
  - eapply MatIs_ext; [exact H|]. intros i j Hi Hj. unfold ent. rewrite (MatIs_At _ _ _ _ i j H Hi Hj). auto.
  - apply (MatIs_rows _ _ _ _ H).
  - unfold cols_of. rewrite (MatIs_cols _ _ _ _ H). auto.
Qed.
Lemma VecIs_nth (v : vec) : VecIs (VArr v) (len v) (nthZ v).
Proof. apply (VecIs_self (VArr v)). Qed.

(** ** Arguments that do not fit *)
Lemma m_SetColumn_bad m r c f k v : general m -> MatIs m r c f -> ~ (0 <= k < c /\ len v = r) -> panics (m_SetColumn m k v).
Proof.
  intros Hg H Hn. destruct (inb k c) eqn:Ek.
  2:{ apply inb_false in Ek. apply (m_col_bad m r c f k v (MOther 0 0 (fun _ _ => fzero)) Hg H Ek). }
  apply inb_true in Ek. pose proof (MatIs_cols _ _ _ _ H) as Ec. pose proof (MatIs_rows _ _ _ _ H) as Er.
  destruct m as [a|b|d|? ? ?]; try contradiction; cbn [m_SetColumn]; [apply panA|apply panB];
  unfold a2_SetColumn, b_SetColumn; rewrite (checkColumnIndex_ok _ c) by auto; cbn [orpanic bind]; cbn [m_rows] in Er; rewrite Er;
  (destruct (Z.eqb_spec (len v) r); [tauto|eexists; reflexivity]).
Qed.
Lemma m_SetRowVector_bad m r c f k v : general m -> MatIs m r c f -> ~ (0 <= k < r /\ len v = c) -> panics (m_SetRowVector m k (VArr v)).
Proof.
  intros Hg H Hn. destruct (inb k r) eqn:Ek.
  2:{ apply inb_false in Ek. apply (m_row_bad m r c f k v (VArr v) (MOther 0 0 (fun _ _ => fzero)) Hg H Ek). }
  apply inb_true in Ek. pose proof (MatIs_cols _ _ _ _ H) as Ec. pose proof (MatIs_rows _ _ _ _ H) as Er.
  destruct m as [a|b|d|? ? ?]; try contradiction; cbn [m_SetRowVector]; [apply panA|apply panB];
  unfold a2_SetRowVector, b_SetRowVector, b_SetRow; rewrite checkRowIndex_ok by (rewrite Er; auto); cbn [orpanic bind].
  - cbn [m_cols] in Ec. rewrite Ec. cbn [bind]. change (v_Dimension (VArr v)) with (len v).
    destruct (Z.eqb_spec (len v) c); [tauto|eexists; reflexivity].
  - cbn [m_cols] in Ec. injection Ec as ->. destruct (Z.eqb_spec (len v) c); [tauto|eexists; reflexivity].
Qed.
Lemma m_SetColumnVector_bad m r c f k v : general m -> MatIs m r c f -> ~ (0 <= k < c /\ len v = r) -> panics (m_SetColumnVector m k (VArr v)).
Proof.
  intros Hg H Hn. destruct m as [a|b|d|? ? ?]; try contradiction; cbn [m_SetColumnVector].
  2:{ cbn [b_SetColumnVector]. apply (m_SetColumn_bad (MBlk b) r c f k v); auto. }
  apply panA. unfold a2_SetColumnVector. pose proof (MatIs_cols _ _ _ _ H) as Ec. pose proof (MatIs_rows _ _ _ _ H) as Er.
  cbn [m_rows] in Er. rewrite Er. change (v_Dimension (VArr v)) with (len v).
  assert (Ek : checkColumnIndex (MArr a) k = Ok tt \/ checkColumnIndex (MArr a) k = Err EOutOfRange).
  { destruct (inb k c) eqn:Ek; [apply inb_true in Ek; left; apply (checkColumnIndex_ok _ c); auto|].
    apply inb_false in Ek. right. apply (checkColumnIndex_err _ c); auto. }
  destruct (Z.eqb_spec (len v) r) as [Ev|]; [|destruct Ek as [-> | ->]; eexists; reflexivity].
  assert (Ek' : checkColumnIndex (MArr a) k = Err EOutOfRange) by (apply (checkColumnIndex_err _ c); auto; tauto).
  rewrite Ek'. cbn [negb bind]. apply panics_bind.
  apply MatIs_arr_inv in H. destruct H as (d & -> & Hr & Hc & HT). unfold a2_d. cbn [a2_data].
  rewrite for_step by lia. apply panics_bind. unfold v_At, arv_At. cbn [v_data]. rewrite checkIndex_ok by lia. cbn [orpanic bind].
  rewrite zget_ok by lia. cbn [bind]. unfold mset. destruct (RTab_row _ _ _ _ 0 HT ltac:(lia)) as (row & -> & Hl & _). cbn [bind].
  unfold zset. rewrite Hl. destruct (inb k c) eqn:E; [apply inb_true in E; tauto|]. eexists; reflexivity.
Qed.
Lemma m_SetRowMatrix_bad m r c f k n r' c' g : general m -> MatIs m r c f -> MatIs n r' c' g ->
  ~ (0 <= k < r /\ r' = 1 /\ c' = c) -> panics (m_SetRowMatrix m k n).
Proof.
  intros Hg H Hn' Hn. destruct (inb k r) eqn:Ek.
  2:{ apply inb_false in Ek. apply (m_row_bad m r c f k [] (VArr []) n Hg H Ek). }
  apply inb_true in Ek. pose proof (MatIs_cols _ _ _ _ H) as Ec. pose proof (MatIs_rows _ _ _ _ H) as Er.
  pose proof (MatIs_cols _ _ _ _ Hn') as Ec'. pose proof (MatIs_rows _ _ _ _ Hn') as Er'.
  destruct m as [a|b|d|? ? ?]; try contradiction; cbn [m_SetRowMatrix]; [apply panA|apply panB];
  unfold a2_SetRowMatrix, b_SetRowMatrix; rewrite checkRowIndex_ok by (rewrite Er; auto); cbn [orpanic bind].
  - cbn [m_cols] in Ec. rewrite Ec, Ec', Er'. cbn [bind].
    destruct (Z.eqb_spec r' 1), (Z.eqb_spec c' c); cbn [negb orb]; try (eexists; reflexivity). tauto.
  - cbn [m_cols] in Ec. injection Ec as ->. rewrite Ec', Er'. cbn [bind].
    destruct (Z.eqb_spec r' 1), (Z.eqb_spec c' c); cbn [negb orb]; try (eexists; reflexivity). tauto.
Qed.
Lemma m_SetColumnMatrix_bad m r c f k n r' c' g : general m -> MatIs m r c f -> MatIs n r' c' g ->
  ~ (0 <= k < c /\ r' = r /\ c' = 1) -> panics (m_SetColumnMatrix m k n).
Proof.
  intros Hg H Hn' Hn. destruct (inb k c) eqn:Ek.
  2:{ apply inb_false in Ek. apply (m_col_bad m r c f k [] n Hg H Ek). }
  apply inb_true in Ek. pose proof (MatIs_cols _ _ _ _ H) as Ec. pose proof (MatIs_rows _ _ _ _ H) as Er.
  pose proof (MatIs_cols _ _ _ _ Hn') as Ec'. pose proof (MatIs_rows _ _ _ _ Hn') as Er'.
  destruct m as [a|b|d|? ? ?]; try contradiction; cbn [m_SetColumnMatrix]; [apply panA|apply panB];
  unfold a2_SetColumnMatrix, b_SetColumnMatrix; rewrite (checkColumnIndex_ok _ c) by auto; cbn [orpanic bind].
  - cbn [m_rows] in Er. rewrite Er, Ec', Er'. cbn [bind].
    destruct (Z.eqb_spec r' r), (Z.eqb_spec c' 1); cbn [negb orb]; try (eexists; reflexivity). tauto.
  - cbn [m_rows] in Er. rewrite Er, Ec', Er'. cbn [bind].
    destruct (Z.eqb_spec r' r), (Z.eqb_spec c' 1); cbn [negb orb]; try (eexists; reflexivity). tauto.
Qed.
Lemma nthZ_In {A} `{Default A} (l : list A) i : 0 <= i < len l -> In (nthZ l i) l.
Proof. intros Hi. unfold nthZ. apply nth_In. unfold len in Hi. lia. Qed.
Lemma In_nthZ {A} `{Default A} (l : list A) x : In x l -> exists i, 0 <= i < len l /\ nthZ l i = x.
Proof.
  intros Hx. destruct (In_nth l x dflt Hx) as (n & Hn & E). exists (Z.of_nat n). unfold len, nthZ. rewrite Nat2Z.id. split; [lia|exact E].
Qed.
Lemma rectb_true d : rectb d = true -> rect d (len d) (len (nthZ d 0)).
Proof.
  intros H. split; auto. intros i Hi. unfold rectb in H. rewrite forallb_forall in H.
  apply Z.eqb_eq. apply H. apply nthZ_In. auto.
Qed.
Lemma forallb_false {A} (p : A -> bool) l : forallb p l = false -> exists x, In x l /\ p x = false.
Proof.
  induction l as [|x l IH]; cbn; [discriminate|]. destruct (p x) eqn:E; cbn.
  - intros H. destruct (IH H) as (y & ? & ?). eauto.
  - intros _. eauto.
Qed.
Lemma rectb_false d : rectb d = false -> exists i, 0 <= i < len d /\ len (nthZ d i) <> len (nthZ d 0).
Proof.
  intros H. apply forallb_false in H. destruct H as (l & Hl & E). apply In_nthZ in Hl. destruct Hl as (i & Hi & <-).
  exists i. split; auto. apply Z.eqb_neq. auto.
Qed.

Lemma rectb_ok d : rectb d = true <-> (forall i, 0 <= i < len d -> len (nthZ d i) = len (nthZ d 0)).
Proof.
  split.
  - intros H. apply (rectb_true d H).
  - intros H. destruct (rectb d) eqn:E; auto. apply rectb_false in E. destruct E as (i & Hi & E). exfalso; auto.
Qed.
Lemma m_SetSub_bad m r c f d row column : general m -> MatIs m r c f ->
  ~ (1 <= len d /\ 1 <= len (nthZ d 0) /\ rectb d = true /\ 0 <= row /\ row + len d <= r /\
     0 <= column /\ column + len (nthZ d 0) <= c) ->
  panics (m_SetSubMatrix m (Some d) row column).
Proof.
  intros Hg H Hn. pose proof (MatIs_rows _ _ _ _ H) as Er. pose proof (MatIs_cols _ _ _ _ H) as Ec.
  pose proof (len_nonneg d) as Hd0. pose proof (len_nonneg (nthZ d 0)) as Hw0.
  destruct m as [a|b|dd|? ? ?]; try contradiction; cbn [m_SetSubMatrix]; [apply panA|apply panB].
  - unfold a2_SetSubMatrix. destruct (Z.eqb_spec (len d) 0); [eexists; reflexivity|].
    rewrite zget_ok by lia. cbn [bind]. destruct (Z.eqb_spec (len (nthZ d 0)) 0); [eexists; reflexivity|].
    pose proof (MatIs_arr_inv _ _ _ _ H) as (dt & -> & Hr & Hc & HT). cbn [a2_data].
    destruct (rectb d) eqn:Eb.
    + rewrite (rows_check_ok d (len d) (len (nthZ d 0)) 1 EDimMismatch Panic) by (try lia; apply rectb_true; auto). cbn [bind].
      destruct (inb row r) eqn:E1.
      2:{ apply inb_false in E1. rewrite checkRowIndex_err by (rewrite Er; auto). eexists; reflexivity. }
      apply inb_true in E1. rewrite checkRowIndex_ok by (rewrite Er; auto). cbn [bind orpanic].
      destruct (inb column c) eqn:E2.
      2:{ apply inb_false in E2. rewrite (checkColumnIndex_err _ c) by auto. eexists; reflexivity. }
      apply inb_true in E2. rewrite (checkColumnIndex_ok _ c) by auto. cbn [bind orpanic].
      destruct (inb (len d + row - 1) r) eqn:E3.
      2:{ apply inb_false in E3. rewrite checkRowIndex_err by (rewrite Er; auto). eexists; reflexivity. }
      apply inb_true in E3. rewrite checkRowIndex_ok by (rewrite Er; auto). cbn [bind orpanic].
      destruct (inb (len (nthZ d 0) + column - 1) c) eqn:E4.
      2:{ apply inb_false in E4. rewrite (checkColumnIndex_err _ c) by auto. eexists; reflexivity. }
      apply inb_true in E4. exfalso. apply Hn. lia.
    + apply rectb_false in Eb. destruct Eb as (i & Hi & Hne).
      rewrite (rows_check_panic d (len d) (len (nthZ d 0)) 1 EDimMismatch Panic); [eexists; reflexivity|discriminate|auto|lia|].
      exists i. split; auto. destruct (Z.eq_dec i 0); [subst; contradiction|lia].
  - unfold b_SetSubMatrix. destruct (Z.eq_dec (len d) 0).
    { rewrite zget_panic by lia. eexists; reflexivity. }
    rewrite zget_ok by lia. cbn [bind]. destruct (Z.eqb_spec (len (nthZ d 0)) 0); [eexists; reflexivity|].
    destruct (rectb d) eqn:Eb.
    + destruct (checkSubMatrixIndex_err (MBlk b) c row (row + len d - 1) column (column + len (nthZ d 0) - 1) Ec) as (e & ->).
      { rewrite Er. intros K. apply Hn. lia. }
      eexists; reflexivity.
    + apply rectb_false in Eb. destruct Eb as (i & Hi & Hne).
      destruct (checkSubMatrixIndex (MBlk b) row (row + len d - 1) column (column + len (nthZ d 0) - 1)) as [[]|e|e]; try (eexists; reflexivity).
      cbn [bind orpanic].
      rewrite (rows_check_panic d (len d) (len (nthZ d 0)) 0 EDimMismatch Panic); [eexists; reflexivity|discriminate|auto|lia|].
      exists i. split; auto.
Qed.
Lemma m_SetSub_nil m r c f row column : general m -> MatIs m r c f -> panics (m_SetSubMatrix m None row column).
Proof. intros Hg H. destruct m as [a|b|dd|? ? ?]; try contradiction; eexists; reflexivity. Qed.

Lemma RTab_self d : rectb d = true -> RTab d (len d) (len (nthZ d 0)) (fun i j => nthZ (nthZ d i) j).
Proof. intros H. split; [apply rectb_true; auto|]. reflexivity. Qed.

Ltac bsplit := repeat match goal with
  | |- context [inb ?a ?b] => let E := fresh "E" in destruct (inb a b) eqn:E; [apply inb_true in E|apply inb_false in E]; cbn [andb]
  | |- context [?a =? ?b] => destruct (Z.eqb_spec a b); cbn [andb]
  | |- context [?a <=? ?b] => destruct (Z.leb_spec a b); cbn [andb]
  | |- context [?a <? ?b] => destruct (Z.ltb_spec a b); cbn [andb]
  end.
Lemma o_exec_ok m r c f o : general m -> MatIs m r c f -> wf_op o ->
  match o_table (r, c, f) o with
  | Some (r', c', f') => gives (o_exec m o) r' c' f'
  | None => panics (o_exec m o)
  end.
Proof.
  intros Hg H Hw. destruct o as [o|k v|k v|k v|k n|k n|d row column| | |r0 r1 c0 c1|x|x|n|n|k|k]; cbn [o_table o_exec].
  - destruct o as [i j x|i j x|i j x]; cbn [e_val e_exec];
    (destruct (inb i r) eqn:Ei; [destruct (inb j c) eqn:Ej|]; cbn [andb];
     [apply inb_true in Ei; apply inb_true in Ej; first [apply m_SetEntry_ok|apply m_AddToEntry_ok|apply m_MultiplyEntry_ok]; auto
     |apply inb_false in Ej; apply (m_entry_bad m r c f i j x Hg H); tauto
     |apply inb_false in Ei; apply (m_entry_bad m r c f i j x Hg H); tauto]).
  - bsplit; try (apply (m_SetColumn_bad m r c f k v Hg H); lia). apply m_SetColumn_ok; auto. subst r. apply VecIs_nth.
  - bsplit; try (apply (m_SetRowVector_bad m r c f k v Hg H); lia). apply m_SetRowVector_ok; eauto. subst c. apply VecIs_nth.
  - bsplit; try (apply (m_SetColumnVector_bad m r c f k v Hg H); lia). apply m_SetColumnVector_ok; eauto. subst r. apply VecIs_nth.
  - destruct Hw as (r' & c' & g & Hn). destruct (MatIs_ent _ _ _ _ Hn) as (He & -> & ->).
    bsplit; try (apply (m_SetRowMatrix_bad m r c f k n r' c' g Hg H Hn); lia). subst. apply m_SetRowMatrix_ok; auto.
  - destruct Hw as (r' & c' & g & Hn). destruct (MatIs_ent _ _ _ _ Hn) as (He & -> & ->).
    bsplit; try (apply (m_SetColumnMatrix_bad m r c f k n r' c' g Hg H Hn); lia). subst. apply m_SetColumnMatrix_ok; auto.
  - fold (rectb d). destruct (rectb d) eqn:Eb.
    + destruct (Z.leb_spec 1 (len d)), (Z.leb_spec 1 (len (nthZ d 0))), (Z.leb_spec 0 row), (Z.leb_spec (row + len d) r),
       (Z.leb_spec 0 column), (Z.leb_spec (column + len (nthZ d 0)) c); cbn [andb];
      try (apply (m_SetSub_bad m r c f d row column Hg H); lia).
      apply (m_SetSubMatrix_ok m r c f d (len d) (len (nthZ d 0)) (fun i j => nthZ (nthZ d i) j)); auto. apply RTab_self; auto.
    + replace ((1 <=? len d) && (1 <=? len (nthZ d 0)) && false) with false by (destruct ((1 <=? len d) && (1 <=? len (nthZ d 0))); auto).
      cbn [andb]. apply (m_SetSub_bad m r c f d row column Hg H). rewrite Eb. intuition congruence.
  - apply m_Transpose_ok; auto.
  - apply m_Copy_ok; auto.
  - bsplit; try (apply (m_SubMatrix_bad m r c f r0 r1 c0 c1 Hg H); lia). apply (m_SubMatrix_ok m r c f r0 r1 c0 c1); auto.
  - apply m_ScalarAdd_ok; auto.
  - apply m_ScalarMultiply_ok; auto.
  - destruct Hw as (r' & c' & g & Hn). destruct (MatIs_ent _ _ _ _ Hn) as (He & -> & ->).
    assert (Hlib : library m) by (destruct m; try contradiction; exact I).
    bsplit; try (apply (m_Add_bad m n r c f r' c' g Hlib H Hn); lia). subst. apply m_Add_ok; auto.
  - destruct Hw as (r' & c' & g & Hn). destruct (MatIs_ent _ _ _ _ Hn) as (He & -> & ->).
    assert (Hlib : library m) by (destruct m; try contradiction; exact I).
    bsplit; try (apply (m_Add_bad m n r c f r' c' g Hlib H Hn); lia). subst. apply m_Subtract_ok; auto.
  - bsplit; [apply (m_RowMatrixAt_ok m r c f k); auto|apply (m_row_bad m r c f k [] (VArr []) (MOther 0 0 (fun _ _ => fzero)) Hg H E)].
  - bsplit; [apply (m_ColumnMatrixAt_ok m r c f k); auto|apply (m_col_bad m r c f k [] (MOther 0 0 (fun _ _ => fzero)) Hg H E)].
Qed.
Lemma o_run_ok os : forall m r c f, general m -> MatIs m r c f -> Forall wf_op os ->
  match o_tables (r, c, f) os with
  | Some (r', c', f') => gives (o_run m os) r' c' f'
  | None => panics (o_run m os)
  end.
Proof.
  induction os as [|o os IH]; intros m r c f Hg H Hw; cbn [o_run o_tables].
  - exists m. auto.
  - inversion_clear Hw. pose proof (o_exec_ok m r c f o Hg H H0) as G. destruct (o_table (r, c, f) o) as [[[r' c'] f']|].
    + destruct G as (m' & -> & Hg' & H'). cbn [bind]. apply IH; auto.
    + destruct G as (e & ->). exists e. reflexivity.
Qed.

Lemma o_run_same os m n : same m n -> Forall wf_op os -> same_res (o_run m os) (o_run n os).
Proof.
  intros (r & c & f & Hgm & Hgn & Hm & Hn) Hw.
  pose proof (o_run_ok os m r c f Hgm Hm Hw) as G1. pose proof (o_run_ok os n r c f Hgn Hn Hw) as G2.
  destruct (o_tables (r, c, f) os) as [[[r' c'] f']|].
  - left. destruct G1 as (m' & -> & ? & ?), G2 as (n' & -> & ? & ?). exists m', n'. split; auto. split; auto.
    exists r', c', f'. auto.
  - right. auto.
Qed.
Lemma VTab_unique (v w : vec) n f : VTab v n f -> VTab w n f -> v = w.
Proof. intros [H1 H2] [H3 H4]. apply list_ext; [lia|]. intros i Hi. rewrite H2, H4 by lia. auto. Qed.
Lemma RTab_unique (d e : mat) r c f : RTab d r c f -> RTab e r c f -> d = e.
Proof.
  intros H1 H2. pose proof H1 as [[L1 _] _]. pose proof H2 as [[L2 _] _]. apply list_ext; [lia|]. intros i Hi.
  destruct (RTab_row _ _ _ _ i H1 ltac:(lia)) as (x & E1 & Lx & Vx). destruct (RTab_row _ _ _ _ i H2 ltac:(lia)) as (y & E2 & Ly & Vy).
  rewrite zget_ok in E1, E2 by lia. injection E1 as ->. injection E2 as ->.
  apply (VTab_unique x y c (f i)); split; auto.
Qed.
Lemma gen_lib m : general m -> library m.
Proof. destruct m; cbn; auto. Qed.
Lemma same_reads_ok m n : same m n -> same_reads m n.
Proof.
  intros (r & c & f & Hgm & Hgn & Hm & Hn). unfold same_reads.
  pose proof (gen_lib _ Hgm) as Lm. pose proof (gen_lib _ Hgn) as Ln.
  split; [rewrite (MatIs_rows _ _ _ _ Hm), (MatIs_rows _ _ _ _ Hn); auto|].
  split; [rewrite (MatIs_cols _ _ _ _ Hm), (MatIs_cols _ _ _ _ Hn); auto|].
  split. { destruct (m_Data_ok m r c f Lm Hm) as (x & -> & Hx), (m_Data_ok n r c f Ln Hn) as (y & -> & Hy). f_equal. eapply RTab_unique; eauto. }
  split. { intros i j. destruct Hm as (_ & _ & _ & A1 & A2), Hn as (_ & _ & _ & B1 & B2).
    destruct (inb i r) eqn:Ei; [destruct (inb j c) eqn:Ej|].
    - apply inb_true in Ei. apply inb_true in Ej. left. rewrite A1, B1; auto.
    - apply inb_false in Ej. right. split; [apply A2|apply B2]; tauto.
    - apply inb_false in Ei. right. split; [apply A2|apply B2]; tauto. }
  split. { intros i. destruct (inb i r) eqn:Ei.
    - apply inb_true in Ei. left. destruct (m_RowAt_ok m r c f i Lm Hm Ei) as (x & -> & Hx), (m_RowAt_ok n r c f i Ln Hn Ei) as (y & -> & Hy).
      f_equal. apply VecIs_VTab in Hx. apply VecIs_VTab in Hy. eapply VTab_unique; eauto.
    - apply inb_false in Ei. right. split; [apply (m_row_bad m r c f i [] (VArr []) m Hgm Hm Ei)|apply (m_row_bad n r c f i [] (VArr []) n Hgn Hn Ei)]. }
  split. { intros i. destruct (inb i c) eqn:Ei.
    - apply inb_true in Ei. left. destruct (m_ColumnAt_ok m r c f i Lm Hm Ei) as (x & -> & Hx), (m_ColumnAt_ok n r c f i Ln Hn Ei) as (y & -> & Hy).
      f_equal. apply VecIs_VTab in Hx. apply VecIs_VTab in Hy. eapply VTab_unique; eauto.
    - apply inb_false in Ei. right. split; [apply (m_col_bad m r c f i [] m Hgm Hm Ei)|apply (m_col_bad n r c f i [] n Hgn Hn Ei)]. }
  split. { destruct (Z.eq_dec r c) as [<-|Hne].
    - left. rewrite (m_Trace_ok m r f Lm Hm), (m_Trace_ok n r f Ln Hn). auto.
    - right. split; [apply (m_Trace_bad m r c f Lm Hm Hne)|apply (m_Trace_bad n r c f Ln Hn Hne)]. }
  split.
  2:{ intros p Lp (r' & c' & g & Hp).
    destruct (m_Equals_ok p m r' c' g r c f Lp Hp Hm) as (e & -> & He).
    destruct (m_Equals_ok p n r' c' g r c f Lp Hp Hn) as (e' & -> & He'). f_equal. apply eq_true_iff_eq. tauto. }
  intros p (r' & c' & g & Hp).
  destruct (m_Equals_ok m p r c f r' c' g Lm Hm Hp) as (e & -> & He).
  destruct (m_Equals_ok n p r c f r' c' g Ln Hn Hp) as (e' & -> & He'). f_equal. apply eq_true_iff_eq. tauto.
Qed.

(** ** Constructors *)
Lemma good_dec d : good d \/ ~ good d.
Proof.
  unfold good. destruct (Z_le_dec 1 (len d)), (Z_le_dec 1 (len (nthZ d 0))), (rectb d); intuition congruence.
Qed.
Lemma ragged d : 1 <= len d -> rectb d = false -> exists i, 1 <= i < len d /\ len (nthZ d i) <> len (nthZ d 0).
Proof.
  intros H1 H. apply rectb_false in H. destruct H as (i & Hi & Hne). exists i. split; auto.
  destruct (Z.eq_dec i 0); [subst; contradiction|lia].
Qed.
Lemma bad_cases d : ~ good d -> len d = 0 \/ (1 <= len d /\ len (nthZ d 0) = 0 /\ rectb d = true) \/ (1 <= len d /\ rectb d = false).
Proof.
  intros H. pose proof (len_nonneg d). pose proof (len_nonneg (nthZ d 0)). unfold good in H.
  destruct (Z.eq_dec (len d) 0); [auto|]. right. destruct (rectb d); [left|right; split; [lia|auto]].
  split; [lia|]. split; auto. destruct (Z.eq_dec (len (nthZ d 0)) 0); auto. exfalso. apply H. split; [lia|]. split; [lia|auto].
Qed.
Lemma bad_copyIn_loop (d data : mat) nc : len d = len data ->
  forall lo dt, len dt = len data -> 0 <= lo -> (exists i, lo <= i < len data /\ len (nthZ d i) <> nc) ->
  panics (for_ lo (len data) (fun i data =>
          let* si := zget d i in
          if negb (len si =? nc) then Panic EDimMismatch else
          let* r := zget data (i + 0) in
          let* r := slice_copy r 0 (0 + nc) si 0 nc in
          zset data (i + 0) r) dt).
Proof.
  intros Hl lo dt Hdt Hlo (i & Hi & Hne).
  remember (Z.to_nat (i - lo)) as n eqn:En. revert lo dt Hdt Hlo Hi En. induction n; intros.
  - assert (i = lo) by lia. subst. rewrite for_step by lia. rewrite zget_ok by lia. cbn [bind].
    destruct (Z.eqb_spec (len (nthZ d lo)) nc); [contradiction|]. eexists; reflexivity.
  - rewrite for_step by lia. rewrite zget_ok by lia. cbn [bind].
    destruct (Z.eqb_spec (len (nthZ d lo)) nc); cbn [negb]; [|eexists; reflexivity].
    rewrite zget_ok by lia. cbn [bind].
    destruct (slice_copy (nthZ dt (lo + 0)) 0 (0 + nc) (nthZ d lo) 0 nc) as [r| |]  eqn:E; cbn [bind]; [| |eexists; reflexivity].
    2:{ exfalso. unfold slice_copy in E. repeat match type of E with (if ?b then _ else _) = _ => destruct b end; discriminate. }
    rewrite zset_ok by lia. cbn [bind]. apply IHn; rewrite ?len_upd; lia.
Qed.

Lemma FromSlices_copy_bad d : ~ good d -> panics (NewArray2DRowRealMatrixFromSlices (Some d) true).
Proof.
  intros H. pose proof (len_nonneg d) as L0. unfold NewArray2DRowRealMatrixFromSlices, a2_copyIn, a2_SetSubMatrix. cbn [a2_data].
  destruct (bad_cases d H) as [->|[(L & E & _)|(L & E)]]; [eexists; reflexivity|..].
  - destruct (Z.eqb_spec (len d) 0); [eexists; reflexivity|]. rewrite zget_ok by lia. cbn [bind]. rewrite E. eexists; reflexivity.
  - destruct (Z.eqb_spec (len d) 0); [eexists; reflexivity|]. rewrite zget_ok by lia. cbn [bind].
    destruct (Z.eqb_spec (len (nthZ d 0)) 0); [eexists; reflexivity|].
    cbn [Z.ltb Z.compare]. rewrite make_ok by lia. cbn [bind].
    assert (W : wp (for_ 0 (len d) (fun i data => let* r := make fzero (len (nthZ d 0)) in zset data i r) (repeat [] (Z.to_nat (len d))))
       (fun data : mat => len data = len d)).
    { apply wp_for with (P := fun _ data => len data = len d); auto.
      - apply len_repeat; auto.
      - intros i dt Hi Hdt. rewrite make_ok by apply len_nonneg. cbn [bind]. rewrite zset_ok by lia. apply wp_ok. rewrite len_upd. auto. }
    destruct W as (data & -> & Hdata). cbn [bind]. apply panics_bind. apply bad_copyIn_loop; auto; try lia.
    rewrite Hdata. destruct (ragged d L E) as (i & Hi & Hne). exists i. split; auto. lia.
Qed.
Lemma FromSlices_ref_bad d : ~ good d -> exists e, NewArray2DRowRealMatrixFromSlices (Some d) false = Err e.
Proof.
  intros H. pose proof (len_nonneg d) as L0. unfold NewArray2DRowRealMatrixFromSlices.
  destruct (Z.eqb_spec (len d) 0); [eexists; reflexivity|]. rewrite zget_ok by lia. cbn [bind].
  destruct (Z.eqb_spec (len (nthZ d 0)) 0); [eexists; reflexivity|].
  destruct (bad_cases d H) as [?|[(L & E & _)|(L & E)]]; [lia|congruence|].
  rewrite (rows_check_panic d (len d) (len (nthZ d 0)) 1 EDimMismatch Err); [eexists; reflexivity|discriminate|auto|lia|].
  apply ragged; auto.
Qed.
Lemma FromSlices_nil : panics (NewArray2DRowRealMatrixFromSlices None true) /\
  exists e, NewArray2DRowRealMatrixFromSlices None false = Err e.
Proof. split; eexists; reflexivity. Qed.
Lemma BlockFromSlices_bad d : ~ good d -> rejects (NewBlockRealMatrixFromSlices d).
Proof.
  intros H. pose proof (len_nonneg d) as L0. unfold NewBlockRealMatrixFromSlices.
  destruct (bad_cases d H) as [E|[(L & E & Er)|(L & E)]].
  - rewrite zget_panic by lia. eexists. left. reflexivity.
  - rewrite zget_ok by lia. cbn [bind]. unfold toBlocksLayout. rewrite zget_ok by lia. cbn [bind].
    rewrite (rows_check_ok d (len d) (len (nthZ d 0)) 0 EDimMismatch Panic) by (try lia; apply rectb_true; auto). cbn [bind].
    rewrite E. unfold BLOCK_SIZE. replace ((0 + 52 - 1) / 52) with 0 by reflexivity. rewrite Z.mul_0_r. rewrite make_ok by lia. cbn [bind].
    match goal with |- context [for_ 0 ((len d + 52 - 1) / 52) ?b ?s] =>
      assert (W : wp (for_ 0 ((len d + 52 - 1) / 52) b s) (fun _ => True)) end.
    { apply wp_for with (P := fun _ _ => True); auto.
      - apply Z.div_pos; lia.
      - intros i s Hi _. cbv zeta. rewrite for_nil by lia. apply wp_ok. auto. }
    destruct W as ([bl k] & -> & _). cbn [bind]. unfold NewBlockRealMatrixFromBlockData.
    eexists. right. destruct (Z.ltb_spec (len d) 1); reflexivity.
  - rewrite zget_ok by lia. cbn [bind]. unfold toBlocksLayout. rewrite zget_ok by lia. cbn [bind].
    destruct (ragged d L E) as (i & Hi & Hne).
    rewrite (rows_check_panic d (len d) (len (nthZ d 0)) 0 EDimMismatch Panic); [eexists; left; reflexivity|discriminate|auto|lia|].
    exists i. split; auto. lia.
Qed.
Lemma good_RTab d : good d -> 1 <= len d /\ 1 <= len (nthZ d 0) /\ RTab d (len d) (len (nthZ d 0)) (fun i j => nthZ (nthZ d i) j).
Proof. intros (H1 & H2 & H3). split; auto. split; auto. apply RTab_self; auto. Qed.
Lemma NewRealMatrixFromSlices_bad d : ~ good d -> rejects (NewRealMatrixFromSlices (Some d)).
Proof.
  intros H. unfold NewRealMatrixFromSlices. pose proof (len_nonneg d) as L0. destruct (Z.eq_dec (len d) 0).
  - rewrite zget_panic by lia. eexists. left. reflexivity.
  - rewrite zget_ok by lia. cbn [bind]. destruct (_ <=? _).
    + destruct (FromSlices_copy_bad d H) as (e & ->). eexists. left. reflexivity.
    + destruct (BlockFromSlices_bad d H) as (e & [-> | ->]); eexists; [left|right]; reflexivity.
Qed.
Lemma all_FromSlices_ok d : good d ->
  gives (liftA (NewArray2DRowRealMatrixFromSlices (Some d) true)) (len d) (len (nthZ d 0)) (fun i j => nthZ (nthZ d i) j) /\
  gives (liftA (NewArray2DRowRealMatrixFromSlices (Some d) false)) (len d) (len (nthZ d 0)) (fun i j => nthZ (nthZ d i) j) /\
  gives (liftB (NewBlockRealMatrixFromSlices d)) (len d) (len (nthZ d 0)) (fun i j => nthZ (nthZ d i) j) /\
  gives (NewRealMatrixFromSlices (Some d)) (len d) (len (nthZ d 0)) (fun i j => nthZ (nthZ d i) j).
Proof.
  intros H. destruct (good_RTab d H) as (H1 & H2 & HT).
  assert (G1 : gives (liftA (NewArray2DRowRealMatrixFromSlices (Some d) true)) (len d) (len (nthZ d 0)) (fun i j => nthZ (nthZ d i) j)).
  { apply givesA. apply FromSlices_copy_spec; auto. }
  assert (G3 : gives (liftB (NewBlockRealMatrixFromSlices d)) (len d) (len (nthZ d 0)) (fun i j => nthZ (nthZ d i) j)).
  { apply givesB. apply NewBlockRealMatrixFromSlices_spec; auto. }
  split; auto. split; [apply givesA; apply FromSlices_ref_spec; auto|]. split; auto.
  unfold NewRealMatrixFromSlices. rewrite zget_ok by lia. cbn [bind]. destruct (_ <=? _); auto.
Qed.
(** Data of what was built from [d] is [d] again, and building from Data gives
    the same matrix. *)
Lemma Data_roundtrip d m : good d -> general m -> MatIs m (len d) (len (nthZ d 0)) (fun i j => nthZ (nthZ d i) j) -> m_Data m = Ok d.
Proof.
  intros H Hg HM. destruct (m_Data_ok m _ _ _ (gen_lib _ Hg) HM) as (e & -> & He). f_equal.
  destruct (good_RTab d H) as (_ & _ & HT). eapply RTab_unique; eauto.
Qed.
Lemma Data_good m r c f : library m -> 1 <= r -> 1 <= c -> MatIs m r c f -> exists d, m_Data m = Ok d /\ good d /\ len d = r /\ len (nthZ d 0) = c /\
   forall i j, 0 <= i < r -> 0 <= j < c -> nthZ (nthZ d i) j = f i j.
Proof.
  intros Hl Hr Hc H. destruct (m_Data_ok m r c f Hl H) as (d & -> & [[L1 L2] HV]). exists d. split; auto.
  assert (E0 : len (nthZ d 0) = c) by (apply L2; lia).
  split; [|split; [auto|split; auto]]. split; [lia|]. split; [lia|]. apply rectb_ok. intros i Hi. rewrite E0. apply L2. lia.
Qed.
End Hist.

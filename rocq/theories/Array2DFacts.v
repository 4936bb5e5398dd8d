(** Proofs about the Array2DRowRealMatrix model. *)
From Coq Require Import ZArith List Lia Bool.
From Verif Require Import Base BaseLemmas Scalar Vector VecSpec VectorFacts Matrix Array2D MatSpec MatFacts.
Import ListNotations.
Open Scope Z_scope.

Global Instance default_option {A} : Default (option A) := None.

(** Rules for stepping through a call. *)
Ltac wpb := apply wp_bind.
Ltac simp := cbn [bind orpanic fst snd].

(** Decide the integer comparisons in the goal. *)
Ltac zb := repeat (match goal with
  | |- context [(?x <=? ?y)%Z] => destruct (Z.leb_spec x y)
  | |- context [(?x <? ?y)%Z] => destruct (Z.ltb_spec x y)
  | |- context [(?x =? ?y)%Z] => destruct (Z.eqb_spec x y)
  end; try (exfalso; lia)); cbn [andb orb negb]; auto.

Section A2DFacts.
Context {O : Ops}.

Definition VTab (l : vec) (n : Z) (f : Z -> F) : Prop :=
  len l = n /\ forall j, 0 <= j < n -> nthZ l j = f j.
Lemma VTab_VecIs l n f : VTab l n f <-> VecIs (VArr l) n f.
Proof.
  split.
  - intros [H1 H2]. apply VecIs_intro; auto.
  - intros H. apply VecIs_elim in H. auto.
Qed.
Lemma VTab_ext l n f g : VTab l n f -> (forall j, 0 <= j < n -> f j = g j) -> VTab l n g.
Proof. intros [H1 H2] H. split; auto. intros. rewrite H2; auto. Qed.
Lemma VTab_get l n f i : VTab l n f -> 0 <= i < n -> zget l i = Ok (f i).
Proof. intros [H1 H2] Hi. rewrite zget_ok by lia. f_equal; auto. Qed.
Lemma VTab_set l n f i v : VTab l n f -> 0 <= i < n ->
  exists l', zset l i v = Ok l' /\ VTab l' n (fun j => if j =? i then v else f j).
Proof.
  intros [H1 H2] Hi. rewrite zset_ok by lia. eexists; split; [reflexivity|]. split.
  - rewrite len_upd; auto.
  - intros j Hj. rewrite nthZ_upd by lia. rewrite (Z.eqb_sym j i). destruct (i =? j); auto.
Qed.
Lemma VTab_zeros n : 0 <= n -> VTab (repeat fzero (Z.to_nat n)) n (fun _ => fzero).
Proof. intros. split; [apply len_repeat; auto|]. intros; apply nthZ_repeat; auto. Qed.
Lemma wp_fillv (body : Z -> vec -> res vec) n f l (Q : vec -> Prop) :
  0 <= n -> len l = n ->
  (forall i l', 0 <= i < n -> len l' = n -> (forall j, i <= j < n -> nthZ l' j = nthZ l j) ->
      body i l' = zset l' i (f i)) ->
  (forall r, VTab r n f -> Q r) ->
  wp (for_ 0 n body l) Q.
Proof. intros. apply fill_all with (f := f); auto. intros. apply H2. apply VTab_VecIs; auto. Qed.

(** Building a table row by row. *)
Lemma wp_build_rows (body : Z -> mat -> res mat) r c f (Q : mat -> Prop) d0 :
  0 <= r -> len d0 = r ->
  (forall i d, 0 <= i < r -> len d = r -> nthZ d i = nthZ d0 i ->
     wp (body i d) (fun d' => exists row, d' = upd d i row /\ VTab row c (f i))) ->
  (forall d, RTab d r c f -> Q d) ->
  wp (for_ 0 r body d0) Q.
Proof.
  intros Hr Hd0 Hb HQ.
  apply (wp_for (fun k d => len d = r /\ (forall i, 0 <= i < k -> VTab (nthZ d i) c (f i)) /\
     (forall i, k <= i < r -> nthZ d i = nthZ d0 i))); auto.
  - repeat split; auto; lia.
  - intros i d Hi (Hl & Hd & Hd'). eapply wp_conseq; [apply Hb; auto; apply Hd'; lia|].
    intros d' (row & -> & Hrow). split; [rewrite len_upd; auto|]. split.
    + intros k Hk. rewrite nthZ_upd by lia. destruct (Z.eqb_spec i k); [subst; auto|]. apply Hd. lia.
    + intros k Hk. rewrite nthZ_upd by lia. destruct (Z.eqb_spec i k); [lia|]. apply Hd'; lia.
  - intros d (Hl & Hd & _). apply HQ. split; [split; auto|].
    + intros i Hi. apply (Hd i Hi).
    + intros i j Hi Hj. apply (Hd i Hi); auto.
Qed.

(** Loops over the rows and columns of an r by c table. *)
Lemma wp_for2 (P : Z -> Z -> mat -> Prop) (body : Z -> Z -> mat -> res mat) r c d (Q : mat -> Prop) :
  0 <= r -> 0 <= c -> P 0 0 d ->
  (forall i j d, 0 <= i < r -> 0 <= j < c -> P i j d -> wp (body i j d) (P i (j + 1))) ->
  (forall i d, 0 <= i < r -> P i c d -> P (i + 1) 0 d) ->
  (forall d, P r 0 d -> Q d) ->
  wp (for_ 0 r (fun i d => for_ 0 c (fun j d => body i j d) d) d) Q.
Proof.
  intros Hr Hc H0 Hs Hn HQ. apply (wp_for (fun i d => P i 0 d)); auto.
  intros i d' Hi HP. apply (wp_for (fun j d => P i j d)); auto.
Qed.

Lemma make2_spec r c : 0 <= r -> 0 <= c -> wp (make2 r c) (fun d => RTab d r c (fun _ _ => fzero)).
Proof.
  intros. unfold make2. wpb. apply wp_make; auto.
  apply wp_build_rows with (c := c) (f := fun _ _ => fzero); auto.
  - apply len_repeat; auto.
  - intros i d Hi Hl _. wpb. apply wp_make; auto. apply wp_zset; [lia|]. eexists; split; eauto. apply VTab_zeros; auto.
Qed.
Lemma NewArray2DRowRealMatrix_spec r c : 1 <= r -> 1 <= c ->
  wp (NewArray2DRowRealMatrix r c) (fun a => MatIs (MArr a) r c (fun _ _ => fzero)).
Proof.
  intros. unfold NewArray2DRowRealMatrix. destruct (Z.ltb_spec r 1), (Z.ltb_spec c 1); try lia.
  wpb. eapply wp_conseq; [apply make2_spec; lia|]. intros d Hd. apply wp_ok. apply MatIs_arr; auto.
Qed.
Lemma NewArray2DRowRealMatrix_err r c : ~ (1 <= r /\ 1 <= c) ->
  NewArray2DRowRealMatrix r c = Err ENotStrictlyPositive.
Proof. intros. unfold NewArray2DRowRealMatrix. destruct (Z.ltb_spec r 1), (Z.ltb_spec c 1); auto; lia. Qed.

(** Checking that all rows have the same length. *)
Lemma rows_check_ok (d : mat) r c lo e (P : err -> res unit) : rect d r c -> 0 <= lo -> lo <= r ->
  for_ lo r (fun i (_ : unit) => let* row := zget d i in
     if negb (len row =? c) then P e else Ok tt) tt = Ok tt.
Proof.
  intros [Hl Hr] H0 H1.
  cut (wp (for_ lo r (fun i (_ : unit) => let* row := zget d i in
     if negb (len row =? c) then P e else Ok tt) tt) (fun x => x = tt)).
  { intros (x & -> & ->). auto. }
  apply (wp_for (fun _ x => x = tt)); auto. intros i s Hi _.
  rewrite zget_ok by lia. simp. rewrite Hr by lia. rewrite Z.eqb_refl. simpl. apply wp_ok; auto.
Qed.
Lemma rows_check_panic (d : mat) r c lo e (P : err -> res unit) : (forall e x, P e <> Ok x) -> len d = r -> 0 <= lo ->
  (exists i, lo <= i < r /\ len (nthZ d i) <> c) ->
  for_ lo r (fun i (_ : unit) => let* row := zget d i in
     if negb (len row =? c) then P e else Ok tt) tt = P e.
Proof.
  intros HP Hl H0 (i & Hi & Hne).
  remember (Z.to_nat (i - lo)) as n eqn:En. revert lo H0 Hi En. induction n; intros.
  - assert (i = lo) by lia. subst. rewrite for_step by lia. rewrite zget_ok by lia. simp.
    destruct (Z.eqb_spec (len (nthZ d lo)) c); [congruence|]. simpl.
    specialize (HP e). destruct (P e); auto. exfalso; eapply HP; eauto.
  - rewrite for_step by lia. rewrite zget_ok by lia. simp.
    destruct (Z.eqb_spec (len (nthZ d lo)) c); simpl.
    + apply IHn; lia.
    + specialize (HP e). destruct (P e); auto. exfalso; eapply HP; eauto.
Qed.

Lemma a2_copyIn_spec d r c f : 1 <= r -> 1 <= c -> RTab d r c f ->
  wp (a2_copyIn (mkA2D None) (Some d)) (fun a => MatIs (MArr a) r c f).
Proof.
  intros Hr Hc HT. pose proof HT as [[Hl Hrr] Hv]. unfold a2_copyIn, a2_SetSubMatrix. rewrite Hl.
  destruct (Z.eqb_spec r 0); [lia|]. rewrite zget_ok by lia. simp. rewrite Hrr by lia.
  destruct (Z.eqb_spec c 0); [lia|]. cbn [a2_data]. simpl.
  wpb. apply wp_make; [lia|]. wpb.
  apply wp_build_rows with (c := c) (f := fun _ _ => fzero); try lia.
  { apply len_repeat; lia. }
  { intros i d' Hi Hl' _. wpb. apply wp_make; [lia|]. apply wp_zset; [lia|]. eexists; split; eauto. apply VTab_zeros; lia. }
  intros d0 HT0. pose proof HT0 as [[Hl0 Hr0] _]. rewrite Hl0. wpb.
  apply wp_build_rows with (c := c) (f := f); try lia.
  { intros i d' Hi Hl' Hn. rewrite zget_ok by lia. simp. rewrite Hrr, Z.eqb_refl by lia. cbn [negb].
    replace (i + 0) with i by lia. rewrite zget_ok by lia. simp. rewrite Hn. wpb.
    apply wp_slice_copy; rewrite ?Hr0, ?Hrr by lia; try lia.
    intros row Hlr Hnr. apply wp_zset; [lia|]. eexists; split; eauto.
    split; [auto|]. intros j Hj. rewrite Hnr by lia.
    destruct (Z.leb_spec 0 j), (Z.ltb_spec j (0 + Z.min (c - 0) (c - 0))); try lia. simpl.
    rewrite Z.sub_0_r. auto. }
  intros d1 HT1. apply wp_ok. apply MatIs_arr; auto.
Qed.
Lemma a2_copyOut_spec a r c f : MatIs (MArr a) r c f -> wp (a2_copyOut a) (fun d => RTab d r c f).
Proof.
  intros H. pose proof (MatIs_rows _ _ _ _ H) as Hrows. pose proof (MatIs_cols _ _ _ _ H) as Hcols.
  simpl in Hrows, Hcols.
  apply MatIs_arr_inv in H. destruct H as (d & -> & Hr & Hc & HT). pose proof HT as [[Hl Hrr] Hv].
  unfold a2_copyOut. rewrite Hrows, Hcols. wpb. apply wp_make; [lia|].
  apply wp_build_rows with (c := c) (f := f); try lia; auto.
  - apply len_repeat; lia.
  - intros i d' Hi Hl' _. simp. wpb. apply wp_make; [lia|].
    cbn [a2_d a2_data]. rewrite zget_ok by lia. simp. wpb. rewrite Hrr by lia.
    apply wp_slice_copy; rewrite ?Hrr, ?len_repeat by lia; try lia.
    intros row Hlr Hnr. apply wp_zset; [lia|]. eexists; split; eauto.
    split; [auto|]. intros j Hj. rewrite Hnr by lia.
    destruct (Z.leb_spec 0 j), (Z.ltb_spec j (0 + Z.min (c - 0) (c - 0))); try lia. simpl.
    rewrite Z.sub_0_r. auto.
Qed.
Lemma a2_Copy_spec a r c f : MatIs (MArr a) r c f -> wp (a2_Copy a) (fun a' => MatIs (MArr a') r c f).
Proof.
  intros H. pose proof (MatIs_arr_inv _ _ _ _ H) as (d & _ & Hr & Hc & _).
  unfold a2_Copy. wpb. eapply wp_conseq; [apply a2_copyOut_spec; eauto|].
  intros out Hout. apply a2_copyIn_spec; auto.
Qed.
Lemma FromSlices_copy_spec d r c f : 1 <= r -> 1 <= c -> RTab d r c f ->
  wp (NewArray2DRowRealMatrixFromSlices (Some d) true) (fun a => MatIs (MArr a) r c f).
Proof. intros. apply a2_copyIn_spec; auto. Qed.
Lemma FromSlices_ref_spec d r c f : 1 <= r -> 1 <= c -> RTab d r c f ->
  wp (NewArray2DRowRealMatrixFromSlices (Some d) false) (fun a => MatIs (MArr a) r c f).
Proof.
  intros Hr Hc HT. pose proof HT as [[Hl Hrr] Hv]. unfold NewArray2DRowRealMatrixFromSlices. rewrite Hl.
  destruct (Z.eqb_spec r 0); [lia|]. rewrite zget_ok by lia. simp. rewrite Hrr by lia.
  destruct (Z.eqb_spec c 0); [lia|].
  pose proof (rows_check_ok d r c 1 EDimMismatch (fun e => Err e) (conj Hl Hrr) ltac:(lia) ltac:(lia)) as E.
  cbn beta in E. rewrite E. simp. apply wp_ok, MatIs_arr; auto.
Qed.

(** Entrywise arithmetic. *)
Lemma a2_binop_spec (op : F -> F -> F) a m r c f g res0 :
  MatIs (MArr a) r c f -> MatIs m r c g ->
  res0 = (
  let* _ := orpanic (checkAdditionCompatible (MArr a) m) in
  match m with
  | MArr ma =>
      let rowCount := a2_rows a in
      let* columnCount := a2_cols a in
      let* outData := make [] rowCount in
      let* outData := for_ 0 rowCount (fun row outData =>
        let* dataRow := zget (a2_d a) row in
        let* mRow := zget (a2_d ma) row in
        let* outDataRow := make fzero columnCount in
        let* outDataRow := for_ 0 columnCount (fun col outDataRow =>
          let* x := zget dataRow col in
          let* y := zget mRow col in
          zset outDataRow col (op x y)%f) outDataRow in
        zset outData row outDataRow) outData in
      Ok (mkA2D (Some outData))
  | _ =>
      let rowCount := a2_rows a in
      let* columnCount := a2_cols a in
      let* outData := make [] rowCount in
      let* outData := for_ 0 rowCount (fun row outData =>
        let* dataRow := zget (a2_d a) row in
        let* outDataRow := make fzero columnCount in
        let* outDataRow := for_ 0 columnCount (fun col outDataRow =>
          let* x := zget dataRow col in
          let* y := m_At m row col in
          zset outDataRow col (op x y)%f) outDataRow in
        zset outData row outDataRow) outData in
      Ok (mkA2D (Some outData))
  end) ->
  wp res0 (fun a' => MatIs (MArr a') r c (fun i j => op (f i j) (g i j))).
Proof.
  intros Ha Hm ->. pose proof (MatIs_rows _ _ _ _ Ha) as Hrows. pose proof (MatIs_cols _ _ _ _ Ha) as Hcols.
  rewrite (checkAddition_ok _ _ c) by (rewrite ?(MatIs_rows _ _ _ _ Hm), ?Hrows; eauto using MatIs_cols).
  simp. cbn [m_rows m_cols] in *. pose proof (MatIs_arr_inv _ _ _ _ Ha) as (d & E & Hr & Hc & HT).
  assert (Hgen : wp (let rowCount := a2_rows a in
      let* columnCount := a2_cols a in
      let* outData := make [] rowCount in
      let* outData := for_ 0 rowCount (fun row outData =>
        let* dataRow := zget (a2_d a) row in
        let* outDataRow := make fzero columnCount in
        let* outDataRow := for_ 0 columnCount (fun col outDataRow =>
          let* x := zget dataRow col in
          let* y := m_At m row col in
          zset outDataRow col (op x y)%f) outDataRow in
        zset outData row outDataRow) outData in
      Ok (mkA2D (Some outData)))
      (fun a' => MatIs (MArr a') r c (fun i j => op (f i j) (g i j)))).
  { cbv zeta. rewrite Hrows, Hcols. simp. wpb. apply wp_make; [lia|]. wpb.
    apply wp_build_rows with (c := c) (f := fun i j => op (f i j) (g i j)); try lia.
    - apply len_repeat; lia.
    - intros i d' Hi Hl _. subst a. destruct (RTab_row _ _ _ _ i HT Hi) as (row & Hz & Hlr & Hnr).
      cbn [a2_d a2_data]. rewrite Hz. simp. wpb. apply wp_make; [lia|]. wpb.
      apply wp_fillv with (f := fun j => op (f i j) (g i j)); try lia.
      + apply len_repeat; lia.
      + intros j l' Hj Hl' _. rewrite zget_ok by lia. simp. rewrite (MatIs_At m r c g) by auto. simp. rewrite Hnr; auto.
      + intros r' Hr'. apply wp_zset; [lia|]. eexists; split; eauto.
    - intros d' HT'. apply wp_ok, MatIs_arr; auto. }
  destruct m as [ma|mb|md|mr mc me]; auto. clear Hgen.
  pose proof (MatIs_arr_inv _ _ _ _ Hm) as (dm & Em & _ & _ & HTm).
  rewrite Hrows, Hcols. simp. wpb. apply wp_make; [lia|]. wpb.
  apply wp_build_rows with (c := c) (f := fun i j => op (f i j) (g i j)); try lia.
  - apply len_repeat; lia.
  - intros i d' Hi Hl _. subst a ma. destruct (RTab_row _ _ _ _ i HT Hi) as (row & Hz & Hlr & Hnr).
    destruct (RTab_row _ _ _ _ i HTm Hi) as (mrow & Hzm & Hlm & Hnm).
    cbn [a2_d a2_data]. rewrite Hz, Hzm. simp. wpb. apply wp_make; [lia|]. wpb.
    apply wp_fillv with (f := fun j => op (f i j) (g i j)); try lia.
    + apply len_repeat; lia.
    + intros j l' Hj Hl' _. rewrite !zget_ok by lia. simp. rewrite Hnr, Hnm; auto.
    + intros r' Hr'. apply wp_zset; [lia|]. eexists; split; eauto.
  - intros d' HT'. apply wp_ok, MatIs_arr; auto.
Qed.
Lemma a2_Add_spec a m r c f g : MatIs (MArr a) r c f -> MatIs m r c g ->
  wp (a2_Add a m) (fun a' => MatIs (MArr a') r c (fun i j => (f i j + g i j)%f)).
Proof. intros. eapply (a2_binop_spec fadd); eauto. Qed.
Lemma a2_Subtract_spec a m r c f g : MatIs (MArr a) r c f -> MatIs m r c g ->
  wp (a2_Subtract a m) (fun a' => MatIs (MArr a') r c (fun i j => (f i j - g i j)%f)).
Proof. intros. eapply (a2_binop_spec fsub); eauto. Qed.

Lemma a2_scalar_spec (op : F -> F) a r c f res0 : MatIs (MArr a) r c f ->
  res0 = (let rowCount := a2_rows a in
  let* columnCount := a2_cols a in
  let* outData := make [] rowCount in
  let* outData := for_ 0 rowCount (fun row outData =>
    let* r := make fzero columnCount in
    let* r := for_ 0 columnCount (fun col r =>
      let* x := mget (a2_d a) row col in zset r col (op x)) r in
    zset outData row r) outData in
  Ok (mkA2D (Some outData))) ->
  wp res0 (fun a' => MatIs (MArr a') r c (fun i j => op (f i j))).
Proof.
  intros Ha ->. pose proof (MatIs_rows _ _ _ _ Ha) as Hrows. pose proof (MatIs_cols _ _ _ _ Ha) as Hcols.
  cbn [m_rows m_cols] in *. pose proof (MatIs_arr_inv _ _ _ _ Ha) as (d & E & Hr & Hc & HT).
  cbv zeta. rewrite Hrows, Hcols. simp. wpb. apply wp_make; [lia|]. wpb.
  apply wp_build_rows with (c := c) (f := fun i j => op (f i j)); try lia.
  - apply len_repeat; lia.
  - intros i d' Hi Hl _. wpb. apply wp_make; [lia|]. wpb.
    apply wp_fillv with (f := fun j => op (f i j)); try lia.
    + apply len_repeat; lia.
    + intros j l' Hj Hl' _. subst a. cbn [a2_d a2_data]. rewrite (RTab_get _ _ _ _ i j HT) by auto. auto.
    + intros r' Hr'. apply wp_zset; [lia|]. eexists; split; eauto.
  - intros d' HT'. apply wp_ok, MatIs_arr; auto.
Qed.
Lemma a2_ScalarAdd_spec a x r c f : MatIs (MArr a) r c f ->
  wp (a2_ScalarAdd a x) (fun a' => MatIs (MArr a') r c (fun i j => (f i j + x)%f)).
Proof. intros. eapply (a2_scalar_spec (fun y => (y + x)%f)); eauto. Qed.
Lemma a2_ScalarMultiply_spec a x r c f : MatIs (MArr a) r c f ->
  wp (a2_ScalarMultiply a x) (fun a' => MatIs (MArr a') r c (fun i j => (f i j * x)%f)).
Proof. intros. eapply (a2_scalar_spec (fun y => (y * x)%f)); eauto. Qed.

(** Products. *)
Lemma dot_loop n (body : Z -> F -> res F) g : 0 <= n ->
  (forall i s, 0 <= i < n -> body i s = Ok (s + g i)%f) ->
  for_ 0 n body fzero = Ok (fsum n g).
Proof. intros. apply (for_pure body (fun i s => (s + g i)%f)); auto. Qed.

Lemma a2_Multiply_spec a m r n c f g : MatIs (MArr a) r n f -> MatIs m n c g -> 1 <= c ->
  wp (a2_Multiply a m) (fun a' => MatIs (MArr a') r c (fun i j => fsum n (fun k => (f i k * g k j)%f))).
Proof.
  intros Ha Hm Hc1. pose proof (MatIs_rows _ _ _ _ Ha) as Hrows. pose proof (MatIs_cols _ _ _ _ Ha) as Hcols.
  unfold a2_Multiply.
  rewrite checkMultiplication_ok by (rewrite (MatIs_rows _ _ _ _ Hm); auto).
  simp. cbn [m_rows m_cols] in Hrows, Hcols. pose proof (MatIs_arr_inv _ _ _ _ Ha) as (d & E & Hr & Hn & HT).
  pose proof (MatIs_cols _ _ _ _ Hm) as Hmc.
  assert (Hgen : wp (let nRows := a2_rows a in
      let* nCols := m_cols m in
      let* nSum := a2_cols a in
      let* outData := make [] nRows in
      let* outData := for_ 0 nRows (fun row outData =>
        let* outRow := make fzero nCols in
        let* dataRow := zget (a2_d a) row in
        let* outRow := for_ 0 nCols (fun col outRow =>
          let* sum := for_ 0 nSum (fun i sum =>
            let* x := zget dataRow i in
            let* y := m_At m i col in Ok (sum + x * y)%f) fzero in
          zset outRow col sum) outRow in
        zset outData row outRow) outData in
      Ok (mkA2D (Some outData)))
     (fun a' => MatIs (MArr a') r c (fun i j => fsum n (fun k => (f i k * g k j)%f)))).
  { cbv zeta. rewrite Hrows, Hcols, Hmc. simp. wpb. apply wp_make; [lia|]. wpb.
    apply wp_build_rows with (c := c) (f := fun i j => fsum n (fun k => (f i k * g k j)%f)); try lia.
    - apply len_repeat; lia.
    - intros i d' Hi Hl _. subst a. destruct (RTab_row _ _ _ _ i HT Hi) as (row & Hz & Hlr & Hnr).
      cbn [a2_d a2_data]. wpb. apply wp_make; [lia|]. rewrite Hz. simp. wpb.
      apply wp_fillv with (f := fun j => fsum n (fun k => (f i k * g k j)%f)); try lia.
      + apply len_repeat; lia.
      + intros j l' Hj Hl' _. rewrite (dot_loop n _ (fun k => (f i k * g k j)%f)); auto; try lia.
        intros k s Hk. rewrite zget_ok by lia. simp. rewrite (MatIs_At m n c g) by auto. simp. rewrite Hnr; auto.
      + intros r' Hr'. apply wp_zset; [lia|]. eexists; split; eauto.
    - intros d' HT'. apply wp_ok, MatIs_arr; auto. }
  destruct m as [ma|mb|md|mr mc me]; auto. clear Hgen.
  pose proof (MatIs_arr_inv _ _ _ _ Hm) as (dm & Em & _ & _ & HTm). cbn [m_cols] in Hmc.
  rewrite Hrows, Hcols, Hmc. simp. wpb. apply wp_make; [lia|]. wpb. apply wp_make; [lia|]. wpb.
  set (S := fun i j => fsum n (fun k => (f i k * g k j)%f)).
  eapply (wp_for (fun col (s : list (option vec) * vec) => len (fst s) = r /\ len (snd s) = n /\
    forall i, 0 <= i < r -> match nthZ (fst s) i with
      | None => col = 0
      | Some row => len row = c /\ forall j, 0 <= j < col -> nthZ row j = S i j end)); try lia.
  - cbn [fst snd]. rewrite !len_repeat by lia. repeat split; auto. intros i Hi.
    rewrite nthZ_repeat by auto. auto.
  - intros col [od mc] Hcol (Hlo & Hlm & Hod). cbn [fst snd] in *. wpb.
    apply wp_fillv with (f := fun k => g k col); try lia.
    { intros k l' Hk Hl' _. subst ma. cbn [a2_d a2_data]. rewrite (RTab_get _ _ _ _ k col HTm) by auto. auto. }
    intros mCol HmCol. wpb.
    apply (wp_for (fun k od' => len od' = r /\
       (forall i, 0 <= i < k -> match nthZ od' i with None => False
          | Some row => len row = c /\ forall j, 0 <= j < col + 1 -> nthZ row j = S i j end) /\
       (forall i, k <= i < r -> nthZ od' i = nthZ od i))); try lia.
    + repeat split; auto; lia.
    + intros i od' Hi (Hl' & Hdone & Hrest).
      rewrite (dot_loop n _ (fun k => (f i k * g k col)%f)); try lia.
      2:{ intros k s Hk. subst a. cbn [a2_d a2_data]. rewrite (RTab_get _ _ _ _ i k HT) by auto. simp.
          rewrite (VTab_get _ _ _ k HmCol) by auto. auto. }
      simp. rewrite zget_ok by lia. simp. rewrite Hrest by lia. specialize (Hod i Hi).
      wpb. assert (Hrow : wp (match nthZ od i with None => make fzero c | Some r => Ok r end)
          (fun row => len row = c /\ forall j, 0 <= j < col -> nthZ row j = S i j)).
      { destruct (nthZ od i) as [row|].
        - apply wp_ok. auto.
        - apply wp_make; [lia|]. rewrite len_repeat by lia. split; auto. intros; lia. }
      eapply wp_conseq; [apply Hrow|]. intros row (Hlr & Hnr). wpb. apply wp_zset; [lia|]. apply wp_zset; [lia|].
      rewrite len_upd. split; auto. split.
      * intros i' Hi'. rewrite nthZ_upd by lia. destruct (Z.eqb_spec i i').
        -- subst i'. rewrite len_upd. split; auto. intros j Hj. rewrite nthZ_upd by lia.
           destruct (Z.eqb_spec col j); [subst; auto|]. apply Hnr. lia.
        -- apply Hdone. lia.
      * intros i' Hi'. rewrite nthZ_upd by lia. destruct (Z.eqb_spec i i'); [lia|]. apply Hrest. lia.
    + intros od' (Hl' & Hdone & _). apply wp_ok. cbn [fst snd]. repeat split; auto.
      * apply HmCol.
      * intros i Hi. specialize (Hdone i Hi). destruct (nthZ od' i); [auto|contradiction].
  - intros [od mc] (Hlo & _ & Hod). cbn [fst snd] in *. apply wp_ok. apply MatIs_arr; auto.
    set (un := fun o : option vec => match o with None => [] | Some r0 => r0 end).
    assert (Hnth : forall i, 0 <= i < r -> nthZ (map un od) i = un (nthZ od i)).
    { intros i Hi. unfold nthZ. change (@dflt _ (@default_list F)) with (un None). apply map_nth. }
    split; [split|].
    + rewrite len_map. auto.
    + intros i Hi. rewrite Hnth by auto. specialize (Hod i Hi). destruct (nthZ od i); [apply Hod|lia].
    + intros i j Hi Hj. rewrite Hnth by auto. specialize (Hod i Hi). destruct (nthZ od i); [|lia]. apply Hod; auto.
Qed.

Lemma a2_Transpose_spec a r c f : MatIs (MArr a) r c f ->
  wp (a2_Transpose a) (fun a' => MatIs (MArr a') c r (fun i j => f j i)).
Proof.
  intros Ha. pose proof (MatIs_rows _ _ _ _ Ha) as Hrows. pose proof (MatIs_cols _ _ _ _ Ha) as Hcols.
  cbn [m_rows m_cols] in *. pose proof (MatIs_arr_inv _ _ _ _ Ha) as (d & E & Hr & Hc & HT).
  unfold a2_Transpose. rewrite Hrows, Hcols. simp. wpb. apply wp_make; [lia|]. rewrite len_repeat by lia. wpb.
  apply wp_build_rows with (c := r) (f := fun _ _ => fzero); try lia.
  { apply len_repeat; lia. }
  { intros i d' Hi Hl' _. wpb. apply wp_make; [lia|]. apply wp_zset; [lia|]. eexists; split; eauto. apply VTab_zeros; lia. }
  intros d0 HT0. wpb.
  apply (wp_for2 (fun i j dd => exists t, RTab dd c r t /\ forall p q, 0 <= p < r -> 0 <= q < c ->
     p < i \/ p = i /\ q < j -> t q p = f p q)); try lia.
  - eexists; split; eauto. intros; lia.
  - intros i j dd Hi Hj (t & Ht & Hp). subst a. cbn [a2_d a2_data]. rewrite (RTab_get _ _ _ _ i j HT) by auto. simp.
    destruct (RTab_set _ _ _ _ j i (f i j) Ht Hj Hi) as (d' & -> & HT'). apply wp_ok. eexists; split; eauto.
    intros p q Hp' Hq' Hpq. unfold tset. destruct (Z.eqb_spec q j), (Z.eqb_spec p i); simpl; subst; auto; apply Hp; auto; lia.
  - intros i dd Hi (t & Ht & Hp). exists t. split; auto. intros p q Hp' Hq' Hpq. apply Hp; auto. lia.
  - intros dd (t & Ht & Hp). apply wp_ok. apply MatIs_arr; auto. eapply RTab_ext; eauto. intros. apply Hp; auto. lia.
Qed.

Lemma a2_Trace_spec a n f : MatIs (MArr a) n n f -> a2_Trace a = Ok (fsum n (fun i => f i i)).
Proof.
  intros Ha. pose proof (MatIs_rows _ _ _ _ Ha) as Hrows. pose proof (MatIs_cols _ _ _ _ Ha) as Hcols.
  cbn [m_rows m_cols] in *. pose proof (MatIs_arr_inv _ _ _ _ Ha) as (d & E & Hr & Hc & HT).
  unfold a2_Trace. rewrite Hrows, Hcols. simp. rewrite Z.eqb_refl. cbn [negb].
  apply dot_loop; [lia|]. intros i s Hi. subst a. cbn [a2_d a2_data]. rewrite (RTab_get _ _ _ _ i i HT) by auto. auto.
Qed.

Lemma a2_Operate_spec a r c f v g : MatIs (MArr a) r c f -> VTab v c g ->
  wp (a2_Operate a v) (fun w => VTab w r (fun i => fsum c (fun k => (f i k * g k)%f))).
Proof.
  intros Ha Hv. pose proof (MatIs_rows _ _ _ _ Ha) as Hrows. pose proof (MatIs_cols _ _ _ _ Ha) as Hcols.
  cbn [m_rows m_cols] in *. pose proof (MatIs_arr_inv _ _ _ _ Ha) as (d & E & Hr & Hc & HT).
  unfold a2_Operate. rewrite Hrows, Hcols. simp. rewrite (proj1 Hv), Z.eqb_refl. cbn [negb].
  wpb. apply wp_make; [lia|].
  apply wp_fillv with (f := fun i => fsum c (fun k => (f i k * g k)%f)); auto; try lia.
  - apply len_repeat; lia.
  - intros i l' Hi Hl' _. rewrite (dot_loop c _ (fun k => (f i k * g k)%f)); auto; try lia.
    intros k s Hk. subst a. cbn [a2_d a2_data]. rewrite (RTab_get _ _ _ _ i k HT) by auto. simp.
    rewrite (VTab_get _ _ _ k Hv) by auto. auto.
Qed.
Lemma a2_PreMultiply_spec a r c f v g : MatIs (MArr a) r c f -> VTab v r g ->
  wp (a2_PreMultiply a v) (fun w => VTab w c (fun j => fsum r (fun k => (f k j * g k)%f))).
Proof.
  intros Ha Hv. pose proof (MatIs_rows _ _ _ _ Ha) as Hrows. pose proof (MatIs_cols _ _ _ _ Ha) as Hcols.
  cbn [m_rows m_cols] in *. pose proof (MatIs_arr_inv _ _ _ _ Ha) as (d & E & Hr & Hc & HT).
  unfold a2_PreMultiply. rewrite Hrows, Hcols. simp. rewrite (proj1 Hv), Z.eqb_refl. cbn [negb].
  wpb. apply wp_make; [lia|].
  apply wp_fillv with (f := fun j => fsum r (fun k => (f k j * g k)%f)); auto; try lia.
  - apply len_repeat; lia.
  - intros j l' Hj Hl' _. rewrite (dot_loop r _ (fun k => (f k j * g k)%f)); auto; try lia.
    intros k s Hk. subst a. cbn [a2_d a2_data]. rewrite (RTab_get _ _ _ _ k j HT) by auto. simp.
    rewrite (VTab_get _ _ _ k Hv) by auto. auto.
Qed.

Lemma a2_SubMatrix_spec a r c f r0 r1 c0 c1 : MatIs (MArr a) r c f ->
  0 <= r0 <= r1 -> r1 < r -> 0 <= c0 <= c1 -> c1 < c ->
  wp (a2_SubMatrix a r0 r1 c0 c1) (fun a' =>
    MatIs (MArr a') (r1 - r0 + 1) (c1 - c0 + 1) (fun i j => f (r0 + i) (c0 + j))).
Proof.
  intros Ha H1 H2 H3 H4. pose proof (MatIs_rows _ _ _ _ Ha) as Hrows. pose proof (MatIs_cols _ _ _ _ Ha) as Hcols.
  unfold a2_SubMatrix. rewrite (checkSubMatrixIndex_ok _ c) by (rewrite ?Hrows; auto). simp.
  cbn [m_rows m_cols] in *. pose proof (MatIs_arr_inv _ _ _ _ Ha) as (d & E & Hr & Hc & HT).
  wpb. apply wp_make; [lia|]. wpb.
  apply wp_build_rows with (c := c1 - c0 + 1) (f := fun i j => f (r0 + i) (c0 + j)); try lia.
  - apply len_repeat; lia.
  - intros i d' Hi Hl _. wpb. apply wp_make; [lia|]. subst a. cbn [a2_d a2_data].
    destruct (RTab_row _ _ _ _ (r0 + i) HT) as (row & Hz & Hlr & Hnr); [lia|].
    rewrite Hz. simp. wpb.
    apply wp_slice_copy; rewrite ?len_repeat by lia; try lia.
    intros row' Hlr' Hnr'. apply wp_zset; [lia|]. eexists; split; eauto.
    split; [auto|]. intros j Hj. rewrite Hnr' by lia.
    destruct (Z.leb_spec 0 j), (Z.ltb_spec j (0 + Z.min (c1 - c0 + 1 - 0) (c0 + (c1 - c0 + 1) - c0))); try lia. simpl.
    rewrite Z.sub_0_r. apply Hnr. lia.
  - intros d' HT'. apply wp_ok, MatIs_arr; auto; lia.
Qed.

Lemma a2_SetSubMatrix_spec a r c f d' r' c' g row column : MatIs (MArr a) r c f ->
  1 <= r' -> 1 <= c' -> RTab d' r' c' g -> 0 <= row -> 0 <= column -> row + r' <= r -> column + c' <= c ->
  wp (a2_SetSubMatrix a (Some d') row column) (fun a' => MatIs (MArr a') r c (fun i j =>
    if (row <=? i) && (i <? row + r') && (column <=? j) && (j <? column + c') then g (i - row) (j - column) else f i j)).
Proof.
  intros Ha Hr' Hc' HT' H1 H2 H3 H4. pose proof HT' as [[Hl' Hrr'] Hv'].
  pose proof (MatIs_rows _ _ _ _ Ha) as Hrows. pose proof (MatIs_cols _ _ _ _ Ha) as Hcols.
  unfold a2_SetSubMatrix. rewrite Hl'.
  destruct (Z.eqb_spec r' 0); [lia|]. rewrite zget_ok by lia. simp. rewrite Hrr' by lia.
  destruct (Z.eqb_spec c' 0); [lia|].
  pose proof (MatIs_arr_inv _ _ _ _ Ha) as (d & E & Hr & Hc & HT). rewrite E at 1. cbn [a2_data].
  pose proof (rows_check_ok d' r' c' 1 EDimMismatch (fun e => Panic e) (conj Hl' Hrr') ltac:(lia) ltac:(lia)) as Ec.
  cbn beta in Ec. rewrite Ec. simp.
  rewrite !checkRowIndex_ok by (rewrite Hrows; lia). rewrite !(checkColumnIndex_ok _ c) by (auto; lia). simp.
  apply (wp_for (fun i a' => MatIs (MArr a') r c (fun p q =>
    if (row <=? p) && (p <? row + i) && (column <=? q) && (q <? column + c') then g (p - row) (q - column) else f p q))); try lia.
  - eapply MatIs_ext; eauto. intros p q Hp Hq. simpl.
    destruct (Z.leb_spec row p), (Z.ltb_spec p (row + 0)); simpl; auto; lia.
  - intros i a' Hi HI.
    apply (wp_for (fun j a' => MatIs (MArr a') r c (fun p q =>
      if (row <=? p) && (column <=? q) && (q <? column + c') && ((p <? row + i) || (p =? row + i) && (q <? column + j))
      then g (p - row) (q - column) else f p q))); try lia.
    + eapply MatIs_ext; eauto. intros p q Hp Hq. simpl.
      destruct (Z.leb_spec row p), (Z.ltb_spec p (row + i)), (Z.leb_spec column q), (Z.ltb_spec q (column + c')),
        (Z.eqb_spec p (row + i)), (Z.ltb_spec q (column + 0)); simpl; auto; lia.
    + intros j a'' Hj HJ. rewrite (RTab_get _ _ _ _ i j HT') by auto. simp.
      destruct (a2_SetEntry_spec a'' r c _ (row + i) (column + j) (g i j) HJ) as (a3 & -> & H5); try lia.
      apply wp_ok. eapply MatIs_ext; eauto. intros p q Hp Hq. unfold tset.
      zb; try (f_equal; lia).
    + intros a'' HJ. eapply MatIs_ext; eauto. intros p q Hp Hq. simpl.
      destruct (Z.leb_spec row p), (Z.ltb_spec p (row + i)), (Z.ltb_spec p (row + (i + 1))), (Z.leb_spec column q), (Z.ltb_spec q (column + c')),
        (Z.eqb_spec p (row + i)); simpl; auto; lia.
  - intros a' HI. auto.
Qed.

(** Rows and columns. *)
Lemma a2_ColumnAt_spec a r c f k : MatIs (MArr a) r c f -> 0 <= k < c ->
  wp (a2_ColumnAt a k) (fun v => VTab v r (fun i => f i k)).
Proof.
  intros Ha Hk. pose proof (MatIs_rows _ _ _ _ Ha) as Hrows. pose proof (MatIs_cols _ _ _ _ Ha) as Hcols.
  unfold a2_ColumnAt. rewrite (checkColumnIndex_ok _ c) by auto. simp.
  cbn [m_rows m_cols] in *. pose proof (MatIs_arr_inv _ _ _ _ Ha) as (d & E & Hr & Hc & HT).
  rewrite Hrows. wpb. apply wp_make; [lia|].
  apply wp_fillv with (f := fun i => f i k); auto; try lia.
  - apply len_repeat; lia.
  - intros i l' Hi Hl' _. subst a. cbn [a2_d a2_data]. rewrite (RTab_get _ _ _ _ i k HT) by auto. auto.
Qed.
Lemma a2_RowAt_spec a r c f k : MatIs (MArr a) r c f -> 0 <= k < r ->
  wp (a2_RowAt a k) (fun v => VTab v c (f k)).
Proof.
  intros Ha Hk. pose proof (MatIs_rows _ _ _ _ Ha) as Hrows. pose proof (MatIs_cols _ _ _ _ Ha) as Hcols.
  unfold a2_RowAt. rewrite checkRowIndex_ok by (rewrite Hrows; auto). simp.
  cbn [m_rows m_cols] in *. pose proof (MatIs_arr_inv _ _ _ _ Ha) as (d & E & Hr & Hc & HT).
  rewrite Hcols. simp. wpb. apply wp_make; [lia|]. subst a. cbn [a2_d a2_data].
  destruct (RTab_row _ _ _ _ k HT Hk) as (row & Hz & Hlr & Hnr). rewrite Hz. simp.
  apply wp_slice_copy; rewrite ?len_repeat by lia; try lia. intros w Hw Hn. split; auto.
  intros j Hj. rewrite Hn by lia. zb. rewrite Z.sub_0_r. apply Hnr; auto.
Qed.

(** Writing one row or one column cell by cell. *)
Lemma wp_write_row d r c f k n g (body : Z -> mat -> res mat) (Q : mat -> Prop) :
  RTab d r c f -> 0 <= k < r -> 0 <= n <= c ->
  (forall j d', 0 <= j < n -> body j d' = mset d' k j (g j)) ->
  (forall d', RTab d' r c (fun i j => if (i =? k) && (j <? n) then g j else f i j) -> Q d') ->
  wp (for_ 0 n body d) Q.
Proof.
  intros HT Hk Hn Hb HQ.
  apply (wp_for (fun m d' => RTab d' r c (fun i j => if (i =? k) && (j <? m) then g j else f i j))); auto; try lia.
  - eapply RTab_ext; eauto. intros i j Hi Hj. cbn beta. zb.
  - intros j d' Hj HT'. rewrite Hb by auto.
    destruct (RTab_set _ _ _ _ k j (g j) HT' Hk) as (d'' & -> & HT''); [lia|]. apply wp_ok.
    eapply RTab_ext; eauto. intros p q Hp Hq. unfold tset. cbn beta. zb; congruence.
Qed.
Lemma wp_write_col d r c f k n g (body : Z -> mat -> res mat) (Q : mat -> Prop) :
  RTab d r c f -> 0 <= k < c -> 0 <= n <= r ->
  (forall i d', 0 <= i < n -> body i d' = mset d' i k (g i)) ->
  (forall d', RTab d' r c (fun i j => if (j =? k) && (i <? n) then g i else f i j) -> Q d') ->
  wp (for_ 0 n body d) Q.
Proof.
  intros HT Hk Hn Hb HQ.
  apply (wp_for (fun m d' => RTab d' r c (fun i j => if (j =? k) && (i <? m) then g i else f i j))); auto; try lia.
  - eapply RTab_ext; eauto. intros i j Hi Hj. cbn beta. zb.
  - intros j d' Hj HT'. rewrite Hb by auto.
    destruct (RTab_set _ _ _ _ j k (g j) HT' ltac:(lia) Hk) as (d'' & -> & HT''). apply wp_ok.
    eapply RTab_ext; eauto. intros p q Hp Hq. unfold tset. cbn beta. zb; congruence.
Qed.

Lemma a2_SetColumn_spec a r c f k v g : MatIs (MArr a) r c f -> 0 <= k < c -> VTab v r g ->
  wp (a2_SetColumn a k v) (fun a' => MatIs (MArr a') r c (colset f k g)).
Proof.
  intros Ha Hk Hv. pose proof (MatIs_rows _ _ _ _ Ha) as Hrows. pose proof (MatIs_cols _ _ _ _ Ha) as Hcols.
  unfold a2_SetColumn. rewrite (checkColumnIndex_ok _ c) by auto. simp.
  cbn [m_rows m_cols] in *. pose proof (MatIs_arr_inv _ _ _ _ Ha) as (d & E & Hr & Hc & HT).
  rewrite Hrows, (proj1 Hv), Z.eqb_refl. cbn [negb]. subst a. cbn [a2_d a2_data]. wpb.
  eapply wp_write_col with (g := g); eauto; try lia.
  - intros i d' Hi. rewrite (VTab_get _ _ _ i Hv) by lia. auto.
  - intros d' HT'. apply wp_ok, MatIs_arr; auto. eapply RTab_ext; eauto. intros i j Hi Hj. unfold colset. cbn beta. zb.
Qed.
Lemma a2_SetColumnVector_spec a r c f k v g : MatIs (MArr a) r c f -> 0 <= k < c -> VecIs v r g ->
  wp (a2_SetColumnVector a k v) (fun a' => MatIs (MArr a') r c (colset f k g)).
Proof.
  intros Ha Hk Hv. pose proof (MatIs_rows _ _ _ _ Ha) as Hrows. pose proof (MatIs_cols _ _ _ _ Ha) as Hcols.
  unfold a2_SetColumnVector. rewrite (checkColumnIndex_ok _ c) by auto. simp.
  cbn [m_rows m_cols] in *. pose proof (MatIs_arr_inv _ _ _ _ Ha) as (d & E & Hr & Hc & HT).
  destruct Hv as (Hd & Hv & _).
  rewrite Hd, Hrows, Z.eqb_refl. cbn [negb]. subst a. cbn [a2_d a2_data]. wpb.
  eapply wp_write_col with (g := g); eauto; try lia.
  - intros i d' Hi. rewrite Hv by lia. auto.
  - intros d' HT'. apply wp_ok, MatIs_arr; auto. eapply RTab_ext; eauto. intros i j Hi Hj. unfold colset. cbn beta. zb.
Qed.
Lemma a2_SetRowVector_spec a r c f k v g : MatIs (MArr a) r c f -> 0 <= k < r -> VecIs v c g ->
  wp (a2_SetRowVector a k v) (fun a' => MatIs (MArr a') r c (rowset f k g)).
Proof.
  intros Ha Hk Hv. pose proof (MatIs_rows _ _ _ _ Ha) as Hrows. pose proof (MatIs_cols _ _ _ _ Ha) as Hcols.
  unfold a2_SetRowVector. rewrite checkRowIndex_ok by (rewrite Hrows; auto). simp.
  cbn [m_rows m_cols] in *. pose proof (MatIs_arr_inv _ _ _ _ Ha) as (d & E & Hr & Hc & HT).
  destruct Hv as (Hd & Hv & _).
  rewrite Hcols. simp. rewrite Hd, Z.eqb_refl. cbn [negb]. subst a. cbn [a2_d a2_data]. wpb.
  eapply wp_write_row with (g := g); eauto; try lia.
  - intros i d' Hi. rewrite Hv by lia. auto.
  - intros d' HT'. apply wp_ok, MatIs_arr; auto. eapply RTab_ext; eauto. intros i j Hi Hj. unfold rowset. cbn beta. zb.
Qed.
Lemma a2_SetRowMatrix_spec a r c f k m g : MatIs (MArr a) r c f -> 0 <= k < r -> MatIs m 1 c g ->
  wp (a2_SetRowMatrix a k m) (fun a' => MatIs (MArr a') r c (rowset f k (g 0))).
Proof.
  intros Ha Hk Hm. pose proof (MatIs_rows _ _ _ _ Ha) as Hrows. pose proof (MatIs_cols _ _ _ _ Ha) as Hcols.
  unfold a2_SetRowMatrix. rewrite checkRowIndex_ok by (rewrite Hrows; auto). simp.
  cbn [m_rows m_cols] in *. pose proof (MatIs_arr_inv _ _ _ _ Ha) as (d & E & Hr & Hc & HT).
  rewrite Hcols. simp. rewrite (MatIs_cols _ _ _ _ Hm). simp. rewrite (MatIs_rows _ _ _ _ Hm), !Z.eqb_refl.
  cbn [negb orb]. subst a. cbn [a2_d a2_data]. wpb.
  eapply wp_write_row with (g := g 0); eauto; try lia.
  - intros i d' Hi. rewrite (MatIs_At _ _ _ _ _ _ Hm) by lia. auto.
  - intros d' HT'. apply wp_ok, MatIs_arr; auto. eapply RTab_ext; eauto. intros i j Hi Hj. unfold rowset. cbn beta. zb.
Qed.
Lemma a2_SetColumnMatrix_spec a r c f k m g : MatIs (MArr a) r c f -> 0 <= k < c -> MatIs m r 1 g ->
  wp (a2_SetColumnMatrix a k m) (fun a' => MatIs (MArr a') r c (colset f k (fun i => g i 0))).
Proof.
  intros Ha Hk Hm. pose proof (MatIs_rows _ _ _ _ Ha) as Hrows. pose proof (MatIs_cols _ _ _ _ Ha) as Hcols.
  unfold a2_SetColumnMatrix. rewrite (checkColumnIndex_ok _ c) by auto. simp.
  cbn [m_rows m_cols] in *. pose proof (MatIs_arr_inv _ _ _ _ Ha) as (d & E & Hr & Hc & HT).
  rewrite (MatIs_cols _ _ _ _ Hm). simp. rewrite Hrows, (MatIs_rows _ _ _ _ Hm), !Z.eqb_refl.
  cbn [negb orb]. subst a. cbn [a2_d a2_data]. wpb.
  eapply wp_write_col with (g := fun i => g i 0); eauto; try lia.
  - intros i d' Hi. rewrite (MatIs_At _ _ _ _ _ _ Hm) by lia. auto.
  - intros d' HT'. apply wp_ok, MatIs_arr; auto. eapply RTab_ext; eauto. intros i j Hi Hj. unfold colset. cbn beta. zb.
Qed.
Lemma a2_RowMatrixAt_spec a r c f k : MatIs (MArr a) r c f -> 0 <= k < r ->
  wp (a2_RowMatrixAt a k) (fun a' => MatIs (MArr a') 1 c (fun _ j => f k j)).
Proof.
  intros Ha Hk. pose proof (MatIs_rows _ _ _ _ Ha) as Hrows. pose proof (MatIs_cols _ _ _ _ Ha) as Hcols.
  unfold a2_RowMatrixAt. rewrite checkRowIndex_ok by (rewrite Hrows; auto). simp.
  cbn [m_rows m_cols] in *. pose proof (MatIs_arr_inv _ _ _ _ Ha) as (d & E & Hr & Hc & HT).
  rewrite Hcols. simp. destruct (NewArray2DRowRealMatrix_spec 1 c) as (a0 & -> & Ha0); try lia.
  simp. apply MatIs_arr_inv in Ha0. destruct Ha0 as (d0 & -> & _ & _ & HT0). subst a. cbn [a2_d a2_data]. wpb.
  eapply wp_write_row with (k := 0) (g := f k); eauto; try lia.
  - intros i d' Hi. rewrite (RTab_get _ _ _ _ k i HT) by lia. auto.
  - intros d' HT'. apply wp_ok, MatIs_arr; auto; try lia. eapply RTab_ext; eauto. intros i j Hi Hj. cbn beta. zb.
Qed.
Lemma a2_ColumnMatrixAt_spec a r c f k : MatIs (MArr a) r c f -> 0 <= k < c ->
  wp (a2_ColumnMatrixAt a k) (fun a' => MatIs (MArr a') r 1 (fun i _ => f i k)).
Proof.
  intros Ha Hk. pose proof (MatIs_rows _ _ _ _ Ha) as Hrows. pose proof (MatIs_cols _ _ _ _ Ha) as Hcols.
  unfold a2_ColumnMatrixAt. rewrite (checkColumnIndex_ok _ c) by auto. simp.
  cbn [m_rows m_cols] in *. pose proof (MatIs_arr_inv _ _ _ _ Ha) as (d & E & Hr & Hc & HT).
  rewrite Hrows. simp. destruct (NewArray2DRowRealMatrix_spec r 1) as (a0 & -> & Ha0); try lia.
  simp. apply MatIs_arr_inv in Ha0. destruct Ha0 as (d0 & -> & _ & _ & HT0). subst a. cbn [a2_d a2_data]. wpb.
  eapply wp_write_col with (k := 0) (g := fun i => f i k); eauto; try lia.
  - intros i d' Hi. rewrite (RTab_get _ _ _ _ i k HT) by lia. auto.
  - intros d' HT'. apply wp_ok, MatIs_arr; auto; try lia. eapply RTab_ext; eauto. intros i j Hi Hj. cbn beta. zb.
Qed.
(** SetRow works for row 0 only. *)
Lemma a2_SetRow_0 a r c f v g : MatIs (MArr a) r c f -> VTab v c g ->
  wp (a2_SetRow a 0 v) (fun a' => MatIs (MArr a') r c (rowset f 0 g)).
Proof.
  intros Ha Hv. pose proof (MatIs_rows _ _ _ _ Ha) as Hrows. pose proof (MatIs_cols _ _ _ _ Ha) as Hcols.
  pose proof (MatIs_arr_inv _ _ _ _ Ha) as (d & E & Hr & Hc & HT).
  unfold a2_SetRow. rewrite checkRowIndex_ok by (rewrite Hrows; lia). simp.
  cbn [m_rows m_cols] in *. rewrite Hcols. simp. rewrite (proj1 Hv), Z.eqb_refl. cbn [negb].
  subst a. cbn [a2_d a2_data]. destruct (RTab_row _ _ _ _ 0 HT) as (row & Hz & Hlr & Hnr); [lia|]. rewrite Hz. simp. wpb.
  destruct Hv as [Hlv Hnv].
  apply wp_slice_copy; try lia. intros w Hw Hn. wpb. apply wp_zset; [rewrite (proj1 (proj1 HT)); lia|]. apply wp_ok.
  apply MatIs_arr; auto. destruct HT as [[Hl Hrr] Hnn]. split; [split|].
  - rewrite len_upd; auto.
  - intros i Hi. rewrite nthZ_upd by lia. zb. lia.
  - intros i j Hi Hj. rewrite nthZ_upd by lia. unfold rowset. zb. rewrite Hn by lia. zb.
    rewrite Z.sub_0_r. auto.
Qed.
Lemma a2_SetRow_panics a r c f k v : MatIs (MArr a) r c f -> 1 <= k -> exists e, a2_SetRow a k v = Panic e.
Proof.
  intros Ha Hk. pose proof (MatIs_rows _ _ _ _ Ha) as Hrows. pose proof (MatIs_cols _ _ _ _ Ha) as Hcols.
  pose proof (MatIs_arr_inv _ _ _ _ Ha) as (d & E & Hr & Hc & HT).
  unfold a2_SetRow. destruct (Z.lt_ge_cases k r).
  - rewrite checkRowIndex_ok by (rewrite Hrows; lia). simp.
    cbn [m_rows m_cols] in *. rewrite Hcols. simp. destruct (Z.eqb_spec (len v) c); cbn [negb]; eauto.
    subst a. cbn [a2_d a2_data]. destruct (RTab_row _ _ _ _ k HT) as (row & Hz & Hlr & Hnr); [lia|]. rewrite Hz. simp.
    exists ERuntime. unfold slice_copy.
    destruct (Z.leb_spec (k + c) (len row)); [lia|]. rewrite ?andb_false_r, ?andb_false_l. cbn [andb]. 
    destruct (0 <=? 0), (0 <=? k + c); reflexivity.
  - rewrite checkRowIndex_err by (rewrite Hrows; lia). simp. eauto.
Qed.

(** Equals. *)
Lemma for_brk2_exists r c (p : Z -> Z -> bool) (body : Z -> Z -> unit -> res (bool * unit)) :
  0 <= r -> 0 <= c -> (forall i j s, 0 <= i < r -> 0 <= j < c -> body i j s = Ok (p i j, tt)) ->
  exists b, for_brk 0 r (fun i _ => for_brk 0 c (fun j s => body i j s) tt) tt = Ok (b, tt) /\
    (b = true <-> exists i j, 0 <= i < r /\ 0 <= j < c /\ p i j = true).
Proof.
  intros Hr Hc Hb.
  set (pi := fun i => match for_brk 0 c (fun j s => body i j s) tt with Ok (b, _) => b | _ => false end).
  destruct (for_brk_exists r pi (fun i _ => for_brk 0 c (fun j s => body i j s) tt)) as (b & E & H); auto.
  - intros i s Hi. unfold pi. destruct (for_brk_exists c (p i) (fun j s => body i j s)) as (b' & -> & _); auto.
  - exists b. split; auto. rewrite H. split.
    + intros (i & Hi & E'). unfold pi in E'. destruct (for_brk_exists c (p i) (fun j s => body i j s)) as (b' & E2 & H'); auto.
      rewrite E2 in E'. apply H' in E'. destruct E' as (j & Hj & E'). eauto.
    + intros (i & j & Hi & Hj & E'). exists i. split; auto. unfold pi.
      destruct (for_brk_exists c (p i) (fun j s => body i j s)) as (b' & -> & H'); auto. apply H'. eauto.
Qed.
Lemma a2_Equals_spec a m r c f r' c' g : MatIs (MArr a) r c f -> MatIs m r' c' g ->
  exists b,
  a2_Equals a false (Some m) = Ok b /\
  (b = true <-> r' = r /\ c' = c /\ forall i j, 0 <= i < r -> 0 <= j < c -> fne (f i j) (g i j) = false).
Proof.
  intros Ha Hm. pose proof (MatIs_rows _ _ _ _ Ha) as Hrows. pose proof (MatIs_cols _ _ _ _ Ha) as Hcols.
  cbn [m_rows m_cols] in *.
  pose proof (MatIs_dims _ _ _ _ Ha) as Hd.
  unfold a2_Equals. rewrite Hrows, Hcols. simp. rewrite (MatIs_cols _ _ _ _ Hm), (MatIs_rows _ _ _ _ Hm). simp.
  destruct (Z.eqb_spec c' c), (Z.eqb_spec r' r); cbn [negb orb]; try (eexists; split; [reflexivity|]; split; [discriminate|lia]).
  subst r' c'.
  destruct (for_brk2_exists r c (fun i j => fne (f i j) (g i j))
    (fun row col _ => let* x := a2_At a row col in let* y := m_At m row col in Ok (fne x y, tt))) as (b & E & Hb); try lia.
  { intros i j [] Hi Hj. pose proof (MatIs_At _ _ _ _ i j Ha Hi Hj) as E1. cbn [m_At] in E1. rewrite E1. simp.
    rewrite (MatIs_At _ _ _ _ _ _ Hm) by auto. reflexivity. }
  cbn beta in E. rewrite E. simp. exists (negb b). split; auto. rewrite negb_true_iff. split.
  - intros ->. split; auto. split; auto. intros i j Hi Hj. apply not_true_is_false. intros E'.
    assert (false = true) by (apply Hb; eauto 8). discriminate.
  - intros (_ & _ & H). apply not_true_is_false. intros E'. apply Hb in E'. destruct E' as (i & j & Hi & Hj & E').
    rewrite H in E' by auto. discriminate.
Qed.
End A2DFacts.

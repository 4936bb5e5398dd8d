(** Proofs about the vector model. *)
From Coq Require Import ZArith List Lia Bool.
From Verif Require Import Base BaseLemmas Scalar Vector VecSpec.
Import ListNotations.
Open Scope Z_scope.

Ltac orp := cbn [orpanic].

Section VectorFacts.
Context {O : Ops}.

Lemma checkIndex_ok n i : 0 <= i < n -> checkIndex n i = Ok tt.
Proof. intros. unfold checkIndex. destruct (Z.ltb_spec i 0), (Z.leb_spec n i); simpl; auto; lia. Qed.
Lemma checkIndex_err n i : ~ (0 <= i < n) -> checkIndex n i = Err EOutOfRange.
Proof. intros. unfold checkIndex. destruct (Z.ltb_spec i 0), (Z.leb_spec n i); simpl; auto; lia. Qed.
Lemma checkDimensions_ok n : checkDimensions n n = Ok tt.
Proof. unfold checkDimensions. rewrite Z.eqb_refl; auto. Qed.
Lemma checkDimensions_err n m : n <> m -> checkDimensions n m = Err EDimMismatch.
Proof. intros. unfold checkDimensions. destruct (Z.eqb_spec n m); congruence. Qed.
Lemma checkIndices_ok n a b : 0 <= a <= b -> b < n -> checkIndices n a b = Ok tt.
Proof.
  intros. unfold checkIndices.
  destruct (Z.ltb_spec a 0), (Z.leb_spec n a), (Z.ltb_spec b 0), (Z.leb_spec n b), (Z.ltb_spec b a); simpl; auto; lia.
Qed.

Lemma arv_At_ok a i : 0 <= i < len a -> arv_At a i = Ok (nthZ a i).
Proof. intros. unfold arv_At. rewrite checkIndex_ok by auto. simpl. apply zget_ok; auto. Qed.
Lemma arv_At_panic a i : ~ (0 <= i < len a) -> arv_At a i = Panic EOutOfRange.
Proof. intros. unfold arv_At. rewrite checkIndex_err by auto. reflexivity. Qed.
Lemma v_At_ok v i : 0 <= i < v_Dimension v -> v_At v i = Ok (nthZ (v_data v) i).
Proof. apply arv_At_ok. Qed.

(** [VecIs] in terms of the list of values. *)
Lemma VecIs_intro v n f :
  len (v_data v) = n -> (forall i, 0 <= i < n -> nthZ (v_data v) i = f i) -> VecIs v n f.
Proof.
  intros Hl Hf. split; [exact Hl|]. split.
  - intros. rewrite v_At_ok by (unfold v_Dimension; lia). f_equal. auto.
  - intros. exists EOutOfRange. apply arv_At_panic. rewrite Hl. auto.
Qed.
Lemma VecIs_elim v n f :
  VecIs v n f -> len (v_data v) = n /\ (forall i, 0 <= i < n -> nthZ (v_data v) i = f i).
Proof.
  intros (Hd & Ha & _). split; [exact Hd|]. intros i Hi. specialize (Ha i Hi).
  rewrite v_At_ok in Ha by (unfold v_Dimension in *; lia). congruence.
Qed.
Lemma VecIs_self v : VecIs v (v_Dimension v) (nthZ (v_data v)).
Proof. apply VecIs_intro; auto. Qed.

(** A loop over 0..len writing f i, starting from anything. *)
Lemma fill_all (body : Z -> vec -> res vec) n f l (Q : vec -> Prop) :
  0 <= n -> len l = n ->
  (forall i l', 0 <= i < n -> len l' = n -> (forall j, i <= j < n -> nthZ l' j = nthZ l j) ->
      body i l' = zset l' i (f i)) ->
  (forall r, VecIs (VArr r) n f -> Q r) ->
  wp (for_ 0 n body l) Q.
Proof.
  intros Hn Hl Hb HQ. apply wp_fill with (f := f); try lia.
  - intros i l' Hi Hl' Hn'. apply Hb; try lia. intros. rewrite Hn' by lia.
    destruct (Z.leb_spec 0 j), (Z.ltb_spec j i); auto; lia.
  - intros r Hr Hn'. apply HQ. apply VecIs_intro; simpl; [lia|]. intros i Hi. rewrite Hn' by lia.
    destruct (Z.leb_spec 0 i), (Z.ltb_spec i n); auto; lia.
Qed.

Lemma make_len x n (l : vec) : make x n = Ok l -> 0 <= n -> len l = n.
Proof. intros H Hn. rewrite make_ok in H by auto. injection H as <-. apply len_repeat; auto. Qed.

Lemma NewArrayRealVectorCopy_spec v n f :
  VecIs v n f -> wp (NewArrayRealVectorCopy (Some v)) (fun w => VecIs (VArr w) n f).
Proof.
  intros Hv. destruct (VecIs_elim _ _ _ Hv) as [Hl Hf].
  assert (0 <= n) by (subst; apply len_nonneg).
  unfold NewArrayRealVectorCopy, v_Dimension. rewrite Hl.
  apply wp_bind. apply wp_make; auto. rewrite len_repeat by auto.
  apply fill_all with (f := f); auto.
  - rewrite len_repeat; auto.
  - intros. rewrite v_At_ok by (unfold v_Dimension; lia). simpl. rewrite Hf; auto.
Qed.
Lemma arv_Copy_spec a n f :
  VecIs (VArr a) n f -> wp (arv_Copy a) (fun w => VecIs (VArr w) n f).
Proof. intros. apply wp_orpanic. apply NewArrayRealVectorCopy_spec; auto. Qed.

Lemma NewSizedArrayRealVector_spec n : 0 <= n ->
  wp (NewSizedArrayRealVector n) (fun w => VecIs (VArr w) n (fun _ => fzero)).
Proof.
  intros. apply wp_make; auto. apply VecIs_intro; simpl.
  - apply len_repeat; auto.
  - intros. apply nthZ_repeat; auto.
Qed.
Lemma NewSizedArrayRealVectorWithPreset_spec n x : 0 <= n ->
  wp (NewSizedArrayRealVectorWithPreset n x) (fun w => VecIs (VArr w) n (fun _ => x)).
Proof.
  intros. unfold NewSizedArrayRealVectorWithPreset. apply wp_bind, wp_make; auto.
  apply fill_all with (f := fun _ => x); auto. apply len_repeat; auto.
Qed.

(** The entrywise binary operations. *)
Lemma binop_spec (op : F -> F -> F) (a : vec) (v : RealVector) n f g
  (m : res vec) :
  VecIs (VArr a) n f -> VecIs v n g ->
  m = (match v with
  | VArr vData =>
      let dim := len vData in
      let* _ := orpanic (checkDimensions (len a) dim) in
      let* ret := NewSizedArrayRealVector dim in
      for_ 0 dim (fun i ret =>
        let* x := zget a i in let* y := zget vData i in zset ret i (op x y)%f) ret
  | _ =>
      let* _ := orpanic (checkDimensions (len a) (v_Dimension v)) in
      let* ret := NewSizedArrayRealVector (v_Dimension v) in
      for_ 0 (len a) (fun i ret =>
        let* x := zget a i in let* y := v_At v i in zset ret i (op x y)%f) ret
  end) ->
  wp m (fun w => VecIs (VArr w) n (fun i => op (f i) (g i))).
Proof.
  intros Ha Hv ->. destruct (VecIs_elim _ _ _ Ha) as [Hla Hfa], (VecIs_elim _ _ _ Hv) as [Hlv Hfv].
  cbn [v_data] in *. assert (0 <= n) by (subst n; apply len_nonneg).
  destruct v as [d|d]; cbn [v_data v_Dimension] in *; unfold v_Dimension; cbn [v_data];
    rewrite Hla, Hlv, checkDimensions_ok; cbn [orpanic bind];
    (apply wp_bind, wp_make; [auto|]); apply fill_all with (f := fun i => op (f i) (g i)); auto;
    try (apply len_repeat; auto); intros;
    rewrite zget_ok by lia; cbn [bind].
  - rewrite zget_ok by lia; cbn [bind]. rewrite Hfa, Hfv; auto.
  - rewrite v_At_ok by (unfold v_Dimension; cbn; lia); cbn [bind v_data]. rewrite Hfa, Hfv; auto.
Qed.
Lemma arv_Add_spec a v n f g : VecIs (VArr a) n f -> VecIs v n g ->
  wp (arv_Add a v) (fun w => VecIs (VArr w) n (fun i => (f i + g i)%f)).
Proof. intros. eapply (binop_spec fadd); eauto. Qed.
Lemma arv_Subtract_spec a v n f g : VecIs (VArr a) n f -> VecIs v n g ->
  wp (arv_Subtract a v) (fun w => VecIs (VArr w) n (fun i => (f i - g i)%f)).
Proof. intros. eapply (binop_spec fsub); eauto. Qed.
Lemma arv_EBEMultiply_spec a v n f g : VecIs (VArr a) n f -> VecIs v n g ->
  wp (arv_EBEMultiply a v) (fun w => VecIs (VArr w) n (fun i => (f i * g i)%f)).
Proof. intros. eapply (binop_spec fmul); eauto. Qed.
Lemma arv_EBEDivide_spec a v n f g : VecIs (VArr a) n f -> VecIs v n g ->
  wp (arv_EBEDivide a v) (fun w => VecIs (VArr w) n (fun i => (f i / g i)%f)).
Proof. intros. eapply (binop_spec fdiv); eauto. Qed.

Lemma binop_mismatch a v (m : vec -> RealVector -> res vec) :
  len a <> v_Dimension v ->
  (m = arv_Add \/ m = arv_Subtract \/ m = arv_EBEMultiply \/ m = arv_EBEDivide) ->
  m a v = Panic EDimMismatch.
Proof.
  intros Hne H. destruct v as [d|d]; destruct H as [->|[->|[->| ->]]]; simpl in *; unfold v_Dimension in *; simpl in *;
  rewrite checkDimensions_err by auto; reflexivity.
Qed.

(** In-place maps. *)
Lemma map_loop_spec (g : F -> F) a n f :
  VecIs (VArr a) n f ->
  wp (for_ 0 (len a) (fun i arv => let* x := zget arv i in zset arv i (g x)) a)
     (fun w => VecIs (VArr w) n (fun i => g (f i))).
Proof.
  intros Ha. destruct (VecIs_elim _ _ _ Ha) as [Hla Hfa]. cbn [v_data] in *. rewrite Hla.
  assert (0 <= n) by (subst n; apply len_nonneg).
  apply fill_all with (f := fun i => g (f i)); auto.
  intros i l' Hi Hl Hr. rewrite zget_ok by lia. cbn [bind]. rewrite Hr, Hfa by lia. auto.
Qed.
Lemma arv_Map_spec a n f g : VecIs (VArr a) n f ->
  wp (arv_Map a g) (fun w => VecIs (VArr w) n (fun i => g (f i))).
Proof. apply map_loop_spec. Qed.
Lemma arv_MapAdd_spec a n f d : VecIs (VArr a) n f ->
  wp (arv_MapAdd a d) (fun w => VecIs (VArr w) n (fun i => (f i + d)%f)).
Proof. apply (map_loop_spec (fun x => (x + d)%f)). Qed.
Lemma arv_MapSubtract_spec a n f d : VecIs (VArr a) n f ->
  wp (arv_MapSubtract a d) (fun w => VecIs (VArr w) n (fun i => (f i - d)%f)).
Proof. apply (map_loop_spec (fun x => (x - d)%f)). Qed.
Lemma arv_MapMultiply_spec a n f d : VecIs (VArr a) n f ->
  wp (arv_MapMultiply a d) (fun w => VecIs (VArr w) n (fun i => (f i * d)%f)).
Proof. apply (map_loop_spec (fun x => (x * d)%f)). Qed.
Lemma arv_MapDivide_spec a n f d : VecIs (VArr a) n f ->
  wp (arv_MapDivide a d) (fun w => VecIs (VArr w) n (fun i => (f i / d)%f)).
Proof. apply (map_loop_spec (fun x => (x / d)%f)). Qed.
Lemma arv_Set_spec a n f x : VecIs (VArr a) n f ->
  wp (arv_Set a x) (fun w => VecIs (VArr w) n (fun _ => x)).
Proof.
  intros Ha. destruct (VecIs_elim _ _ _ Ha) as [Hla Hfa]. cbn [v_data] in *.
  unfold arv_Set. rewrite Hla. assert (0 <= n) by (subst n; apply len_nonneg).
  apply fill_all with (f := fun _ => x); auto.
Qed.
Lemma arv_Combine_spec a y n f g ca cb : VecIs (VArr a) n f -> VecIs y n g ->
  wp (arv_Combine a ca cb y) (fun w => VecIs (VArr w) n (fun i => (ca * f i + cb * g i)%f)).
Proof.
  intros Ha Hv. destruct (VecIs_elim _ _ _ Ha) as [Hla Hfa], (VecIs_elim _ _ _ Hv) as [Hlv Hfv].
  cbn [v_data] in *. assert (0 <= n) by (subst n; apply len_nonneg).
  unfold arv_Combine, v_Dimension. rewrite Hla, Hlv, checkDimensions_ok. cbn [orpanic bind].
  apply fill_all with (f := fun i => (ca * f i + cb * g i)%f); auto.
  intros i l' Hi Hl Hr. rewrite zget_ok by lia. cbn [bind].
  rewrite v_At_ok by (unfold v_Dimension; lia). cbn [bind]. rewrite Hr, Hfa, Hfv by lia. auto.
Qed.
Lemma arv_CopyFrom_spec a v n f g : VecIs (VArr a) n f -> VecIs v n g ->
  wp (arv_CopyFrom a v) (fun w => VecIs (VArr w) n g).
Proof.
  intros Ha Hv. destruct (VecIs_elim _ _ _ Ha) as [Hla Hfa], (VecIs_elim _ _ _ Hv) as [Hlv Hfv].
  cbn [v_data] in *. assert (0 <= n) by (subst n; apply len_nonneg).
  unfold arv_CopyFrom, v_Dimension. rewrite Hla, Hlv, checkDimensions_ok. cbn [orpanic bind].
  apply fill_all with (f := g); auto.
  intros i l' Hi Hl Hr. rewrite v_At_ok by (unfold v_Dimension; lia). cbn [bind]. rewrite Hfv by lia. auto.
Qed.

(** Append, SubVector, SetSubVector. *)
Lemma FromTwo_spec a b n m f g : VecIs (VArr a) n f -> VecIs (VArr b) m g ->
  wp (NewArrayRealVectorFromTwoArrayRealVector (Some a) (Some b))
     (fun w => VecIs (VArr w) (n + m) (fun i => if i <? n then f i else g (i - n))).
Proof.
  intros Ha Hb. destruct (VecIs_elim _ _ _ Ha) as [Hla Hfa], (VecIs_elim _ _ _ Hb) as [Hlb Hfb].
  cbn [v_data] in *. pose proof (len_nonneg a). pose proof (len_nonneg b).
  unfold NewArrayRealVectorFromTwoArrayRealVector.
  apply wp_bind, wp_make; [lia|]. apply wp_bind.
  apply wp_slice_copy; rewrite ?len_repeat by lia; try lia. intros r1 Hl1 Hr1.
  apply wp_slice_copy; try lia. intros r2 Hl2 Hr2.
  apply VecIs_intro; cbn [v_data]; [lia|]. intros i Hi. rewrite Hr2 by lia.
  destruct (Z.ltb_spec i n).
  - destruct (Z.leb_spec (len a) i); [lia|]. cbn [andb]. rewrite Hr1 by lia.
    destruct (Z.leb_spec 0 i), (Z.ltb_spec i (0 + Z.min (len a - 0) (len a - 0))); cbn [andb]; try lia.
    rewrite <- Hfa by lia. f_equal; lia.
  - destruct (Z.leb_spec (len a) i), (Z.ltb_spec i (len a + Z.min (len a + len b - len a) (len b - 0))); cbn [andb]; try lia.
    rewrite <- Hfb by lia. f_equal; lia.
Qed.
Lemma arv_AppendVector_spec a b n m f g : VecIs (VArr a) n f -> VecIs (VArr b) m g ->
  wp (arv_AppendVector a (VArr b))
     (fun w => VecIs (VArr w) (n + m) (fun i => if i <? n then f i else g (i - n))).
Proof. intros. apply wp_orpanic. apply FromTwo_spec; auto. Qed.
Lemma arv_Append_spec a n f x : VecIs (VArr a) n f ->
  wp (arv_Append a x)
     (fun w => VecIs (VArr w) (n + 1) (fun i => if i <? n then f i else x)).
Proof.
  intros Ha. destruct (VecIs_elim _ _ _ Ha) as [Hla Hfa].
  cbn [v_data] in *. pose proof (len_nonneg a).
  unfold arv_Append. apply wp_bind, wp_make; [lia|]. apply wp_bind.
  apply wp_slice_copy; rewrite ?len_repeat by lia; try lia. intros r1 Hl1 Hr1.
  apply wp_bind, wp_zset; [lia|]. apply wp_ok.
  apply VecIs_intro; cbn [v_data]; [rewrite len_upd; lia|]. intros i Hi.
  rewrite nthZ_upd by lia. destruct (Z.eqb_spec (len a) i), (Z.ltb_spec i n); try lia; auto.
  rewrite Hr1 by lia.
  destruct (Z.leb_spec 0 i), (Z.ltb_spec i (0 + Z.min (len a - 0) (len a - 0))); cbn [andb]; try lia.
  rewrite <- Hfa by lia. f_equal; lia.
Qed.
Lemma arv_SubVector_spec a n f index k : VecIs (VArr a) n f ->
  0 <= index < n -> 0 <= k -> 0 <= index + k - 1 < n ->
  wp (arv_SubVector a index k) (fun w => VecIs (VArr w) k (fun i => f (index + i))).
Proof.
  intros Ha Hi Hk Hb. destruct (VecIs_elim _ _ _ Ha) as [Hla Hfa].
  cbn [v_data] in *. unfold arv_SubVector. destruct (Z.ltb_spec k 0); [lia|].
  apply wp_bind, wp_orpanic, wp_make; [lia|].
  rewrite Hla, !checkIndex_ok by lia. cbn [orpanic bind].
  apply wp_slice_copy; rewrite ?len_repeat by lia; try lia. intros r1 Hl1 Hr1.
  apply VecIs_intro; cbn [v_data]; auto. intros i Hi'. rewrite Hr1 by lia.
  destruct (Z.leb_spec 0 i), (Z.ltb_spec i (0 + Z.min (k - 0) (n - index))); cbn [andb]; try lia.
  rewrite <- Hfa by lia. f_equal; lia.
Qed.
Lemma arv_SubVector_panics a index k :
  (k < 0 \/ ~ (0 <= index < len a) \/ ~ (0 <= index + k - 1 < len a)) ->
  panics (arv_SubVector a index k).
Proof.
  intros H. unfold arv_SubVector, panics. destruct (Z.ltb_spec k 0); [eexists; reflexivity|].
  unfold NewSizedArrayRealVector. rewrite make_ok by lia. cbn [orpanic bind].
  destruct (inb index (len a)) eqn:E.
  - apply inb_true in E. rewrite checkIndex_ok by auto. cbn [orpanic bind].
    rewrite checkIndex_err by lia. eexists; reflexivity.
  - apply inb_false in E. rewrite checkIndex_err by auto. eexists; reflexivity.
Qed.
Lemma arv_SetSubVectorWithSlice_spec a n f index b m g :
  VecIs (VArr a) n f -> VecIs (VArr b) m g ->
  0 <= index < n -> 0 <= index + m - 1 < n ->
  wp (arv_SetSubVectorWithSlice a index b)
     (fun w => VecIs (VArr w) n (fun i => if (index <=? i) && (i <? index + m) then g (i - index) else f i)).
Proof.
  intros Ha Hb Hi Hm. destruct (VecIs_elim _ _ _ Ha) as [Hla Hfa], (VecIs_elim _ _ _ Hb) as [Hlb Hfb].
  cbn [v_data] in *. pose proof (len_nonneg b).
  unfold arv_SetSubVectorWithSlice. rewrite Hla, Hlb, !checkIndex_ok by lia. cbn [orpanic bind].
  apply wp_slice_copy; try lia. intros r1 Hl1 Hr1. apply VecIs_intro; cbn [v_data]; [lia|].
  intros i Hi'. rewrite Hr1 by lia.
  replace (Z.min (index + m - index) (m - 0)) with m by lia.
  destruct (Z.leb_spec index i), (Z.ltb_spec i (index + m)); cbn [andb]; rewrite ?Hfa by lia; auto.
  rewrite <- Hfb by lia. f_equal; lia.
Qed.
Lemma arv_SetSubVector_spec a n f index v m g :
  VecIs (VArr a) n f -> VecIs v m g ->
  0 <= index < n -> 0 <= index + m - 1 < n ->
  wp (arv_SetSubVector a index v)
     (fun w => VecIs (VArr w) n (fun i => if (index <=? i) && (i <? index + m) then g (i - index) else f i)).
Proof.
  intros Ha Hv Hi Hm. pose proof (VecIs_elim _ _ _ Ha) as [Hla Hfa]. pose proof (VecIs_elim _ _ _ Hv) as [Hlv Hfv].
  cbn [v_data] in *. pose proof (len_nonneg (v_data v)).
  unfold arv_SetSubVector, v_Dimension. rewrite Hla, Hlv, !checkIndex_ok by lia. cbn [orpanic bind].
  apply wp_bind.
  apply (wp_conseq _ (fun a1 => len a1 = n /\ forall i, 0 <= i < n -> ~ (index <= i < index + m) -> nthZ a1 i = f i)).
  - destruct v as [d|d].
    + eapply wp_conseq; [apply (arv_SetSubVectorWithSlice_spec a n f index d m g); auto|].
      intros w Hw. destruct (VecIs_elim _ _ _ Hw) as [Hlw Hfw]. cbn [v_data] in *. split; auto.
      intros i Hi' Hn. rewrite Hfw by auto.
      destruct (Z.leb_spec index i), (Z.ltb_spec i (index + m)); cbn [andb]; auto; lia.
    + apply wp_ok. split; auto.
  - intros a1 [Hl1 Hf1].
    apply wp_fill with (f := fun i => g (i - index)); try lia.
    + intros i l' Hi' Hl' _. rewrite v_At_ok by (unfold v_Dimension; lia). cbn [bind]. rewrite Hfv by lia. auto.
    + intros r Hr Hnr. apply VecIs_intro; cbn [v_data]; [lia|]. intros i Hi'. rewrite Hnr by lia.
      destruct (Z.leb_spec index i), (Z.ltb_spec i (index + m)); cbn [andb]; auto; apply Hf1; lia.
Qed.
Lemma arv_SetSubVector_panics a index v :
  (~ (0 <= index < len a) \/ ~ (0 <= index + v_Dimension v - 1 < len a)) ->
  panics (arv_SetSubVector a index v).
Proof.
  intros H. unfold arv_SetSubVector, panics.
  destruct (inb index (len a)) eqn:E.
  - apply inb_true in E. rewrite checkIndex_ok by auto. cbn [orpanic bind].
    rewrite checkIndex_err by lia. eexists; reflexivity.
  - apply inb_false in E. rewrite checkIndex_err by auto. eexists; reflexivity.
Qed.
Lemma arv_SetEntry_spec a n f i x : VecIs (VArr a) n f -> 0 <= i < n ->
  wp (arv_SetEntry a i x) (fun w => VecIs (VArr w) n (fun k => if k =? i then x else f k)).
Proof.
  intros Ha Hi. destruct (VecIs_elim _ _ _ Ha) as [Hla Hfa]. cbn [v_data] in *.
  unfold arv_SetEntry. rewrite checkIndex_ok by lia. cbn [orpanic bind].
  apply wp_zset; [lia|]. apply VecIs_intro; cbn [v_data]; [rewrite len_upd; auto|].
  intros k Hk. rewrite nthZ_upd, Hfa by lia. rewrite (Z.eqb_sym k i). auto.
Qed.
Lemma arv_AddToEntry_spec a n f i x : VecIs (VArr a) n f -> 0 <= i < n ->
  wp (arv_AddToEntry a i x) (fun w => VecIs (VArr w) n (fun k => if k =? i then (f k + x)%f else f k)).
Proof.
  intros Ha Hi. destruct (VecIs_elim _ _ _ Ha) as [Hla Hfa]. cbn [v_data] in *.
  unfold arv_AddToEntry. rewrite checkIndex_ok by lia. cbn [orpanic bind].
  apply wp_bind, wp_zget; [lia|].
  apply wp_zset; [lia|]. apply VecIs_intro; cbn [v_data]; [rewrite len_upd; auto|].
  intros k Hk. rewrite nthZ_upd, !Hfa by lia. rewrite (Z.eqb_sym k i). destruct (Z.eqb_spec i k); subst; auto.
Qed.

(** Iterators are index loops. *)
Lemma it_loop_for {S} v (body : Z -> F -> S -> res S) (s : S) :
  it_loop v body s = for_ 0 (v_Dimension v) (fun i s => body i (nthZ (v_data v) i) s) s.
Proof.
  unfold it_loop.
  assert (G : forall k i (s : S), 0 <= i -> Z.of_nat k = v_Dimension v - i ->
    (let* r := while_ (Datatypes.S k) (fun '(idx, _) => it_HasNext v idx)
              (fun '(idx, s) => let* (e, idx) := it_Next v idx in
                 let* s := body (fst e) (snd e) s in Ok (idx, s)) (i, s) in Ok (snd r)) =
    for_ i (v_Dimension v) (fun i s => body i (nthZ (v_data v) i) s) s).
  { induction k; intros i s0 Hi Hk.
    - rewrite for_nil by lia. cbn [while_]. unfold it_HasNext.
      destruct (Z.ltb_spec i (v_Dimension v)); [lia|]. reflexivity.
    - rewrite for_step by lia. cbn [while_]. unfold it_HasNext at 1.
      destruct (Z.ltb_spec i (v_Dimension v)); [|lia].
      unfold it_Next at 1. destruct (Z.leb_spec (v_Dimension v) i); [lia|].
      rewrite v_At_ok by lia. cbn [bind fst snd].
      destruct (body i (nthZ (v_data v) i) s0) as [s1|e|e]; cbn [bind]; auto.
      rewrite <- IHk by lia. reflexivity. }
  apply (G (length (v_data v)) 0 s); [lia|]. unfold v_Dimension, len. lia.
Qed.

(** A loop of pure steps is [accum]. *)
Lemma for_pure {S} (body : Z -> S -> res S) (g : Z -> S -> S) n (s : S) :
  0 <= n -> (forall i s, 0 <= i < n -> body i s = Ok (g i s)) ->
  for_ 0 n body s = Ok (accum g (Z.to_nat n) s).
Proof.
  intros Hn Hb. rewrite <- (Z2Nat.id n) in Hb by auto. rewrite <- (Z2Nat.id n) at 1 by auto.
  generalize (Z.to_nat n) Hb. clear. intros n. induction n; intros Hb.
  - apply for_nil. lia.
  - rewrite for_snoc by lia. replace (Z.of_nat (Datatypes.S n) - 1) with (Z.of_nat n) by lia.
    rewrite IHn by (intros; apply Hb; lia). cbn [bind accum]. rewrite Hb by lia. auto.
Qed.
Lemma accum_ext {S} (g h : Z -> S -> S) n (s : S) :
  (forall i s, 0 <= i < Z.of_nat n -> g i s = h i s) -> accum g n s = accum h n s.
Proof.
  induction n; intros; simpl; auto. rewrite H by lia. f_equal. apply IHn. intros; apply H; lia.
Qed.

Lemma VecDotProduct_spec v w n f g : VecIs v n f -> VecIs w n g ->
  VecDotProduct v w = Ok (fsum n (fun k => (f k * g k)%f)).
Proof.
  intros Hv Hw. destruct (VecIs_elim _ _ _ Hv) as [Hlv Hfv], (VecIs_elim _ _ _ Hw) as [Hlw Hfw].
  pose proof (len_nonneg (v_data v)).
  unfold VecDotProduct, v_Dimension. rewrite Hlv, Hlw, checkDimensions_ok. cbn [orpanic bind].
  apply for_pure; [lia|]. intros. rewrite !v_At_ok by (unfold v_Dimension; lia). cbn [bind].
  rewrite Hfv, Hfw; auto.
Qed.
Lemma VecNorm_spec v n f : VecIs v n f -> VecNorm v = Ok (fsqrt (fsum n (fun k => (f k * f k)%f))).
Proof.
  intros Hv. destruct (VecIs_elim _ _ _ Hv) as [Hlv Hfv]. pose proof (len_nonneg (v_data v)).
  unfold VecNorm. rewrite it_loop_for. unfold v_Dimension. rewrite Hlv.
  rewrite (for_pure _ (fun k s => (s + f k * f k)%f)); auto; [lia|].
  intros. rewrite Hfv; auto.
Qed.
Lemma VecL1Norm_spec v n f : VecIs v n f -> VecL1Norm v = Ok (fsum n (fun k => fabs (f k))).
Proof.
  intros Hv. destruct (VecIs_elim _ _ _ Hv) as [Hlv Hfv]. pose proof (len_nonneg (v_data v)).
  unfold VecL1Norm. rewrite it_loop_for. unfold v_Dimension. rewrite Hlv.
  apply for_pure; [lia|]. intros. rewrite Hfv; auto.
Qed.
Lemma VecLInfNorm_spec v n f : VecIs v n f ->
  VecLInfNorm v = Ok (accum (fun k s => fmax s (fabs (f k))) (Z.to_nat n) fzero).
Proof.
  intros Hv. destruct (VecIs_elim _ _ _ Hv) as [Hlv Hfv]. pose proof (len_nonneg (v_data v)).
  unfold VecLInfNorm. rewrite it_loop_for. unfold v_Dimension. rewrite Hlv.
  apply for_pure; [lia|]. intros. rewrite Hfv; auto.
Qed.
Lemma VecDistance_spec v w n f g : VecIs v n f -> VecIs w n g ->
  VecDistance v w = Ok (fsqrt (fsum n (fun k => ((f k - g k) * (f k - g k))%f))).
Proof.
  intros Hv Hw. destruct (VecIs_elim _ _ _ Hv) as [Hlv Hfv], (VecIs_elim _ _ _ Hw) as [Hlw Hfw].
  pose proof (len_nonneg (v_data v)).
  unfold VecDistance. rewrite it_loop_for. unfold v_Dimension. rewrite Hlv, Hlw, checkDimensions_ok. cbn [orpanic bind].
  rewrite (for_pure _ (fun k s => (s + (f k - g k) * (f k - g k))%f)); auto; [lia|].
  intros. rewrite !v_At_ok by (unfold v_Dimension; lia). cbn [bind]. rewrite Hfv, Hfw; auto.
Qed.
Lemma VecL1Distance_spec v w n f g : VecIs v n f -> VecIs w n g ->
  VecL1Distance v w = Ok (fsum n (fun k => fabs (f k - g k)%f)).
Proof.
  intros Hv Hw. destruct (VecIs_elim _ _ _ Hv) as [Hlv Hfv], (VecIs_elim _ _ _ Hw) as [Hlw Hfw].
  pose proof (len_nonneg (v_data v)).
  unfold VecL1Distance. rewrite it_loop_for. unfold v_Dimension. rewrite Hlv, Hlw, checkDimensions_ok. cbn [orpanic bind].
  apply for_pure; [lia|].
  intros. rewrite !v_At_ok by (unfold v_Dimension; lia). cbn [bind]. rewrite Hfv, Hfw; auto.
Qed.
Lemma VecLInfDistance_spec v w n f g : VecIs v n f -> VecIs w n g ->
  VecLInfDistance v w = Ok (accum (fun k s => fmax (fabs (f k - g k)%f) s) (Z.to_nat n) fzero).
Proof.
  intros Hv Hw. destruct (VecIs_elim _ _ _ Hv) as [Hlv Hfv], (VecIs_elim _ _ _ Hw) as [Hlw Hfw].
  pose proof (len_nonneg (v_data v)).
  unfold VecLInfDistance. rewrite it_loop_for. unfold v_Dimension. rewrite Hlv, Hlw, checkDimensions_ok. cbn [orpanic bind].
  apply for_pure; [lia|].
  intros. rewrite !v_At_ok by (unfold v_Dimension; lia). cbn [bind]. rewrite Hfv, Hfw; auto.
Qed.

(** Search loops. *)
Lemma for_brk_exists n (p : Z -> bool) (body : Z -> unit -> res (bool * unit)) :
  0 <= n -> (forall i s, 0 <= i < n -> body i s = Ok (p i, tt)) ->
  exists b, for_brk 0 n body tt = Ok (b, tt) /\ (b = true <-> exists i, 0 <= i < n /\ p i = true).
Proof.
  intros Hn Hb.
  assert (G : wp (for_brk 0 n body tt) (fun r => fst r = true <-> exists i, 0 <= i < n /\ p i = true)).
  { apply (wp_for_brk (fun k _ => forall i, 0 <= i < k -> p i = false)
                      (fun _ => exists i, 0 <= i < n /\ p i = true)); auto.
    - intros; lia.
    - intros i s Hi Hp. rewrite Hb by lia. apply wp_ok. cbn. destruct (p i) eqn:E.
      + exists i; auto.
      + intros j Hj. destruct (Z.eq_dec j i); [subst; auto|apply Hp; lia].
    - intros s Hp. cbn. split; [discriminate|]. intros (i & Hi & E). rewrite Hp in E by lia. discriminate.
    - intros s H. cbn. split; auto. }
  destruct G as ([b []] & Hr & H). exists b; auto.
Qed.
Lemma arv_IsNaN_spec a : exists b, arv_IsNaN a = Ok b /\
  (b = true <-> exists i, 0 <= i < len a /\ fisnan (nthZ a i) = true).
Proof.
  unfold arv_IsNaN.
  destruct (for_brk_exists (len a) (fun i => fisnan (nthZ a i))
     (fun i _ => let* x := zget a i in Ok (fisnan x, tt))) as (b & -> & H).
  - apply len_nonneg.
  - intros. rewrite zget_ok by lia. auto.
  - exists b. split; auto.
Qed.

Lemma arv_Equals_spec a v n m f g :
  VecIs (VArr a) n f -> VecIs v m g ->
  (forall i, 0 <= i < n -> fisnan (f i) = false) ->
  (forall i, 0 <= i < m -> fisnan (g i) = false) ->
  exists b, arv_Equals a false (Some v) = Ok b /\
  (b = true <-> n = m /\ forall i, 0 <= i < n -> feq (f i) (g i) = true).
Proof.
  intros Ha Hv Nf Ng. destruct (VecIs_elim _ _ _ Ha) as [Hla Hfa], (VecIs_elim _ _ _ Hv) as [Hlv Hfv].
  cbn [v_data] in *. pose proof (len_nonneg a).
  unfold arv_Equals, v_Dimension. rewrite Hla, Hlv.
  destruct (Z.eqb_spec n m) as [E|E]; cbn [negb].
  2:{ exists false. split; auto. split; [discriminate|]. intros [? _]; contradiction. }
  destruct (arv_IsNaN_spec (v_data v)) as (bn & -> & Hbn). cbn [bind].
  destruct bn.
  { destruct (proj1 Hbn eq_refl) as (i & Hi & Hx). rewrite Hfv in Hx by lia. rewrite Ng in Hx by lia. discriminate. }
  destruct (for_brk_exists n (fun i => fne (f i) (g i))
     (fun i _ => let* x := zget a i in let* y := v_At v i in Ok (fne x y, tt))) as (b & -> & Hb).
  - lia.
  - intros. rewrite zget_ok by lia. cbn [bind]. rewrite v_At_ok by (unfold v_Dimension; lia). cbn [bind].
    rewrite Hfa, Hfv by lia. auto.
  - cbn [bind fst]. exists (negb b). split; auto. split.
    + intros Hn. split; auto. intros i Hi. destruct (feq (f i) (g i)) eqn:Ef; auto.
      assert (b = true) by (apply Hb; exists i; split; auto; unfold fne; rewrite Ef; auto).
      subst b; discriminate.
    + intros [_ Hall]. destruct b; auto. destruct (proj1 Hb eq_refl) as (i & Hi & Hx).
      unfold fne in Hx. rewrite Hall in Hx by auto. discriminate.
Qed.
End VectorFacts.

(** Searches, walks and equality of vectors. *)
From Coq Require Import ZArith List Lia Bool Floats.SpecFloat.
From Verif Require Import Base BaseLemmas Scalar Vector VecSpec VectorFacts Float64 Float64Facts ExampleOps.
Import ListNotations.
Open Scope Z_scope.

Section VecProps.
Context {O : Ops}.

Lemma it_spec {S} v n f (body : Z -> F -> S -> res S) s : VecIs v n f ->
  it_loop v body s = for_ 0 n (fun i s => body i (f i) s) s.
Proof.
  intros H. destruct (VecIs_elim _ _ _ H) as [Hl Hf]. rewrite it_loop_for. unfold v_Dimension. rewrite Hl.
  apply for_ext. intros i s' Hi. rewrite Hf by auto. reflexivity.
Qed.

(** A search for the last entry that no earlier one beats. *)
Lemma search_spec (le : F -> F -> bool) v n f :
  (forall x y z, le x y = true -> le y z = true -> le x z = true) ->
  (forall x y, fisnan x = false -> fisnan y = false -> le x y = true \/ le y x = true) ->
  (forall x y, le x y = true -> fisnan x = false /\ fisnan y = false) ->
  VecIs v n f ->
  exists i,
  (let* r := it_loop v (fun i x '(bi, bv) =>
     if match bv with None => negb (fisnan x) | Some m => le x m end
     then Ok (i, Some x) else Ok (bi, bv)) (-1, None) in Ok (fst r)) = Ok i /\
  ((i = -1 /\ forall j, 0 <= j < n -> fisnan (f j) = true) \/
   (0 <= i < n /\ fisnan (f i) = false /\
    (forall j, 0 <= j < n -> fisnan (f j) = false -> le (f i) (f j) = true) /\
    (forall j, i < j < n -> le (f j) (f i) = false))).
Proof.
  intros Htr Htot Hnan H. assert (0 <= n) by (destruct (VecIs_elim _ _ _ H) as [<- _]; apply len_nonneg).
  rewrite (it_spec v n f) by auto.
  set (I := fun k (s : Z * option F) =>
    (s = (-1, None) /\ forall j, 0 <= j < k -> fisnan (f j) = true) \/
    (exists i, s = (i, Some (f i)) /\ 0 <= i < k /\ fisnan (f i) = false /\
      (forall j, 0 <= j < k -> fisnan (f j) = false -> le (f i) (f j) = true) /\
      (forall j, i < j < k -> le (f j) (f i) = false))).
  assert (G : wp (for_ 0 n (fun i (s : Z * option F) => (fun i x '(bi, bv) =>
     if match bv with None => negb (fisnan x) | Some m => le x m end
     then Ok (i, Some x) else Ok (bi, bv)) i (f i) s) (-1, None)) (I n)).
  { apply (wp_for I); auto.
    - left. split; auto. intros; lia.
    - intros k s Hk [[-> Hs]|(i & -> & Hi & Hn & Hmin & Hlast)]; cbn beta iota.
      + destruct (fisnan (f k)) eqn:Ek; cbn [negb]; apply wp_ok.
        * left. split; auto. intros j Hj. destruct (Z.eq_dec j k); [subst; auto|apply Hs; lia].
        * right. exists k. split; auto. split; [lia|]. split; auto. split; [|intros; lia].
          intros j Hj Hjn. destruct (Z.eq_dec j k) as [->|]; [destruct (Htot (f k) (f k)); auto|].
          rewrite Hs in Hjn by lia. discriminate.
      + destruct (le (f k) (f i)) eqn:Ek; apply wp_ok; right.
        * exists k. split; auto. split; [lia|]. split; [apply (Hnan _ _ Ek)|]. split; [|intros; lia].
          intros j Hj Hjn. destruct (Z.eq_dec j k) as [->|]; [destruct (Htot (f k) (f k)); auto|].
          apply Htr with (f i); auto. apply Hmin; auto; lia.
        * exists i. split; auto. split; [lia|]. split; auto. split.
          -- intros j Hj Hjn. destruct (Z.eq_dec j k) as [->|]; [|apply Hmin; auto; lia].
             destruct (Htot (f i) (f k)); auto. congruence.
          -- intros j Hj. destruct (Z.eq_dec j k) as [->|]; auto. apply Hlast; lia. }
  destruct G as (s & -> & HI). cbn [bind].
  destruct HI as [[-> Hs]|(i & -> & Hi & Hn & Hmin & Hlast)]; eexists; (split; [reflexivity|]); cbn [fst]; auto.
Qed.

(** ** Walks *)
Lemma zrange_nil lo hi : hi <= lo -> range lo hi = [].
Proof. intros. unfold range. replace (Z.to_nat (hi - lo)) with 0%nat by lia. auto. Qed.
Lemma zrange_step lo hi : lo < hi -> range lo hi = lo :: range (lo + 1) hi.
Proof.
  intros. unfold range. replace (Z.to_nat (hi - lo)) with (Datatypes.S (Z.to_nat (hi - (lo + 1)))) by lia. reflexivity.
Qed.
Lemma vwalk_spec {St} a n f (v : VecVisitor St) lo hi st : VecIs (VArr a) n f -> 0 <= lo -> hi <= n ->
  for_ lo hi (fun i st => let* x := zget a i in Ok (snd (vv_visit v i x st))) st = Ok (vvisits v (range lo hi) f st).
Proof.
  intros H. destruct (VecIs_elim _ _ _ H) as [Hl Hf]. cbn [v_data] in *. revert lo st.
  assert (G : forall k lo st, Z.to_nat (hi - lo) = k -> 0 <= lo -> hi <= n ->
    for_ lo hi (fun i st => let* x := zget a i in Ok (snd (vv_visit v i x st))) st = Ok (vvisits v (range lo hi) f st)).
  { induction k as [|k IH]; intros lo st Hk H0 Hn.
    - rewrite for_nil, zrange_nil by lia. reflexivity.
    - rewrite for_step, zrange_step by lia. cbn [vvisits]. rewrite zget_ok by lia. cbn [bind]. rewrite Hf by lia. apply IH; lia. }
  intros. eapply G; eauto.
Qed.
Lemma vwalk_upd_spec {St} a n f (v : VecVisitor St) lo hi st : VecIs (VArr a) n f -> 0 <= lo -> hi <= n ->
  wp (for_ lo hi (fun i '((arv, st) : vec * St) =>
               let* x := zget arv i in
               let '(y, st) := vv_visit v i x st in
               let* arv := zset arv i y in Ok (arv, st)) (a, st))
  (fun r => VecIs (VArr (fst r)) n (fst (vupdates v (range lo hi) f st)) /\ snd r = snd (vupdates v (range lo hi) f st)).
Proof.
  assert (G : forall k lo a f st, VecIs (VArr a) n f -> Z.to_nat (hi - lo) = k -> 0 <= lo -> hi <= n ->
   wp (for_ lo hi (fun i '((arv, st) : vec * St) =>
               let* x := zget arv i in
               let '(y, st) := vv_visit v i x st in
               let* arv := zset arv i y in Ok (arv, st)) (a, st))
    (fun r => VecIs (VArr (fst r)) n (fst (vupdates v (range lo hi) f st)) /\ snd r = snd (vupdates v (range lo hi) f st))).
  { induction k as [|k IH]; intros lo' a' f' st' H Hk H0 Hn.
    - rewrite for_nil, zrange_nil by lia. apply wp_ok. auto.
    - destruct (VecIs_elim _ _ _ H) as [Hl Hf]. cbn [v_data] in *.
      rewrite for_step, zrange_step by lia. cbn [vupdates]. rewrite zget_ok by lia. cbn [bind]. rewrite Hf by lia.
      destruct (vv_visit v lo' (f' lo') st') as [y st2]. rewrite zset_ok by lia. cbn [bind]. apply IH; try lia.
      apply VecIs_intro; cbn [v_data]; [rewrite len_upd; auto|]. intros i Hi. rewrite nthZ_upd by lia.
      rewrite (Z.eqb_sym i lo'). destruct (Z.eqb_spec lo' i); auto. }
  intros. eapply G; eauto.
Qed.
Lemma checkIndices_ok dim s e : 0 <= s <= e -> e < dim -> checkIndices dim s e = Ok tt.
Proof.
  intros. unfold checkIndices.
  destruct (Z.ltb_spec s 0), (Z.leb_spec dim s), (Z.ltb_spec e 0), (Z.leb_spec dim e), (Z.ltb_spec e s); auto; lia.
Qed.
Lemma checkIndices_err dim s e : ~ (0 <= s <= e /\ e < dim) -> exists x, checkIndices dim s e = Err x.
Proof.
  intros. unfold checkIndices.
  destruct (Z.ltb_spec s 0), (Z.leb_spec dim s), (Z.ltb_spec e 0), (Z.leb_spec dim e), (Z.ltb_spec e s); try (eexists; reflexivity); lia.
Qed.

Lemma arv_IsInf_spec a n f : VecIs (VArr a) n f ->
  exists b, arv_IsInf a = Ok b /\
  (b = true <-> (forall i, 0 <= i < n -> fisnan (f i) = false) /\ exists i, 0 <= i < n /\ (fispinf (f i) = true \/ fisninf (f i) = true)).
Proof.
  intros H. destruct (VecIs_elim _ _ _ H) as [Hl Hf]. cbn [v_data] in *.
  unfold arv_IsInf. destruct (arv_IsNaN_spec a) as (b & -> & Hb). cbn [bind]. rewrite Hl in Hb. destruct b.
  - exists false. split; auto. destruct (proj1 Hb eq_refl) as (i & Hi & E). rewrite Hf in E by auto. split; [discriminate|].
    intros [K _]. rewrite K in E by auto. discriminate.
  - destruct (for_brk_exists n (fun i => fispinf (f i) || fisninf (f i))
     (fun i _ => let* x := zget a i in Ok (fispinf x || fisninf x, tt))) as (b & E & Hb').
    + subst n. apply len_nonneg.
    + intros. rewrite zget_ok by lia. cbn [bind]. rewrite Hf by auto. reflexivity.
    + rewrite Hl, E. cbn [bind fst]. exists b. split; auto. rewrite Hb'. split.
      * intros (i & Hi & K). split.
        -- intros j Hj. destruct (fisnan (f j)) eqn:Ej; auto. assert (false = true); [|discriminate]. apply Hb. exists j. rewrite Hf by auto. auto.
        -- exists i. rewrite orb_true_iff in K. auto.
      * intros (_ & i & Hi & K). exists i. rewrite orb_true_iff. auto.
Qed.
End VecProps.

(** ** float64 *)
Lemma MinIndex_float c (v : RealVector (O := SFOps c)) n f : VecIs v n f ->
  exists i, MinIndex v = Ok i /\
  ((i = -1 /\ forall j, 0 <= j < n -> sf_isnan (f j) = true) \/
   (0 <= i < n /\ sf_isnan (f i) = false /\
    (forall j, 0 <= j < n -> sf_isnan (f j) = false -> SFleb (f i) (f j) = true) /\
    (forall j, i < j < n -> SFleb (f j) (f i) = false))).
Proof.
  intros H. apply (search_spec (O := SFOps c) SFleb v n f); auto.
  - apply SFleb_trans.
  - apply SFleb_total.
  - apply SFleb_nan.
Qed.
Lemma MaxIndex_float c (v : RealVector (O := SFOps c)) n f : VecIs v n f ->
  exists i, MaxIndex v = Ok i /\
  ((i = -1 /\ forall j, 0 <= j < n -> sf_isnan (f j) = true) \/
   (0 <= i < n /\ sf_isnan (f i) = false /\
    (forall j, 0 <= j < n -> sf_isnan (f j) = false -> SFleb (f j) (f i) = true) /\
    (forall j, i < j < n -> SFleb (f i) (f j) = false))).
Proof.
  intros H. apply (search_spec (O := SFOps c) (fun x y => SFleb y x) v n f); auto.
  - intros. eapply SFleb_trans; eauto.
  - intros. apply SFleb_total; auto.
  - intros x y Hxy. apply SFleb_nan in Hxy. tauto.
Qed.

Section Extra.
Context {O : Ops}.
Lemma binop_mismatch_all a v : len a <> v_Dimension v ->
  panics (arv_Add a v) /\ panics (arv_Subtract a v) /\ panics (arv_EBEMultiply a v) /\ panics (arv_EBEDivide a v) /\
  (forall x y, panics (arv_Combine a x y v)) /\ panics (arv_CopyFrom a v) /\ panics (VecDotProduct (VArr a) v) /\
  panics (VecDistance (VArr a) v) /\ panics (VecL1Distance (VArr a) v) /\ panics (VecLInfDistance (VArr a) v).
Proof.
  intros H.
  split; [exists EDimMismatch; apply binop_mismatch; auto|]. split; [exists EDimMismatch; apply binop_mismatch; auto|].
  split; [exists EDimMismatch; apply binop_mismatch; auto|]. split; [exists EDimMismatch; apply binop_mismatch; auto|].
  assert (E : checkDimensions (len a) (v_Dimension v) = Err EDimMismatch) by (apply checkDimensions_err; auto).
  unfold arv_Combine, arv_CopyFrom, VecDotProduct, VecDistance, VecL1Distance, VecLInfDistance.
  change (v_Dimension (VArr a)) with (len a). rewrite E. cbn [orpanic bind].
  repeat split; intros; eexists; reflexivity.
Qed.
Lemma walk_ok {St} a n f (v : VecVisitor St) st : VecIs (VArr a) n f ->
  arv_WalkInDefaultOrder a v st =
    Ok (let st' := vvisits v (range 0 n) f (vv_start v n 0 (n - 1) st) in (st', vv_end v st')).
Proof.
  intros H. unfold arv_WalkInDefaultOrder. assert (Hl : len a = n) by apply (VecIs_elim _ _ _ H). rewrite Hl.
  rewrite (vwalk_spec a n f) by (auto; lia). reflexivity.
Qed.
Lemma walk_bounded_ok {St} a n f (v : VecVisitor St) s e st : VecIs (VArr a) n f -> 0 <= s <= e -> e < n ->
  arv_WalkInDefaultOrderBounded a v s e st =
    Ok (let st' := vvisits v (range s (e + 1)) f (vv_start v n s e st) in (st', vv_end v st')).
Proof.
  intros H H1 H2. unfold arv_WalkInDefaultOrderBounded. assert (Hl : len a = n) by apply (VecIs_elim _ _ _ H). rewrite Hl.
  rewrite checkIndices_ok by auto. cbn [orpanic bind]. rewrite (vwalk_spec a n f) by (auto; lia). reflexivity.
Qed.
Lemma walk_update_ok {St} a n f (v : VecVisitor St) st : VecIs (VArr a) n f ->
  exists w, arv_WalkInUpdateDefaultOrder a v st =
    Ok (let st' := snd (vupdates v (range 0 n) f (vv_start v n 0 (n - 1) st)) in (w, st', vv_end v st')) /\
  VecIs (VArr w) n (fst (vupdates v (range 0 n) f (vv_start v n 0 (n - 1) st))).
Proof.
  intros H. unfold arv_WalkInUpdateDefaultOrder. assert (Hl : len a = n) by apply (VecIs_elim _ _ _ H). rewrite Hl.
  destruct (vwalk_upd_spec a n f v 0 n (vv_start v n 0 (n - 1) st) H ltac:(lia) ltac:(lia)) as ([w st'] & -> & H1 & H2).
  cbn [bind fst snd] in *. exists w. rewrite <- H2. auto.
Qed.
Lemma walk_update_bounded_ok {St} a n f (v : VecVisitor St) s e st : VecIs (VArr a) n f -> 0 <= s <= e -> e < n ->
  exists w, arv_WalkInUpdateDefaultOrderBounded a v s e st =
    Ok (let st' := snd (vupdates v (range s (e + 1)) f (vv_start v n s e st)) in (w, st', vv_end v st')) /\
  VecIs (VArr w) n (fst (vupdates v (range s (e + 1)) f (vv_start v n s e st))).
Proof.
  intros H H1 H2. unfold arv_WalkInUpdateDefaultOrderBounded. assert (Hl : len a = n) by apply (VecIs_elim _ _ _ H). rewrite Hl.
  rewrite checkIndices_ok by auto. cbn [orpanic bind].
  destruct (vwalk_upd_spec a n f v s (e + 1) (vv_start v n s e st) H ltac:(lia) ltac:(lia)) as ([w st'] & -> & K1 & K2).
  cbn [bind fst snd] in *. exists w. rewrite <- K2. auto.
Qed.
Lemma walk_bad {St} a (v : VecVisitor St) s e st : ~ (0 <= s <= e /\ e < len a) ->
  panics (arv_WalkInDefaultOrderBounded a v s e st) /\ panics (arv_WalkInUpdateDefaultOrderBounded a v s e st).
Proof.
  intros H. destruct (checkIndices_err (len a) s e H) as (x & E).
  unfold arv_WalkInDefaultOrderBounded, arv_WalkInUpdateDefaultOrderBounded. rewrite E. split; eexists; reflexivity.
Qed.
(** Replaced entries are those visited, each by the value returned for it. *)
Lemma vupdates_other {St} (v : VecVisitor St) is f st j : ~ In j is -> fst (vupdates v is f st) j = f j.
Proof.
  revert f st. induction is as [|i is IH]; intros f st Hj; cbn [vupdates]; auto.
  destruct (vv_visit v i (f i) st) as [y st']. rewrite IH by (intros K; apply Hj; right; auto).
  destruct (Z.eqb_spec j i); auto. subst. exfalso. apply Hj. left; auto.
Qed.
Lemma SetEntry_bad a i x : ~ (0 <= i < len a) -> panics (arv_SetEntry a i x) /\ panics (arv_AddToEntry a i x) /\ panics (arv_At a i).
Proof.
  intros H. unfold arv_SetEntry, arv_AddToEntry, arv_At. rewrite checkIndex_err by auto. repeat split; eexists; reflexivity.
Qed.
End Extra.

Section EqualsFloat.
Variable c : Z.
Let O := SFOps c.
Definition nan_free (v : @RealVector O) : Prop := forall i x, v_At v i = Ok x -> sf_isnan x = false.
Definition veq (a : list (@F O)) (v : @RealVector O) : Prop := arv_Equals a false (Some v) = Ok true.
Lemma nan_free_tab v n f : nan_free v -> VecIs v n f -> forall i, 0 <= i < n -> sf_isnan (f i) = false.
Proof. intros Hn (_ & H & _) i Hi. apply (Hn i). auto. Qed.
Lemma veq_iff a v n m f g : VecIs (VArr a) n f -> VecIs v m g -> nan_free (VArr a) -> nan_free v ->
  (veq a v <-> n = m /\ forall i, 0 <= i < n -> SFeqb (f i) (g i) = true) /\
  exists b, arv_Equals a false (Some v) = Ok b.
Proof.
  intros Ha Hv Na Nv.
  destruct (arv_Equals_spec (O := O) a v n m f g Ha Hv (nan_free_tab _ _ _ Na Ha) (nan_free_tab _ _ _ Nv Hv)) as (b & E & Hb).
  split; [|exists b; auto]. unfold veq. rewrite E. split; [intros K; injection K; intros; apply Hb; auto|intros K; f_equal; apply Hb; auto].
Qed.
Lemma veq_refl a : nan_free (VArr a) -> veq a (VArr a).
Proof.
  intros N. pose proof (VecIs_self (O := O) (VArr a)) as H.
  apply (proj1 (veq_iff _ _ _ _ _ _ H H N N)). split; auto. intros i Hi. apply SFeqb_refl. eapply nan_free_tab; eauto.
Qed.
Lemma veq_sym a b : nan_free (VArr a) -> nan_free (VArr b) -> veq a (VArr b) -> veq b (VArr a).
Proof.
  intros Na Nb. pose proof (VecIs_self (O := O) (VArr a)) as Ha. pose proof (VecIs_self (O := O) (VArr b)) as Hb.
  rewrite (proj1 (veq_iff _ _ _ _ _ _ Ha Hb Na Nb)), (proj1 (veq_iff _ _ _ _ _ _ Hb Ha Nb Na)).
  intros [E K]. rewrite E in K. split; auto. intros i Hi. rewrite SFeqb_sym. apply K. auto.
Qed.
Lemma veq_trans a b v : nan_free (VArr a) -> nan_free (VArr b) -> nan_free v -> veq a (VArr b) -> veq b v -> veq a v.
Proof.
  intros Na Nb Nv. pose proof (VecIs_self (O := O) (VArr a)) as Ha. pose proof (VecIs_self (O := O) (VArr b)) as Hb.
  pose proof (VecIs_self (O := O) v) as Hv.
  rewrite (proj1 (veq_iff _ _ _ _ _ _ Ha Hb Na Nb)), (proj1 (veq_iff _ _ _ _ _ _ Hb Hv Nb Nv)), (proj1 (veq_iff _ _ _ _ _ _ Ha Hv Na Nv)).
  intros [E1 K1] [E2 K2]. rewrite E1 in *. split; auto. intros i Hi. eapply SFeqb_trans; [apply K1|apply K2]; auto.
Qed.
Lemma veq_all a v n m f g : VecIs (VArr a) n f -> VecIs v m g ->
  (exists b, arv_Equals a false (Some v) = Ok b) /\
  (veq a v <-> n = m /\ (((exists i, 0 <= i < n /\ sf_isnan (f i) = true) /\ exists i, 0 <= i < n /\ sf_isnan (g i) = true) \/
                        forall i, 0 <= i < n -> SFeqb (f i) (g i) = true)) /\
  (forall o, arv_Equals a true o = Ok true) /\ arv_Equals a false None = Ok false.
Proof.
  intros Ha Hv. enough ((exists b, arv_Equals a false (Some v) = Ok b /\ (b = true <-> n = m /\ (((exists i, 0 <= i < n /\ sf_isnan (f i) = true) /\ exists i, 0 <= i < n /\ sf_isnan (g i) = true) \/
                        forall i, 0 <= i < n -> SFeqb (f i) (g i) = true)))) as (b & E & Hb).
  { split; [exists b; auto|]. split; [|split; [intros; reflexivity|reflexivity]]. unfold veq. rewrite E. rewrite <- Hb. split; [intros K; injection K; auto|intros ->; auto]. }
  destruct (VecIs_elim _ _ _ Ha) as [Hla Hfa], (VecIs_elim _ _ _ Hv) as [Hlv Hfv].
  cbn [v_data] in *. pose proof (len_nonneg a).
  unfold arv_Equals, v_Dimension. rewrite Hla, Hlv.
  destruct (Z.eqb_spec n m) as [E|E]; cbn [negb].
  2:{ exists false. split; auto. split; [discriminate|]. intros [? _]; contradiction. }
  destruct (arv_IsNaN_spec (v_data v)) as (bn & -> & Hbn). cbn [bind].
  destruct bn.
  { destruct (arv_IsNaN_spec a) as (bm & -> & Hbm). exists bm. split; auto. rewrite Hbm. destruct (proj1 Hbn eq_refl) as (k & Hk & Ek). rewrite Hfv in Ek by lia.
    split.
    - intros (i & Hi & Ei). split; auto. left. split; [exists i|exists k]; (split; [lia|]); auto. rewrite Hfa in Ei by lia. exact Ei.
    - intros [_ [[(i & Hi & Ei) _]|K]]; [exists i; split; [lia|]; rewrite Hfa by lia; exact Ei|].
      exfalso. specialize (K k ltac:(lia)). change (sf_isnan (g k) = true) in Ek. clear - K Ek. destruct (g k); try discriminate Ek. destruct (f k) as [| | |]; discriminate K. }
  destruct (for_brk_exists n (fun i => fne (f i) (g i))
     (fun i _ => let* x := zget a i in let* y := v_At v i in Ok (fne x y, tt))) as (b & -> & Hb).
  - lia.
  - intros. rewrite zget_ok by lia. cbn [bind]. rewrite v_At_ok by (unfold v_Dimension; lia). cbn [bind].
    rewrite Hfa, Hfv by lia. auto.
  - cbn [bind fst]. exists (negb b). split; auto. split.
    + intros Hn. split; auto. right. intros i Hi. destruct (SFeqb (f i) (g i)) eqn:Ef; auto.
      assert (b = true) by (apply Hb; exists i; split; auto; unfold fne; cbn [feq SFOps O]; rewrite Ef; auto).
      subst b; discriminate.
    + intros [_ [[_ (k & Hk & Ek)]|Hall]].
      * exfalso. assert (false = true) by (apply Hbn; exists k; split; [lia|]; rewrite Hfv by lia; exact Ek). discriminate.
      * destruct b; auto. destruct (proj1 Hb eq_refl) as (i & Hi & Hx).
        unfold fne in Hx. change (@feq O) with SFeqb in Hx. rewrite Hall in Hx by auto. discriminate.
Qed.
End EqualsFloat.

Section Sub.
Context {O : Ops}.
Lemma SubVector_all a n f i k : VecIs (VArr a) n f ->
  (0 <= i -> 1 <= k -> i + k <= n -> wp (arv_SubVector a i k) (fun w => VecIs (VArr w) k (fun j => f (i + j)))) /\
  ((k < 0 \/ i < 0 \/ n < i + k \/ n <= i) -> panics (arv_SubVector a i k)) /\
  (k = 0 -> 1 <= i < n -> wp (arv_SubVector a i k) (fun w => w = [])) /\
  (k = 0 -> i = 0 -> panics (arv_SubVector a i k)).
Proof.
  intros H. assert (Hl : len a = n) by apply (VecIs_elim _ _ _ H). split; [|split; [|split]].
  - intros. apply (arv_SubVector_spec a n); auto; lia.
  - intros. apply arv_SubVector_panics. lia.
  - intros -> Hi. eapply wp_conseq; [apply (arv_SubVector_spec a n f i 0); auto; lia|]. cbn beta. intros w Hw.
    apply VecIs_elim in Hw. destruct Hw as [E _]. cbn [v_data v_Dimension] in E. destruct w; auto. pose proof (len_nonneg w). rewrite len_cons in E. lia.
  - intros -> ->. apply arv_SubVector_panics. lia.
Qed.
Lemma SetSubVector_all a n f i v m g : VecIs (VArr a) n f -> VecIs v m g ->
  (0 <= i -> 1 <= m -> i + m <= n ->
   wp (arv_SetSubVector a i v) (fun w => VecIs (VArr w) n (fun j => if (i <=? j) && (j <? i + m) then g (j - i) else f j))) /\
  ((i < 0 \/ n < i + m \/ n <= i) -> panics (arv_SetSubVector a i v)) /\
  (m = 0 -> i = 0 -> panics (arv_SetSubVector a i v)).
Proof.
  intros H Hv. assert (Hl : len a = n) by apply (VecIs_elim _ _ _ H).
  assert (Hm : v_Dimension v = m) by apply (VecIs_elim _ _ _ Hv). split; [|split].
  - intros. apply (arv_SetSubVector_spec a n); auto; lia.
  - intros. apply arv_SetSubVector_panics. lia.
  - intros. apply arv_SetSubVector_panics. lia.
Qed.
Lemma nth2_ok i x y z : v_At (VArr [x; y]) i = Ok z -> z = x \/ z = y.
Proof.
  unfold v_At, arv_At. destruct (inb i 2) eqn:E.
  - apply inb_true in E. assert (i = 0 \/ i = 1) as [-> | ->] by lia; intros K; injection K; auto.
  - apply inb_false in E. rewrite checkIndex_err by auto. discriminate.
Qed.
End Sub.
Lemma append_foreign_refuted : exists (O : Ops) a b n m f g,
  VecIs (VArr a) n f /\ VecIs (VOther b) m g /\
  ~ wp (arv_AppendVector a (VOther b)) (fun w => VecIs (VArr w) (n + m) (fun i => if i <? n then f i else g (i - n))).
Proof.
  exists E64, (fls [1]), (fls [2; 3]), 1, 2, (nthZ (fls [1])), (nthZ (fls [2; 3])).
  split; [exact (VecIs_self (O := E64) _)|]. split; [exact (VecIs_self (O := E64) _)|].
  intros (w & E & H). vm_compute in E. injection E as <-.
  pose proof (proj1 (proj2 H) 1 ltac:(lia)) as K. vm_compute in K. discriminate.
Qed.

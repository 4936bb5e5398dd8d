(** More about the DiagonalMatrix model: whatever happens it stays diagonal. *)
From Coq Require Import ZArith List Lia Bool.
From Verif Require Import Base BaseLemmas Scalar Vector VecSpec VectorFacts Matrix Array2D BlockM Diagonal RealMatrixM MatSpec MatFacts Array2DFacts DiagFacts HistSpec MatHist DiagSpec.
Import ListNotations.
Open Scope Z_scope.

(** If the call returns, it returns something with [Q]. *)
Definition ifok {A} (m : res A) (Q : A -> Prop) : Prop := forall a, m = Ok a -> Q a.
Lemma ifok_ok {A} (a : A) (Q : A -> Prop) : Q a -> ifok (Ok a) Q.
Proof. intros H b [= <-]. exact H. Qed.
Lemma ifok_bind {A B} (m : res A) (k : A -> res B) Q : ifok m (fun a => ifok (k a) Q) -> ifok (bind m k) Q.
Proof. intros H b. destruct m as [a| |]; cbn [bind]; try discriminate. intros E. exact (H a eq_refl b E). Qed.
Lemma ifok_conseq {A} (m : res A) (P Q : A -> Prop) : ifok m P -> (forall a, P a -> Q a) -> ifok m Q.
Proof. intros H HPQ a E. auto. Qed.
Lemma ifok_panic {A} e (Q : A -> Prop) : ifok (Panic e) Q.
Proof. intros a. discriminate. Qed.
Lemma ifok_panics {A} (m : res A) (Q : A -> Prop) : panics m -> ifok m Q.
Proof. intros [e ->] a. discriminate. Qed.
Lemma ifok_wp {A} (m : res A) (Q : A -> Prop) : wp m Q -> ifok m Q.
Proof. intros (a & -> & H). apply ifok_ok; auto. Qed.
Lemma ifok_orpanic {A} (m : res A) (Q : A -> Prop) : ifok m Q -> ifok (orpanic m) Q.
Proof. intros H a. destruct m; cbn; try discriminate. intros [= <-]. auto. Qed.
Lemma ifok_any {A} (m : res A) : ifok m (fun _ => True).
Proof. intros a _. exact I. Qed.
Lemma ifok_skip {A B} (m : res A) (k : A -> res B) Q : (forall a, ifok (k a) Q) -> ifok (bind m k) Q.
Proof. intros H. apply ifok_bind. intros a _. apply H. Qed.
Lemma ifok_for {S} (P : Z -> S -> Prop) lo hi (body : Z -> S -> res S) s (Q : S -> Prop) :
  P lo s -> (forall k s, lo <= k < hi -> P k s -> ifok (body k s) (P (k + 1))) ->
  (forall s, P (Z.max lo hi) s -> Q s) -> ifok (for_ lo hi body s) Q.
Proof.
  intros HP Hb HQ.
  assert (G : forall n lo' s, Z.to_nat (hi - lo') = n -> lo <= lo' <= Z.max lo hi -> P lo' s -> ifok (for_ lo' hi body s) Q).
  { induction n as [|n IH]; intros lo' s' Hn Hl HP'.
    - rewrite for_nil by lia. apply ifok_ok, HQ. replace (Z.max lo hi) with lo' by lia. auto.
    - rewrite for_step by lia. apply ifok_bind. eapply ifok_conseq; [apply Hb; auto; lia|]. cbn beta. intros s2 H2.
      apply IH; auto; lia. }
  apply (G (Z.to_nat (hi - lo)) lo s); auto; lia.
Qed.

Section DiagFacts2.
Context {O : Ops}.

Lemma diagonal_dg g : diagonal g = dg g.
Proof. reflexivity. Qed.
Lemma DIs_DiagIs d n g : DIs d n g <-> DiagIs (MDiag d) n g.
Proof.
  split.
  - intros H. split; [eauto|]. apply DIs_MatIs. exact H.
  - intros [_ H]. apply MatIs_DIs in H. destruct H as (_ & H & _). eapply DIs_ext; eauto. intros i Hi. cbn beta.
    unfold diagonal. rewrite Z.eqb_refl. auto.
Qed.
Lemma DiagIs_inv m n g : DiagIs m n g -> exists d, m = MDiag d /\ DIs d n g.
Proof. intros [[d ->] H]. exists d. split; auto. apply DIs_DiagIs. split; eauto. Qed.

(** ** Entries *)
Lemma inb_cases i n : 0 <= i < n \/ ~ 0 <= i < n.
Proof. lia. Qed.
Lemma d_SetEntry_if d n g i j v : DIs d n g ->
  ifok (d_SetEntry d i j v) (fun d' => DIs d' n (fun k => if (k =? i) && (i =? j) then v else g k)).
Proof.
  intros H. destruct (Z.eq_dec i j) as [->|Hne].
  - destruct (inb_cases j n) as [Hj|Hj].
    + apply ifok_wp. destruct (d_Set_cases d n g j j v H Hj Hj) as [G|G]; auto.
      destruct (d_Set_on d n g j v H Hj) as (d' & E & _). destruct G as [e G]. congruence.
    + rewrite (d_Set_on_bad d n g) by auto. apply ifok_panic.
  - intros d' E. destruct (fulp1 fzero v) eqn:Ez.
    + rewrite d_Set_off in E by auto. injection E as <-. eapply DIs_ext; eauto. intros k Hk. cbn beta.
      destruct (Z.eqb_spec i j); [contradiction|]. rewrite andb_false_r. auto.
    + rewrite d_Set_off_bad in E; auto; [discriminate|]. unfold zlike. congruence.
Qed.
Lemma d_entry_cases d n g i j (upd : F -> F) v (chk : bool) :
  DIs d n g ->
  let call := if i =? j then
      let* _ := orpanic (checkRowIndex (MDiag d) i) in
      let* x := zget (d_data d) i in
      let* v := zset (d_data d) i (upd x) in Ok (mkDiag v)
    else if chk then let* _ := orpanic (ensureZero v) in Ok d else Ok d in
  match (if i =? j then (if inb i n then Some (fun k => if k =? i then upd (dg g i i) else g k) else None)
         else if chk then (if fulp1 fzero v then Some g else None) else Some g) with
  | Some g' => wp call (fun d' => DIs d' n g')
  | None => panics call
  end.
Proof.
  intros H call. unfold call. clear call. destruct (Z.eqb_spec i j) as [->|Hne].
  - destruct (inb j n) eqn:Eb.
    + apply inb_true in Eb. rewrite checkRowIndex_ok by (cbn; rewrite (proj1 H); auto). simp.
      rewrite (VTab_get _ _ _ _ H Eb). simp. destruct (VTab_set (d_data d) n g j (upd (g j)) H Eb) as (l & -> & Hl). simp.
      apply wp_ok. unfold dg. rewrite Z.eqb_refl. exact Hl.
    + rewrite checkRowIndex_err; [eexists; reflexivity|]. cbn. rewrite (proj1 H). intros Hi. apply inb_true in Hi. congruence.
  - destruct chk; [|apply wp_ok; auto]. unfold ensureZero. destruct (fulp1 fzero v).
    + apply wp_ok. auto.
    + eexists; reflexivity.
Qed.
Lemma e_exec_diag d n g o : DIs d n g ->
  match de_step n g o with
  | Some g' => wp (e_exec (MDiag d) o) (fun m => exists d', m = MDiag d' /\ DIs d' n g')
  | None => panics (e_exec (MDiag d) o)
  end.
Proof.
  intros H. destruct o as [i j x|i j x|i j x]; unfold de_step; cbn [e_val e_exec m_SetEntry m_AddToEntry m_MultiplyEntry].
  - destruct (Z.eqb_spec i j) as [->|Hne].
    + destruct (inb j n) eqn:Eb.
      * apply inb_true in Eb. destruct (d_Set_on d n g j x H Eb) as (d' & -> & H'). simp. apply wp_ok. eauto.
      * rewrite (d_Set_on_bad d n g); [eexists; reflexivity|auto|]. intros Hi. apply inb_true in Hi. congruence.
    + destruct (fulp1 fzero x) eqn:Ez.
      * rewrite d_Set_off by auto. simp. apply wp_ok. eauto.
      * rewrite d_Set_off_bad; [eexists; reflexivity|auto|]. unfold zlike. congruence.
  - pose proof (d_entry_cases d n g i j (fun y => (y + x)%f) x true H) as G. cbn zeta in G.
    unfold d_AddToEntry. rewrite diagonal_dg.
    destruct (Z.eqb_spec i j) as [->|Hne]; [destruct (inb j n)|destruct (fulp1 fzero x)];
      first [apply panics_bind; exact G | wpb; eapply wp_conseq; [exact G|]; cbn beta; intros d' H'; apply wp_ok; eauto].
  - pose proof (d_entry_cases d n g i j (fun y => (y * x)%f) x false H) as G. cbn zeta in G.
    unfold d_MultiplyEntry. rewrite diagonal_dg.
    destruct (Z.eqb_spec i j) as [->|Hne]; [destruct (inb j n)|];
      first [apply panics_bind; exact G | wpb; eapply wp_conseq; [exact G|]; cbn beta; intros d' H'; apply wp_ok; eauto].
Qed.
Lemma e_run_diag os : forall d n g, DIs d n g ->
  exists d', fst (e_run (MDiag d) os) = MDiag d' /\ DIs d' n (fst (de_table n g os)) /\
             snd (e_run (MDiag d) os) = snd (de_table n g os).
Proof.
  induction os as [|o os IH]; intros d n g H; cbn [e_run de_table].
  - exists d. auto.
  - pose proof (e_exec_diag d n g o H) as G. destruct (de_step n g o) as [g'|].
    + destruct G as (m & -> & d1 & -> & H1). destruct (IH d1 n g' H1) as (d2 & E1 & E2 & E3).
      destruct (e_run (MDiag d1) os), (de_table n g' os). cbn [fst snd] in *. exists d2. rewrite E3. auto.
    + destruct G as [e ->]. destruct (IH d n g H) as (d2 & E1 & E2 & E3).
      destruct (e_run (MDiag d) os), (de_table n g os). cbn [fst snd] in *. exists d2. rewrite E3. auto.
Qed.

(** ** Whole-matrix operations, when they return *)
(** Writing entries one after another. *)
Lemma ifok_grid d0 n g r0 r1 c0 c1 (pi pj : Z -> Z) (val : Z -> Z -> F) (body : Z -> Z -> Diag -> res Diag) (Q : Diag -> Prop) :
  DIs d0 n g ->
  (forall i j i' j', pi i = pi i' -> pj j = pj j' -> i = i' /\ j = j') ->
  (forall i j d, r0 <= i < r1 -> c0 <= j < c1 -> ifok (body i j d) (fun d' => d_SetEntry d (pi i) (pj j) (val i j) = Ok d')) ->
  (forall d g', DIs d n g' ->
     (forall i j, r0 <= i < r1 -> c0 <= j < c1 -> pi i = pj j -> g' (pi i) = val i j) ->
     (forall k, (forall i j, r0 <= i < r1 -> c0 <= j < c1 -> ~ (pi i = k /\ pj j = k)) -> g' k = g k) -> Q d) ->
  ifok (for_ r0 r1 (fun i d => for_ c0 c1 (fun j d => body i j d) d) d0) Q.
Proof.
  intros H0 Hinj Hb HQ.
  apply (ifok_for (fun a d => exists g', DIs d n g' /\
     (forall i j, r0 <= i < a -> c0 <= j < c1 -> pi i = pj j -> g' (pi i) = val i j) /\
     (forall k, (forall i j, r0 <= i < a -> c0 <= j < c1 -> ~ (pi i = k /\ pj j = k)) -> g' k = g k))).
  - exists g. split; auto. split; [intros; lia|auto].
  - intros a d Ha (g1 & Hd & H1 & H2).
    apply (ifok_for (fun b d => exists g', DIs d n g' /\
      (forall i j, (r0 <= i < a /\ c0 <= j < c1) \/ (i = a /\ c0 <= j < b) -> pi i = pj j -> g' (pi i) = val i j) /\
      (forall k, (forall i j, (r0 <= i < a /\ c0 <= j < c1) \/ (i = a /\ c0 <= j < b) -> ~ (pi i = k /\ pj j = k)) -> g' k = g k))).
    + exists g1. split; auto. split.
      * intros i j [[Hi Hj]|[Hi Hj]] E; [|lia]. auto.
      * intros k Hk. apply H2. intros i j Hi Hj. apply Hk. auto.
    + intros b d' Hb' (g2 & Hd' & H3 & H4). intros d2 E. apply (Hb a b d' Ha Hb') in E.
      pose proof (d_SetEntry_if d' n g2 (pi a) (pj b) (val a b) Hd' d2 E) as H5. cbn beta in H5.
      eexists. split; [exact H5|]. split.
      * intros i j Hij Epq. destruct (Z.eqb_spec (pi i) (pi a)) as [Ea|Na]; cbn [andb].
        -- destruct (Z.eqb_spec (pi a) (pj b)) as [Eb|Nb].
           ++ destruct (Hinj i j a b) as [-> ->]; auto. congruence.
           ++ apply H3; auto. destruct Hij as [Hij|[Hi Hj]]; auto. subst. destruct (Z.eq_dec j b); [subst; congruence|]. right. split; auto. lia.
        -- apply H3; auto. destruct Hij as [Hij|[Hi Hj]]; auto. subst. congruence.
      * intros k Hk. destruct (Z.eqb_spec k (pi a)) as [Ea|Na]; cbn [andb].
        -- destruct (Z.eqb_spec (pi a) (pj b)) as [Eb|Nb].
           ++ exfalso. apply (Hk a b); [right; split; auto; lia|]. split; congruence.
           ++ apply H4. intros i j Hij. apply Hk. destruct Hij as [Hij|[Hi Hj]]; auto. right. split; auto. lia.
        -- apply H4. intros i j Hij. apply Hk. destruct Hij as [Hij|[Hi Hj]]; auto. right. split; auto. lia.
    + intros d' (g2 & Hd' & H3 & H4). exists g2. split; auto. split.
      * intros i j Hi Hj. apply H3. destruct (Z.eq_dec i a); [right; split; auto; lia|left; split; lia].
      * intros k Hk. apply H4. intros i j [[Hi Hj]|[Hi Hj]]; apply Hk; lia.
  - intros d (g1 & Hd & H1 & H2). apply (HQ d g1 Hd).
    + intros i j Hi Hj. apply H1; auto. lia.
    + intros k Hk. apply H2. intros i j Hi Hj. apply Hk; auto. lia.
Qed.
(** One line. *)
Lemma ifok_line d0 n g (isrow : bool) k (val : Z -> F) (body : Z -> Diag -> res Diag) (Q : Diag -> Prop) :
  DIs d0 n g -> 0 <= k < n ->
  (forall i d, 0 <= i < n -> body i d = if isrow then d_SetEntry d k i (val i) else d_SetEntry d i k (val i)) ->
  (forall d, DIs d n (fun i => if i =? k then val k else g i) -> Q d) ->
  ifok (for_ 0 n body d0) Q.
Proof.
  intros H0 Hk Hb HQ.
  apply (ifok_for (fun l d => DIs d n (fun i => if (i =? k) && (k <? l) then val k else g i))).
  - eapply DIs_ext; eauto. intros i Hi. cbn beta. zb.
  - intros i d Hi Hd. rewrite Hb by auto. destruct isrow; (eapply ifok_conseq; [apply (d_SetEntry_if d n _ _ _ (val i) Hd)|]);
      cbn beta; intros d' Hd'; eapply DIs_ext; eauto; intros q Hq; cbn beta;
      repeat (match goal with |- context [?a =? ?b] => destruct (Z.eqb_spec a b) | |- context [?a <? ?b] => destruct (Z.ltb_spec a b) end; cbn [andb]); subst; auto; lia.
  - intros d Hd. apply HQ. eapply DIs_ext; eauto. intros i Hi. cbn beta. zb.
Qed.

Definition after (n : Z) (g : Z -> F) (o : mop) (m : RealMatrix) : Prop :=
  exists d' n' g', m = MDiag d' /\ DIs d' n' g' /\
   forall r c f, o_table (n, n, dg g) o = Some (r, c, f) -> r = n' /\ (r = c -> forall i, 0 <= i < n' -> g' i = f i i).
Lemma after_ok n g o d' n' g' : DIs d' n' g' ->
  (forall r c f, o_table (n, n, dg g) o = Some (r, c, f) -> r = n' /\ (r = c -> forall i, 0 <= i < n' -> g' i = f i i)) ->
  after n g o (MDiag d').
Proof. intros. exists d', n', g'. auto. Qed.

Lemma NewDiag_if n : ifok (orpanic (NewDiagonalMatrixWithDimension n)) (fun d => 1 <= n /\ DIs d n (fun _ => fzero)).
Proof.
  apply ifok_orpanic. destruct (Z_lt_le_dec n 1) as [Hn|Hn].
  - unfold NewDiagonalMatrixWithDimension. destruct (Z.ltb_spec n 1); [|lia]. intros a. discriminate.
  - apply ifok_wp. eapply wp_conseq; [apply NewDiagonalMatrixWithDimension_spec; auto|]. auto.
Qed.
Lemma dg_same g i : dg g i i = g i.
Proof. unfold dg. rewrite Z.eqb_refl. auto. Qed.

Lemma MatIs_At_bad m r c f i j : MatIs m r c f -> ~ (0 <= i < r /\ 0 <= j < c) -> panics (m_At m i j).
Proof. intros (_ & _ & _ & _ & H). apply H. Qed.

Lemma d_Transpose_if d n g : DIs d n g -> ifok (d_Transpose d) (fun d' => DIs d' n g).
Proof.
  intros Hd. pose proof (DIs_nonneg _ _ _ Hd). unfold d_Transpose. rewrite (proj1 Hd).
  apply ifok_bind. apply ifok_wp. apply wp_make; auto.
  unfold d_WalkInOptimizedOrder, d_WalkInRowOrder. cbn [mv_start mv_visit mv_end]. apply ifok_bind. rewrite (proj1 Hd).
  apply ifok_bind.
  apply (ifok_grid _ n (fun _ => fzero) 0 n 0 n (fun i => i) (fun j => j) (dg g)); auto.
  - apply VTab_zeros. auto.
  - intros i j c Hi Hj. unfold d_cell. rewrite (d_At_ok d n g) by auto. simp. cbn [mv_visit].
    apply ifok_bind. apply ifok_bind. intros c' E. apply ifok_ok. apply ifok_ok.
    rewrite <- E. destruct (Z.eq_dec i j) as [->|Hne]; auto. unfold d_SetEntry.
    destruct (Z.eqb_spec i j); [contradiction|]. destruct (Z.eqb_spec j i); [congruence|]. auto.
  - intros d' g' Hd' H1 H2. apply ifok_ok. apply ifok_ok. eapply DIs_ext; eauto. intros i Hi. cbn beta.
    rewrite (H1 i i) by auto. apply dg_same.
Qed.
Lemma d_SubMatrix_if d n g r0 r1 c0 c1 : DIs d n g ->
  ifok (d_SubMatrix d r0 r1 c0 c1) (fun d' => r1 - r0 = c1 - c0 /\ r0 <= r1 /\ DIs d' (r1 - r0 + 1) (fun i => dg g (r0 + i) (c0 + i))).
Proof.
  intros Hd. unfold d_SubMatrix. destruct (Z.eqb_spec (r1 - r0 + 1) (c1 - c0 + 1)) as [E|]; cbn [negb]; [|apply ifok_panic].
  apply ifok_bind. eapply ifok_conseq; [apply NewDiag_if|]. cbn beta. intros d0 [Hn H0].
  apply (ifok_grid d0 (r1 - r0 + 1) (fun _ => fzero) r0 (r1 + 1) c0 (c1 + 1) (fun i => i - r0) (fun j => j - c0) (dg g)); auto.
  - intros. lia.
  - intros i j c Hi Hj. apply ifok_bind. intros x Ex.
    assert (x = dg g i j) as ->.
    { destruct (inb_cases i n) as [Ia|Ia]; [destruct (inb_cases j n) as [Ja|Ja]|].
      - rewrite (d_At_ok d n g) in Ex by auto. congruence.
      - destruct (MatIs_At_bad _ _ _ _ i j (DIs_MatIs _ _ _ Hd)) as [e P]; [lia|]. cbn [m_At] in P. congruence.
      - destruct (MatIs_At_bad _ _ _ _ i j (DIs_MatIs _ _ _ Hd)) as [e P]; [lia|]. cbn [m_At] in P. congruence. }
    intros c' E'. exact E'.
  - intros d' g' Hd' H1 H2. split; [lia|]. split; [lia|]. eapply DIs_ext; eauto. intros i Hi. cbn beta.
    specialize (H1 (r0 + i) (c0 + i) ltac:(lia) ltac:(lia) ltac:(lia)). replace (r0 + i - r0) with i in H1 by lia. auto.
Qed.
Lemma MatIs_ent m r c f i j : MatIs m r c f -> 0 <= i < r -> 0 <= j < c -> m_At m i j = Ok (ent m i j).
Proof. intros H Hi Hj. unfold ent. rewrite (MatIs_At _ _ _ _ _ _ H Hi Hj). auto. Qed.
Lemma MatIs_dims m r c f : MatIs m r c f -> rows_of m = r /\ cols_of m = c.
Proof. intros H. unfold rows_of, cols_of. rewrite (MatIs_rows _ _ _ _ H), (MatIs_cols _ _ _ _ H). auto. Qed.

Lemma d_arith_if (op : F -> F -> F) d m n g r c h :
  DIs d n g -> MatIs m r c h ->
  ifok (let* columnCount := m_cols m in
      if negb (m_rows m =? columnCount) then Panic EDimMismatch else
      let* out := orpanic (NewDiagonalMatrixWithDimension (m_rows m)) in
      for_ 0 (m_rows m) (fun row out =>
        for_ 0 columnCount (fun col out =>
          let* x := d_At d row col in
          let* y := m_At m row col in
          d_SetEntry out row col (op x y)) out) out) (fun d' => r = n -> DIs d' n (fun i => op (g i) (ent m i i))).
Proof.
  intros Hd Hm. rewrite (MatIs_rows _ _ _ _ Hm), (MatIs_cols _ _ _ _ Hm). simp.
  destruct (Z.eqb_spec r c) as [<-|]; cbn [negb]; [|apply ifok_panic].
  apply ifok_bind. eapply ifok_conseq; [apply NewDiag_if|]. cbn beta. intros d0 [Hn H0].
  destruct (Z.eq_dec r n) as [->|Hne].
  - apply (ifok_grid d0 n (fun _ => fzero) 0 n 0 n (fun i => i) (fun j => j) (fun i j => op (dg g i j) (ent m i j))); auto.
    + intros i j c Hi Hj. rewrite (d_At_ok d n g) by auto. simp. rewrite (MatIs_ent _ _ _ _ _ _ Hm) by auto. simp. intros c' E. exact E.
    + intros d' g' Hd' H1 _ _. eapply DIs_ext; eauto. intros i Hi. cbn beta. rewrite (H1 i i) by auto. rewrite dg_same. auto.
  - eapply ifok_conseq; [apply ifok_any|]. intros; lia.
Qed.
Lemma checkAddition_if (m n : RealMatrix) r c r' c' : m_rows m = r -> m_cols m = Ok c -> m_rows n = r' -> m_cols n = Ok c' ->
  ifok (orpanic (checkAdditionCompatible m n)) (fun _ => r = r' /\ c = c').
Proof.
  intros H1 H2 H3 H4. destruct (Z.eq_dec r r') as [<-|N]; [destruct (Z.eq_dec c c') as [<-|N]|].
  - intros ? _. auto.
  - unfold checkAdditionCompatible. rewrite H1, H2, H3, H4. simp. rewrite Z.eqb_refl. cbn [negb orb].
    destruct (Z.eqb_spec c c'); [contradiction|]. cbn [negb orb]. apply ifok_orpanic. intros a. discriminate.
  - unfold checkAdditionCompatible. rewrite H1, H2, H3, H4. simp. 
    destruct (Z.eqb_spec r r'); [contradiction|]. cbn [negb orb]. apply ifok_orpanic. intros a. try destruct (negb _); discriminate.
Qed.
Lemma d_Add_if d m n g r c h : DIs d n g -> MatIs m r c h ->
  ifok (d_Add d m) (fun d' => r = n /\ c = n /\ DIs d' n (fun i => (g i + ent m i i)%f)).
Proof.
  intros Hd Hm. unfold d_Add. apply ifok_bind.
  eapply ifok_conseq; [apply (checkAddition_if _ _ n n r c); [cbn; apply (proj1 Hd)|cbn; rewrite (proj1 Hd); auto|eapply MatIs_rows; eauto|eapply MatIs_cols; eauto]|].
  cbn beta. intros _ [<- <-]. pose proof (d_arith_if fadd d m n g n n h Hd Hm) as G.
  destruct m as [a|b|dd|r' c' f']; try (eapply ifok_conseq; [exact G|]; cbn beta; auto).
  apply ifok_wp. pose proof Hm as Hm'. apply MatIs_DIs in Hm'. destruct Hm' as (_ & Hm' & _).
  pose proof (d_Add_diag_spec d dd n g _ Hd Hm') as W. unfold d_Add in W.
  rewrite (checkAddition_ok _ _ n) in W by (cbn; rewrite ?(proj1 Hd), ?(proj1 Hm'); auto). cbn [orpanic bind] in W.
  eapply wp_conseq; [exact W|]. cbn beta. intros d' H'. split; auto. split; auto. eapply DIs_ext; eauto. intros i Hi. cbn beta.
  unfold ent. rewrite (MatIs_At _ _ _ _ _ _ Hm Hi Hi). auto.
Qed.
Lemma d_Subtract_if d m n g r c h : DIs d n g -> MatIs m r c h ->
  ifok (d_Subtract d m) (fun d' => r = n /\ c = n /\ DIs d' n (fun i => (g i - ent m i i)%f)).
Proof.
  intros Hd Hm. unfold d_Subtract. apply ifok_bind.
  eapply ifok_conseq; [apply (checkAddition_if _ _ n n r c); [cbn; apply (proj1 Hd)|cbn; rewrite (proj1 Hd); auto|eapply MatIs_rows; eauto|eapply MatIs_cols; eauto]|].
  cbn beta. intros _ [<- <-]. pose proof (d_arith_if fsub d m n g n n h Hd Hm) as G.
  destruct m as [a|b|dd|r' c' f']; try (eapply ifok_conseq; [exact G|]; cbn beta; auto).
  apply ifok_wp. pose proof Hm as Hm'. apply MatIs_DIs in Hm'. destruct Hm' as (_ & Hm' & _).
  pose proof (d_Subtract_diag_spec d dd n g _ Hd Hm') as W. unfold d_Subtract in W.
  rewrite (checkAddition_ok _ _ n) in W by (cbn; rewrite ?(proj1 Hd), ?(proj1 Hm'); auto). cbn [orpanic bind] in W.
  eapply wp_conseq; [exact W|]. cbn beta. intros d' H'. split; auto. split; auto. eapply DIs_ext; eauto. intros i Hi. cbn beta.
  unfold ent. rewrite (MatIs_At _ _ _ _ _ _ Hm Hi Hi). auto.
Qed.
Lemma d_scal_if (op : F -> F -> F) d n g x : DIs d n g ->
  ifok (let* out := orpanic (NewDiagonalMatrixWithDimension (len (d_data d))) in
       for_ 0 (len (d_data d)) (fun row out => for_ 0 (len (d_data d)) (fun col out =>
         let* y := d_At d row col in d_SetEntry out row col (op y x)) out) out)
     (fun d' => DIs d' n (fun i => op (g i) x)).
Proof.
  intros Hd. rewrite (proj1 Hd). apply ifok_bind. eapply ifok_conseq; [apply NewDiag_if|]. cbn beta. intros d0 [Hn H0].
  apply (ifok_grid d0 n (fun _ => fzero) 0 n 0 n (fun i => i) (fun j => j) (fun i j => op (dg g i j) x)); auto.
  - intros i j c Hi Hj. rewrite (d_At_ok d n g) by auto. simp. intros c' E. exact E.
  - intros d' g' Hd' H1 _. eapply DIs_ext; eauto. intros i Hi. cbn beta. rewrite (H1 i i) by auto. rewrite dg_same. auto.
Qed.
Lemma d_SetSub_if d n g sub row column : DIs d n g ->
  ifok (d_SetSubMatrix d (Some sub) row column) (fun d' => exists g', DIs d' n g' /\
    forall i, 0 <= i < n -> g' i = if (row <=? i) && (i <? row + len sub) && (column <=? i) && (i <? column + len (nthZ sub 0))
      then nthZ (nthZ sub (i - row)) (i - column) else g i).
Proof.
  intros Hd. unfold d_SetSubMatrix. destruct (Z.eqb_spec (len sub) 0); [apply ifok_panic|].
  pose proof (len_nonneg sub) as Hl. rewrite zget_ok by lia. simp. set (w := len (nthZ sub 0)).
  destruct (Z.eqb_spec w 0); [apply ifok_panic|]. pose proof (len_nonneg (nthZ sub 0)) as Hw. fold w in Hw.
  apply ifok_bind.
  apply (ifok_for (fun k _ => forall i, 0 <= i < k -> len (nthZ sub i) = w)).
  { intros i Hi. replace i with 0 by lia. auto. }
  { intros k [] Hk Hp. rewrite zget_ok by lia. simp. destruct (Z.eqb_spec (len (nthZ sub k)) w); cbn [negb]; [|apply ifok_panic].
    apply ifok_ok. intros i Hi. destruct (Z.eq_dec i k); [subst; auto|apply Hp; lia]. }
  intros [] Hrect.
  apply (ifok_grid d n g 0 (len sub) 0 w (fun i => row + i) (fun j => column + j) (fun i j => nthZ (nthZ sub i) j)); auto.
  - intros. lia.
  - intros i j c Hi Hj. unfold mget. rewrite zget_ok by lia. simp. rewrite zget_ok by (rewrite Hrect by lia; lia). simp. intros c' E. exact E.
  - intros d' g' Hd' H1 H2. exists g'. split; auto. intros i Hi.
    destruct ((row <=? i) && (i <? row + len sub) && (column <=? i) && (i <? column + w)) eqn:E.
    + rewrite !andb_true_iff, !Z.leb_le, !Z.ltb_lt in E.
      specialize (H1 (i - row) (i - column) ltac:(lia) ltac:(lia) ltac:(lia)). replace (row + (i - row)) with i in H1 by lia. auto.
    + apply H2. intros a b Ha Hb [E1 E2]. rewrite <- not_true_iff_false, !andb_true_iff, !Z.leb_le, !Z.ltb_lt in E. apply E. lia.
Qed.
Lemma checkRow_if (m : RealMatrix) k : ifok (orpanic (checkRowIndex m k)) (fun _ => 0 <= k < m_rows m).
Proof.
  destruct (inb_cases k (m_rows m)) as [H|H]; [intros ? _; auto|]. rewrite checkRowIndex_err by auto. intros a. discriminate.
Qed.
Lemma checkColumn_if (m : RealMatrix) k c : m_cols m = Ok c -> ifok (orpanic (checkColumnIndex m k)) (fun _ => 0 <= k < c).
Proof.
  intros Hc. destruct (inb_cases k c) as [H|H]; [intros ? _; auto|]. rewrite (checkColumnIndex_err _ c) by auto. intros a. discriminate.
Qed.
Lemma d_cols d n g : DIs d n g -> m_cols (MDiag d) = Ok n.
Proof. intros H. cbn. rewrite (proj1 H). auto. Qed.
Lemma d_rows d n g : DIs d n g -> m_rows (MDiag d) = n.
Proof. intros H. cbn. apply (proj1 H). Qed.

(** Every operation, when it returns. *)
Lemma o_exec_after d n g o : DIs d n g -> wf_op o -> ifok (o_exec (MDiag d) o) (after n g o).
Proof.
  intros Hd Hwf. pose proof (DIs_nonneg _ _ _ Hd) as Hn.
  destruct o as [o|k v|k v|k v|k m|k m|sub row column| | |r0 r1 c0 c1|x|x|m|m|k|k]; cbn [o_exec].
  - (* entry *)
    pose proof (e_exec_diag d n g o Hd) as G. destruct (de_step n g o) as [g'|] eqn:Es; [|apply ifok_panics; auto].
    apply ifok_wp. eapply wp_conseq; [exact G|]. cbn beta. intros m (d' & -> & H'). apply (after_ok _ _ _ _ _ _ H').
    intros r c f E. cbn [o_table] in E. unfold de_step in Es. rewrite diagonal_dg in Es. destruct (e_val (dg g) o) as [[i j] y].
    destruct (inb i n && inb j n) eqn:Eb; [|discriminate]. injection E as <- <- <-. split; auto. intros _ q Hq. unfold tset.
    destruct (Z.eqb_spec i j) as [->|Hne].
    + destruct (inb j n); [|discriminate]. injection Es as <-. destruct (Z.eqb_spec q j); cbn [andb]; auto. rewrite dg_same. auto.
    + assert (g' = g) as -> by (destruct o; [destruct (fulp1 fzero x)|destruct (fulp1 fzero x)|]; congruence).
      destruct (Z.eqb_spec q i), (Z.eqb_spec q j); cbn [andb]; try (rewrite dg_same; auto). lia.
  - (* SetColumn *)
    cbn [m_SetColumn]. unfold liftD. apply ifok_bind. unfold d_SetColumn. apply ifok_bind.
    eapply ifok_conseq; [apply (checkColumn_if _ _ n); eapply d_cols; eauto|]. cbn beta. intros _ Hk. rewrite (proj1 Hd).
    destruct (Z.eqb_spec (len v) n) as [El|]; cbn [negb]; [|apply ifok_panic].
    apply (ifok_line d n g false k (nthZ v)); auto.
    + intros i d' Hi. rewrite zget_ok by lia. reflexivity.
    + intros d' H'. apply ifok_ok. apply (after_ok _ _ _ _ _ _ H'). cbn [o_table]. intros r c f.
      destruct (_ && _); [|discriminate]. intros [= <- <- <-]. split; auto. intros _ i Hi. unfold colset. rewrite dg_same.
      destruct (Z.eqb_spec i k); subst; auto.
  - (* SetRowVector *)
    cbn [m_SetRowVector]. unfold liftD. apply ifok_bind. unfold d_SetRowVector. apply ifok_bind.
    eapply ifok_conseq; [apply checkRow_if|]. cbn beta. rewrite (d_rows _ _ _ Hd). intros _ Hk. rewrite (proj1 Hd). unfold v_Dimension. cbn [v_data].
    destruct (Z.eqb_spec (len v) n) as [El|]; cbn [negb]; [|apply ifok_panic].
    apply (ifok_line d n g true k (nthZ v)); auto.
    + intros i d' Hi. unfold v_At. cbn [v_data]. rewrite arv_At_ok by lia. reflexivity.
    + intros d' H'. apply ifok_ok. apply (after_ok _ _ _ _ _ _ H'). cbn [o_table]. intros r c f.
      destruct (_ && _); [|discriminate]. intros [= <- <- <-]. split; auto. intros _ i Hi. unfold rowset. rewrite dg_same.
      destruct (Z.eqb_spec i k); subst; auto.
  - (* SetColumnVector *)
    cbn [m_SetColumnVector]. unfold liftD. apply ifok_bind. unfold d_SetColumnVector. apply ifok_bind.
    eapply ifok_conseq; [apply (checkColumn_if _ _ n); eapply d_cols; eauto|]. cbn beta. intros _ Hk. rewrite (proj1 Hd). unfold v_Dimension. cbn [v_data].
    destruct (Z.eqb_spec (len v) n) as [El|]; cbn [negb]; [|apply ifok_panic].
    apply (ifok_line d n g false k (nthZ v)); auto.
    + intros i d' Hi. unfold v_At. cbn [v_data]. rewrite arv_At_ok by lia. reflexivity.
    + intros d' H'. apply ifok_ok. apply (after_ok _ _ _ _ _ _ H'). cbn [o_table]. intros r c f.
      destruct (_ && _); [|discriminate]. intros [= <- <- <-]. split; auto. intros _ i Hi. unfold colset. rewrite dg_same.
      destruct (Z.eqb_spec i k); subst; auto.
  - (* SetRowMatrix *)
    destruct Hwf as (mr & mc & h & Hm). destruct (MatIs_dims _ _ _ _ Hm) as [E1 E2].
    cbn [m_SetRowMatrix]. unfold liftD. apply ifok_bind. unfold d_SetRowMatrix. apply ifok_bind.
    eapply ifok_conseq; [apply checkRow_if|]. cbn beta. rewrite (d_rows _ _ _ Hd). intros _ Hk. rewrite (proj1 Hd).
    rewrite (MatIs_rows _ _ _ _ Hm), (MatIs_cols _ _ _ _ Hm). simp.
    destruct (Z.eqb_spec mr 1) as [->|]; cbn [negb orb]; [|apply ifok_panic].
    destruct (Z.eqb_spec mc n) as [->|]; cbn [negb]; [|apply ifok_panic].
    apply (ifok_line d n g true k (ent m 0)); auto.
    + intros i d' Hi. rewrite (MatIs_ent _ _ _ _ _ _ Hm) by lia. reflexivity.
    + intros d' H'. apply ifok_ok. apply (after_ok _ _ _ _ _ _ H'). cbn [o_table]. intros r c f.
      destruct (_ && _); [|discriminate]. intros [= <- <- <-]. split; auto. intros _ i Hi. unfold rowset. rewrite dg_same.
      destruct (Z.eqb_spec i k); subst; auto.
  - (* SetColumnMatrix *)
    destruct Hwf as (mr & mc & h & Hm). destruct (MatIs_dims _ _ _ _ Hm) as [E1 E2].
    cbn [m_SetColumnMatrix]. unfold liftD. apply ifok_bind. unfold d_SetColumnMatrix. apply ifok_bind.
    eapply ifok_conseq; [apply (checkColumn_if _ _ n); eapply d_cols; eauto|]. cbn beta. intros _ Hk. rewrite (proj1 Hd).
    rewrite (MatIs_rows _ _ _ _ Hm), (MatIs_cols _ _ _ _ Hm). simp.
    destruct (Z.eqb_spec mr n) as [->|]; cbn [negb orb]; [|apply ifok_panic].
    destruct (Z.eqb_spec mc 1) as [->|]; cbn [negb]; [|apply ifok_panic].
    apply (ifok_line d n g false k (fun i => ent m i 0)); auto.
    + intros i d' Hi. rewrite (MatIs_ent _ _ _ _ _ _ Hm) by lia. reflexivity.
    + intros d' H'. apply ifok_ok. apply (after_ok _ _ _ _ _ _ H'). cbn [o_table]. intros r c f.
      destruct (_ && _); [|discriminate]. intros [= <- <- <-]. split; auto. intros _ i Hi. unfold colset. rewrite dg_same.
      destruct (Z.eqb_spec i k); subst; auto.
  - (* SetSub *)
    cbn [m_SetSubMatrix]. unfold liftD. apply ifok_bind. eapply ifok_conseq; [apply (d_SetSub_if d n g); auto|].
    cbn beta. intros d' (g' & H' & Hg). apply ifok_ok. apply (after_ok _ _ _ _ _ _ H'). cbn [o_table]. intros r c f.
    destruct (_ && _); [|discriminate]. intros [= <- <- <-]. split; auto. intros _ i Hi. rewrite Hg by auto. rewrite dg_same. auto.
  - cbn [m_Transpose]. unfold liftD. apply ifok_bind. eapply ifok_conseq; [apply (d_Transpose_if d n g); auto|]. cbn beta. intros d' H'.
    apply ifok_ok. apply (after_ok _ _ _ _ _ _ H'). cbn [o_table]. intros r c f [= <- <- <-]. split; auto. intros _ i Hi. rewrite dg_same. auto.
  - cbn [m_Copy]. unfold liftD. apply ifok_bind. eapply ifok_conseq; [apply ifok_wp; apply (d_Copy_spec d n g); auto|]. cbn beta. intros d' H'.
    apply ifok_ok. apply (after_ok _ _ _ _ _ _ H'). cbn [o_table]. intros r c f [= <- <- <-]. split; auto. intros _ i Hi. rewrite dg_same. auto.
  - cbn [m_SubMatrix]. unfold liftD. apply ifok_bind. eapply ifok_conseq; [apply (d_SubMatrix_if d n g); auto|]. cbn beta. intros d' (E1 & E2 & H').
    apply ifok_ok. apply (after_ok _ _ _ _ _ _ H'). cbn [o_table]. intros r c f. destruct (_ && _); [|discriminate].
    intros [= <- <- <-]. split; auto.
  - cbn [m_ScalarAdd]. unfold liftD. apply ifok_bind. unfold d_ScalarAdd. rewrite Z.eqb_refl. cbn [negb].
    eapply ifok_conseq; [apply (d_scal_if fadd d n g); auto|]. cbn beta. intros d' H'.
    apply ifok_ok. apply (after_ok _ _ _ _ _ _ H'). cbn [o_table]. intros r c f [= <- <- <-]. split; auto. intros _ i Hi. rewrite dg_same. auto.
  - cbn [m_ScalarMultiply]. unfold liftD. apply ifok_bind. unfold d_ScalarMultiply. rewrite Z.eqb_refl. cbn [negb].
    eapply ifok_conseq; [apply (d_scal_if fmul d n g); auto|]. cbn beta. intros d' H'.
    apply ifok_ok. apply (after_ok _ _ _ _ _ _ H'). cbn [o_table]. intros r c f [= <- <- <-]. split; auto. intros _ i Hi. rewrite dg_same. auto.
  - destruct Hwf as (mr & mc & h & Hm). cbn [m_Add]. unfold liftD. apply ifok_bind.
    eapply ifok_conseq; [apply (d_Add_if d m n g mr mc h); auto|]. cbn beta. intros d' (-> & -> & H').
    apply ifok_ok. apply (after_ok _ _ _ _ _ _ H'). cbn [o_table]. intros r c f. destruct (_ && _); [|discriminate]. intros [= <- <- <-]. split; auto. intros _ i Hi. rewrite dg_same. auto.
  - destruct Hwf as (mr & mc & h & Hm). cbn [m_Subtract]. unfold liftD. apply ifok_bind.
    eapply ifok_conseq; [apply (d_Subtract_if d m n g mr mc h); auto|]. cbn beta. intros d' (-> & -> & H').
    apply ifok_ok. apply (after_ok _ _ _ _ _ _ H'). cbn [o_table]. intros r c f. destruct (_ && _); [|discriminate]. intros [= <- <- <-]. split; auto. intros _ i Hi. rewrite dg_same. auto.
  - (* RowMatrixAt *)
    cbn [m_RowMatrixAt]. unfold liftD. apply ifok_bind. unfold d_RowMatrixAt. apply ifok_bind.
    eapply ifok_conseq; [apply checkRow_if|]. cbn beta. rewrite (d_rows _ _ _ Hd). intros _ Hk. rewrite (proj1 Hd).
    destruct (Z.eqb_spec 1 n) as [<-|]; cbn [negb]; [|apply ifok_panic].
    apply ifok_bind. eapply ifok_conseq; [apply NewDiag_if|]. cbn beta. intros d0 [_ H0].
    apply (ifok_line d0 1 (fun _ => fzero) true 0 (fun i => dg g k i)); auto; try lia.
    + intros i d' Hi. rewrite (d_At_ok d 1 g) by (auto; lia). reflexivity.
    + intros d' H'. apply ifok_ok. apply (after_ok _ _ _ _ _ _ H'). cbn [o_table]. intros r c f. destruct (inb k 1); [|discriminate].
      intros [= <- <- <-]. split; auto. intros _ i Hi. replace i with 0 by lia. reflexivity.
  - (* ColumnMatrixAt *)
    cbn [m_ColumnMatrixAt]. unfold liftD. apply ifok_bind. unfold d_ColumnMatrixAt. apply ifok_bind.
    eapply ifok_conseq; [apply (checkColumn_if _ _ n); eapply d_cols; eauto|]. cbn beta. intros _ Hk. rewrite (proj1 Hd).
    destruct (Z.eqb_spec 1 n) as [<-|]; cbn [negb]; [|apply ifok_panic].
    apply ifok_bind. eapply ifok_conseq; [apply NewDiag_if|]. cbn beta. intros d0 [_ H0].
    apply (ifok_line d0 1 (fun _ => fzero) false 0 (fun i => dg g i k)); auto; try lia.
    + intros i d' Hi. rewrite (d_At_ok d 1 g) by (auto; lia). reflexivity.
    + intros d' H'. apply ifok_ok. apply (after_ok _ _ _ _ _ _ H'). cbn [o_table]. intros r c f. destruct (inb k 1); [|discriminate].
      intros [= <- <- <-]. split; auto. intros _ i Hi. replace i with 0 by lia. reflexivity.
Qed.
Lemma o_run_after os : forall d n g m', DIs d n g -> Forall wf_op os -> o_run (MDiag d) os = Ok m' ->
  exists d' n' g', m' = MDiag d' /\ DIs d' n' g' /\
   forall k h, d_tables n g os = Some (k, h) -> k = n' /\ forall i, 0 <= i < k -> g' i = h i.
Proof.
  assert (Gen : forall os d n g g0 m', DIs d n g -> (forall i, 0 <= i < n -> g i = g0 i) -> Forall wf_op os -> o_run (MDiag d) os = Ok m' ->
  exists d' n' g', m' = MDiag d' /\ DIs d' n' g' /\
   forall k h, d_tables n g0 os = Some (k, h) -> k = n' /\ forall i, 0 <= i < k -> g' i = h i).
  2: { intros. eapply Gen; eauto. }
  clear os. induction os as [|o os IH]; intros d n g g0 m' Hd Hg Hwf E; cbn [o_run] in E.
  - injection E as <-. exists d, n, g. split; auto. split; auto. intros k h [= <- <-]. auto.
  - apply Forall_cons_iff in Hwf. destruct Hwf as [Hw1 Hw2].
    destruct (o_exec (MDiag d) o) as [m1| |] eqn:E1; try discriminate. cbn [bind] in E.
    assert (Hd0 : DIs d n g0) by (eapply DIs_ext; eauto).
    apply (o_exec_after d n g0 o Hd0 Hw1) in E1. destruct E1 as (d1 & n1 & g1 & -> & H1 & Ht).
    destruct (o_table (n, n, dg g0) o) as [[[r c] f]|] eqn:Eo.
    + specialize (Ht r c f eq_refl). destruct Ht as [-> Ht].
      destruct (Z.eqb_spec n1 c) as [<-|Nc].
      * destruct (IH d1 n1 g1 (fun i => f i i) m' H1 (Ht eq_refl) Hw2 E) as (d' & n' & g' & ? & ? & Hk).
        exists d', n', g'. split; auto. split; auto. cbn [d_tables]. rewrite diagonal_dg, Eo, Z.eqb_refl. exact Hk.
      * destruct (IH d1 n1 g1 g1 m' H1 ltac:(auto) Hw2 E) as (d' & n' & g' & ? & ? & Hk).
        exists d', n', g'. split; auto. split; auto. cbn [d_tables]. rewrite diagonal_dg, Eo. destruct (Z.eqb_spec n1 c); [contradiction|discriminate].
    + destruct (IH d1 n1 g1 g1 m' H1 ltac:(auto) Hw2 E) as (d' & n' & g' & ? & ? & Hk).
      exists d', n', g'. split; auto. split; auto. cbn [d_tables]. rewrite diagonal_dg, Eo. discriminate.
Qed.
End DiagFacts2.

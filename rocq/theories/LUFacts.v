(** Proofs about the LU decomposition, for arbitrary scalar operations. *)
From Coq Require Import ZArith List Lia Bool.
From Verif Require Import Base BaseLemmas Scalar Vector VecSpec VectorFacts Matrix MatSpec MatFacts Array2D BlockM Diagonal RealMatrixM Array2DFacts MatrixOps BlockFacts RealMat3 TabTac LU LUSpec.
Import ListNotations.
Open Scope Z_scope.

(** Positions reachable from the identity by exchanges; the flag is the parity. *)
Definition swp (k l i : Z) : Z := if i =? k then l else if i =? l then k else i.
Inductive swaps (m : Z) : bool -> (Z -> Z) -> Prop :=
| sw_id p : (forall i, 0 <= i < m -> p i = i) -> swaps m true p
| sw_step e p q k l : swaps m e p -> 0 <= k < m -> 0 <= l < m -> k <> l ->
    (forall i, 0 <= i < m -> q i = p (swp k l i)) -> swaps m (negb e) q.
Lemma swp_range m k l i : 0 <= k < m -> 0 <= l < m -> 0 <= i < m -> 0 <= swp k l i < m.
Proof. unfold swp. zb. Qed.
Lemma swp_inv k l i : swp k l (swp k l i) = i.
Proof. unfold swp. destruct (Z.eqb_spec i k), (Z.eqb_spec i l); subst; repeat (zb; subst; auto; try congruence). Qed.
Lemma swaps_permutes m e p : swaps m e p -> permutes m p.
Proof.
  induction 1 as [p H|e p q k l Hs (IH1 & IH2 & IH3) Hk Hl Hne Hq].
  - split; [|split]; [intros; rewrite H; auto| |]. { intros. rewrite !H in H2 by auto. auto. } intros k Hk. exists k. auto.
  - split; [|split].
    + intros i Hi. rewrite Hq by auto. apply IH1, swp_range; auto.
    + intros i j Hi Hj E. rewrite !Hq in E by auto. apply IH2 in E; try (apply swp_range; auto).
      rewrite <- (swp_inv k l i), <- (swp_inv k l j). congruence.
    + intros c Hc. destruct (IH3 c Hc) as (i & Hi & E). exists (swp k l i). split; [apply swp_range; auto|].
      rewrite Hq, swp_inv by (apply swp_range; auto). auto.
Qed.
Lemma swaps_ext m e p q : swaps m e p -> (forall i, 0 <= i < m -> q i = p i) -> swaps m e q.
Proof.
  intros H E. destruct H as [p H|e p p' k l Hs Hk Hl Hne Hq].
  - apply sw_id. intros. rewrite E; auto.
  - eapply (sw_step m e p q k l); auto. intros i Hi. rewrite E, Hq; auto.
Qed.

Section LUFacts.
Context {O : Ops}.

(** What "largest" needs of the comparison. *)
Definition order_laws : Prop :=
  (forall x, flt x x = false) /\
  (forall x y z, flt x y = true -> flt y z = true -> flt x z = true) /\
  (forall x y, fisnan x = true -> flt x y = false /\ flt y x = false).

Lemma lu_reduce_spec lu m M row col n : RTab lu m m M -> 0 <= row < m -> 0 <= col < m -> 0 <= n <= m ->
  wp (lu_reduce lu row col n) (fun lu' => RTab lu' m m (tset M row col (fsubs (M row col) n (fun t => M row t * M t col)%f))).
Proof.
  intros H Hr Hc Hn. unfold lu_reduce. tget.
  rewrite (for_accum (fun t s => s - M row t * M t col)%f) by (try lia; intros; repeat tget; auto). cbn [bind].
  tput lu' H'. apply wp_ok. exact H'.
Qed.

Lemma lu_upper_spec lu m M col : RTab lu m m M -> 0 <= col < m ->
  wp (lu_upper col lu) (fun lu' => exists M', RTab lu' m m M' /\
    (forall i j, 0 <= i < m -> 0 <= j < m -> j <> col \/ col <= i -> M' i j = M i j) /\
    (forall i, 0 <= i < col -> M' i col = fsubs (M i col) i (fun t => M i t * M' t col)%f)).
Proof.
  intros H Hc. unfold lu_upper.
  apply (wp_for (fun k lu' => exists M', RTab lu' m m M' /\
    (forall i j, 0 <= i < m -> 0 <= j < m -> j <> col \/ k <= i -> M' i j = M i j) /\
    (forall i, 0 <= i < k -> M' i col = fsubs (M i col) i (fun t => M i t * M' t col)%f))); try lia.
  - exists M. split; [auto|]. split; [auto|]. intros; lia.
  - intros k lu1 Hk (M1 & H1 & Hs & Hu). eapply wp_conseq; [apply (lu_reduce_spec lu1 m M1 k col k); auto; lia|]. cbn beta.
    intros lu2 H2. eexists. split; [exact H2|]. split.
    + intros i j Hi Hj Hij. unfold tset. zb; apply Hs; lia.
    + intros i Hi. unfold tset at 1. zb.
      * subst i. rewrite Hs by lia. apply fsubs_ext. intros t Ht. rewrite (Hs k t) by lia. unfold tset. zb; auto.
      * rewrite Hu by lia. apply fsubs_ext. intros t Ht. unfold tset. zb; auto.
  - intros lu' (M' & H' & Hs & Hu). exists M'. auto.
Qed.

Lemma lu_lower_spec lu m M col : RTab lu m m M -> 0 <= col < m ->
  wp (lu_lower m col lu) (fun r => let '(lu', max, _) := r in exists M', RTab lu' m m M' /\
    (forall i j, 0 <= i < m -> 0 <= j < m -> j <> col \/ i < col -> M' i j = M i j) /\
    (forall i, col <= i < m -> M' i col = fsubs (M i col) col (fun t => M i t * M t col)%f) /\
    col <= max < m /\
    (order_laws -> forall i, col <= i < m -> flt (fabs (M' max col)) (fabs (M' i col)) = false)).
Proof.
  intros H Hc. unfold lu_lower.
  apply (wp_for (fun k r => let '(lu', max, largest) := r in exists M', RTab lu' m m M' /\
    (forall i j, 0 <= i < m -> 0 <= j < m -> j <> col \/ i < col \/ k <= i -> M' i j = M i j) /\
    (forall i, col <= i < k -> M' i col = fsubs (M i col) col (fun t => M i t * M t col)%f) /\
    col <= max /\ (max < k \/ (max = col /\ largest = None)) /\
    match largest with
    | Some l => l = fabs (M' max col) /\ (order_laws -> forall i, col <= i < k -> flt l (fabs (M' i col)) = false)
    | None => max = col /\ forall i, col <= i < k -> fisnan (fabs (M' i col)) = true
    end)); try lia.
  - exists M. split; [auto|]. split; [auto|]. split; [intros; lia|]. split; [lia|]. split; [auto|]. split; auto. intros; lia.
  - intros k [[lu1 max] largest] Hk (M1 & H1 & Hs & Hl & Hm & Hm2 & Hg). apply wp_bind.
    eapply wp_conseq; [apply (lu_reduce_spec lu1 m M1 k col col); auto; lia|]. cbn beta. intros lu2 H2.
    set (v := fsubs (M1 k col) col (fun t => (M1 k t * M1 t col)%f)) in *.
    assert (Ev : v = fsubs (M k col) col (fun t => M k t * M t col)%f).
    { unfold v. rewrite (Hs k col) by lia. apply fsubs_ext. intros t Ht. rewrite (Hs k t), (Hs t col) by lia. auto. }
    assert (Hs2 : forall i j, 0 <= i < m -> 0 <= j < m -> j <> col \/ i < col \/ k + 1 <= i -> tset M1 k col v i j = M i j).
    { intros i j Hi Hj Hij. unfold tset. zb; apply Hs; lia. }
    assert (Hl2 : forall i, col <= i < k + 1 -> tset M1 k col v i col = fsubs (M i col) col (fun t => M i t * M t col)%f).
    { intros i Hi. unfold tset. zb; [subst i; auto|apply Hl; lia]. }
    assert (Hold : forall i, col <= i < k -> tset M1 k col v i col = M1 i col) by (intros; unfold tset; zb; auto).
    assert (Hnew : tset M1 k col v k col = v) by (unfold tset; zb; auto).
    tget. rewrite Hnew.
    destruct (match largest with None => negb (fisnan (fabs v)) | Some l => fgt (fabs v) l end) eqn:Ec; apply wp_ok; cbv beta iota;
      exists (tset M1 k col v); (split; [exact H2|]); (split; [exact Hs2|]); (split; [exact Hl2|]).
    + split; [lia|]. split; [lia|]. split; [rewrite Hnew; auto|]. intros (Irr & Tr & Nan) i Hi. destruct (Z.eq_dec i k) as [->|].
      * rewrite Hnew. auto.
      * rewrite Hold by lia. destruct largest as [l|].
        -- destruct Hg as [-> Hg]. destruct (flt (fabs v) (fabs (M1 i col))) eqn:E; auto.
           rewrite <- (Hg (conj Irr (conj Tr Nan)) i) by lia. symmetry. eapply Tr; [exact Ec|exact E].
        -- destruct Hg as [_ Hg]. exact (proj2 (Nan _ (fabs v) (Hg i ltac:(lia)))).
    + split; [lia|]. split. { destruct Hm2 as [?|[? ?]]; [left; lia|auto]. } destruct largest as [l|].
      * destruct Hm2 as [Hm2|[_ ?]]; [|discriminate]. destruct Hg as [-> Hg]. split; [rewrite Hold by lia; auto|]. intros OL i Hi.
        destruct (Z.eq_dec i k) as [->|]; [rewrite Hnew; exact Ec|]. rewrite Hold by lia. apply Hg; auto. lia.
      * destruct Hg as [-> Hg]. split; auto. intros i Hi. destruct (Z.eq_dec i k) as [->|].
        -- rewrite Hnew. destruct (fisnan (fabs v)); auto; discriminate.
        -- rewrite Hold by lia. apply Hg. lia.
  - intros [[lu' max] largest] (M' & H' & Hs & Hl & Hm & Hm2 & Hg). exists M'. split; [auto|]. split; [intros; apply Hs; lia|].
    split; [auto|]. split; [lia|]. intros OL i Hi. destruct largest as [l|].
    + destruct Hg as [-> Hg]. auto.
    + destruct Hg as [-> Hg]. destruct OL as (_ & _ & Nan). exact (proj1 (Nan _ _ (Hg col ltac:(lia)))).
Qed.

Lemma lu_swap_spec lu pivot m M max col : RTab lu m m M -> len pivot = m -> 0 <= col < m -> 0 <= max < m -> max <> col ->
  wp (lu_swap m max col lu pivot) (fun r => let '(lu', pivot') := r in
    RTab lu' m m (fun i j => M (swp max col i) j) /\ len pivot' = m /\
    forall i, 0 <= i < m -> nthZ pivot' i = nthZ pivot (swp max col i)).
Proof.
  intros H Hl Hc Hm Hne. unfold lu_swap. apply wp_bind.
  apply (wp_for (fun k lu' => RTab lu' m m (fun i j => if j <? k then M (swp max col i) j else M i j))); try lia.
  - eapply RTab_ext; [exact H|]. intros. cbn beta. zb; auto.
  - intros k lu1 Hk H1. repeat tget. tput lu2 H2. tput lu3 H3. apply wp_ok. eapply RTab_ext; [exact H3|].
    intros i j Hi Hj. cbn beta. unfold tset, swp. zb; subst; auto; congruence.
  - intros lu1 H1. rewrite !zget_ok by lia. cbn [bind]. rewrite zset_ok by lia. cbn [bind]. rewrite zset_ok by (rewrite len_upd; lia). cbn [bind].
    apply wp_ok. cbv beta iota. split; [|split].
    + eapply RTab_ext; [exact H1|]. intros. cbn beta. zb. auto.
    + rewrite !len_upd; auto.
    + intros i Hi. rewrite nthZ_upd by (rewrite ?len_upd; lia). rewrite nthZ_upd by lia. unfold swp. zb; subst; auto; congruence.
Qed.
Lemma lu_divide_spec lu m M col : RTab lu m m M -> 0 <= col < m ->
  wp (lu_divide m col lu) (fun lu' => RTab lu' m m (fun i j => if (j =? col) && (col <? i) then (M i j / M col col)%f else M i j)).
Proof.
  intros H Hc. unfold lu_divide. tget.
  apply (wp_for (fun k lu' => RTab lu' m m (fun i j => if (j =? col) && (col <? i) && (i <? k) then (M i j / M col col)%f else M i j))); try lia.
  - eapply RTab_ext; [exact H|]. intros. cbn beta. zb; auto.
  - intros k lu1 Hk H1. tget. tput lu2 H2. apply wp_ok. eapply RTab_ext; [exact H2|].
    intros i j Hi Hj. cbn beta. unfold tset. zb; subst; auto; congruence.
  - intros lu1 H1. eapply RTab_ext; [exact H1|]. intros i j Hi Hj. cbn beta. zb; auto.
Qed.

(** The state after [col] columns: Crout-Doolittle recurrences with the rows of
    [A] taken in the order [p]. *)
Definition lu_inv (m : Z) (A : Z -> Z -> F) (thr : F) (col : Z) (M : Z -> Z -> F) (p : Z -> Z) : Prop :=
  (forall i j, 0 <= i <= j -> j < col -> M i j = fsubs (A (p i) j) i (fun t => M i t * M t j)%f) /\
  (forall i j, 0 <= j < i -> i < m -> j < col -> exists c, c = fsubs (A (p i) j) j (fun t => M i t * M t j)%f /\
     M i j = (c / M j j)%f /\ (order_laws -> flt (fabs (M j j)) (fabs c) = false)) /\
  (forall j, 0 <= j < col -> flt (fabs (M j j)) thr = false) /\
  (forall i j, 0 <= i < m -> col <= j < m -> M i j = A (p i) j).

Lemma lu_column_spec lu pivot even m A thr col M : RTab lu m m M -> len pivot = m -> 0 <= col < m -> swaps m even (nthZ pivot) ->
  lu_inv m A thr col M (nthZ pivot) ->
  wp (lu_column m thr col (lu, pivot, even)) (fun r => let '(brk, (lu', pivot', even')) := r in
    len pivot' = m /\ swaps m even' (nthZ pivot') /\
    if brk : bool then pivot' = pivot /\ exists M' max, RTab lu' m m M' /\ col <= max < m /\
      (forall i j, 0 <= i < m -> 0 <= j < col -> M' i j = M i j) /\
      (forall i, 0 <= i < col -> M' i col = fsubs (A (nthZ pivot i) col) i (fun t => M i t * M' t col)%f) /\
      (forall i, col <= i < m -> M' i col = fsubs (A (nthZ pivot i) col) col (fun t => M i t * M' t col)%f) /\
      (order_laws -> forall i, col <= i < m -> flt (fabs (M' max col)) (fabs (M' i col)) = false) /\
      flt (fabs (M' max col)) thr = true
    else exists M', RTab lu' m m M' /\ lu_inv m A thr (col + 1) M' (nthZ pivot')).
Proof.
  intros H Hl Hc Hsw (I1 & I2 & I3 & I4). unfold lu_column.
  apply wp_bind. eapply wp_conseq; [apply (lu_upper_spec lu m M col H Hc)|]. cbn beta. intros lu1 (M1 & H1 & S1 & U1).
  apply wp_bind. eapply wp_conseq; [apply (lu_lower_spec lu1 m M1 col H1 Hc)|]. cbn beta. intros [[lu2 max] lg] (M2 & H2 & S2 & L2 & Hmax & Mx).
  tget.
  assert (Old : forall i j, 0 <= i < m -> 0 <= j < m -> j <> col -> M2 i j = M i j) by (intros; rewrite S2, S1 by lia; auto).
  assert (Up : forall i, 0 <= i < col -> M2 i col = fsubs (A (nthZ pivot i) col) i (fun t => M i t * M2 t col)%f).
  { intros i Hi. rewrite S2, U1 by lia. rewrite I4 by lia. apply fsubs_ext. intros t Ht. rewrite (S2 t col) by lia. auto. }
  assert (Lo : forall i, col <= i < m -> M2 i col = fsubs (A (nthZ pivot i) col) col (fun t => M i t * M2 t col)%f).
  { intros i Hi. rewrite L2 by lia. rewrite S1, I4 by lia. apply fsubs_ext. intros t Ht. rewrite (S1 i t), (S2 t col) by lia. auto. }
  destruct (flt (fabs (M2 max col)) thr) eqn:Et.
  { apply wp_ok. cbv beta iota. split; [auto|]. split; [auto|]. split; [auto|]. exists M2, max.
    split; [auto|]. split; [auto|]. split; [intros; apply Old; lia|]. split; [auto|]. split; [auto|]. split; auto. }
  (* after the exchange *)
  apply wp_bind. apply (wp_conseq _ (fun r => let '(lu', pivot', even') := r in RTab lu' m m (fun i j => M2 (swp max col i) j) /\
    len pivot' = m /\ (forall i, 0 <= i < m -> nthZ pivot' i = nthZ pivot (swp max col i)) /\ swaps m even' (nthZ pivot'))).
  { destruct (Z.eqb_spec max col) as [->|Hne]; cbn [negb].
    - apply wp_ok. cbv beta iota. assert (Id : forall i, swp col col i = i) by (intros; unfold swp; zb). split; [|split; [auto|split; [|auto]]].
      + eapply RTab_ext; [exact H2|]. intros. cbn beta. rewrite Id. auto.
      + intros. rewrite Id. auto.
    - apply wp_bind. eapply wp_conseq; [apply (lu_swap_spec lu2 pivot m M2 max col); auto; lia|]. cbn beta. intros [lu3 p3] (H3 & Hl3 & Hp3).
      apply wp_ok. cbv beta iota. split; [auto|]. split; [auto|]. split; [auto|]. eapply sw_step; [exact Hsw| | | |exact Hp3]; lia. }
  intros [[lu3 p3] e3] (H3 & Hl3 & Hp3 & Hsw3). apply wp_bind.
  eapply wp_conseq; [apply (lu_divide_spec lu3 m _ col H3 Hc)|]. cbn beta. intros lu4 H4. apply wp_ok. cbv beta iota. split; [auto|]. split; [auto|].
  set (M4 := fun i j => _) in H4. exists M4. split; [exact H4|].
  assert (Lt : forall i, i < col -> swp max col i = i) by (intros; unfold swp; zb).
  assert (Ge : forall i, col <= i < m -> col <= swp max col i < m) by (intros; unfold swp; zb).
  assert (Ec : swp max col col = max) by (unfold swp; zb).
  assert (D1 : forall i j, i <= col \/ j <> col -> M4 i j = M2 (swp max col i) j) by (intros; unfold M4; zb; auto).
  assert (D2 : forall i, col < i -> M4 i col = (M2 (swp max col i) col / M2 max col)%f) by (intros; unfold M4; rewrite Ec; zb; auto).
  assert (D3 : forall i j, 0 <= i < m -> 0 <= j < m -> j <> col -> M4 i j = M (swp max col i) j).
  { intros. rewrite D1 by auto. apply Old; auto. apply swp_range; lia. }
  clearbody M4.
  split; [|split; [|split]].
  - intros i j Hi Hj. rewrite Hp3 by lia. destruct (Z.eq_dec j col) as [->|].
    + rewrite D1 by lia. destruct (Z.eq_dec i col) as [->|].
      * rewrite Ec, Lo by lia. apply fsubs_ext. intros t Ht. rewrite (D3 col t), (D1 t col), Ec, Lt by lia. auto.
      * rewrite Lt by lia. rewrite Up by lia. apply fsubs_ext. intros t Ht. rewrite (D3 i t), (D1 t col), !Lt by lia. auto.
    + rewrite D3, Lt, I1 by lia. apply fsubs_ext. intros t Ht. rewrite !D3, !Lt by lia. auto.
  - intros i j Hj Hi Hjc. rewrite Hp3 by lia. destruct (Z.eq_dec j col) as [->|].
    + rewrite D2, (D1 col col), Ec by lia. pose proof (Ge i ltac:(lia)). exists (M2 (swp max col i) col). split; [|split; [auto|]].
      * rewrite Lo by lia. apply fsubs_ext. intros t Ht. rewrite (D3 i t), (D1 t col), (Lt t) by lia. auto.
      * intros OL. apply Mx; auto.
    + rewrite !D3 by lia. rewrite (Lt j) by lia. assert (0 <= swp max col i < m) by (apply swp_range; lia).
      assert (j < swp max col i) by (destruct (Z.lt_ge_cases i col); [rewrite Lt by lia; lia|pose proof (Ge i ltac:(lia)); lia]).
      destruct (I2 (swp max col i) j) as (c & Hcc & Hv & Hmx); try lia. exists c. split; [|split; auto].
      rewrite Hcc. apply fsubs_ext. intros t Ht. rewrite !D3, (Lt t) by lia. auto.
  - intros j Hj. rewrite D1 by lia. destruct (Z.eq_dec j col) as [->|].
    + rewrite Ec. auto.
    + rewrite Lt, Old by lia. apply I3. lia.
  - intros i j Hi Hj. rewrite D3, Hp3 by lia. apply I4; [apply swp_range; lia|lia].
Qed.

(** The constructor. *)
Definition lu_done (m : Z) (A : Z -> Z -> F) (thr : F) (d : LUD) (M : Z -> Z -> F) : Prop :=
  RTab (lu_lu d) m m M /\ len (lu_pivot d) = m /\ swaps m (lu_even d) (nthZ (lu_pivot d)) /\
  (lu_singular d = false -> lu_inv m A thr m M (nthZ (lu_pivot d))) /\
  (lu_singular d = true -> exists col M0 max, 0 <= col < m /\ lu_inv m A thr col M0 (nthZ (lu_pivot d)) /\ col <= max < m /\
      (forall i j, 0 <= i < m -> 0 <= j < col -> M i j = M0 i j) /\
      (forall i, 0 <= i < col -> M i col = fsubs (A (nthZ (lu_pivot d) i) col) i (fun t => M0 i t * M t col)%f) /\
      (forall i, col <= i < m -> M i col = fsubs (A (nthZ (lu_pivot d) i) col) col (fun t => M0 i t * M t col)%f) /\
      (order_laws -> forall i, col <= i < m -> flt (fabs (M max col)) (fabs (M i col)) = false) /\
      flt (fabs (M max col)) thr = true).

Lemma lu_new_ok m n A thr : library m -> MatIs m n n A -> 0 <= n ->
  wp (NewLUDecompositionWithThreshold m thr) (fun d => (exists M, lu_done n A thr d M) /\ lu_cachedL d = None /\ lu_cachedU d = None /\ lu_cachedP d = None).
Proof.
  intros Hl Hm Hn. unfold NewLUDecompositionWithThreshold, IsSquare. rewrite (MatIs_cols _ _ _ _ Hm), (MatIs_rows _ _ _ _ Hm). cbn [bind].
  rewrite Z.eqb_refl. cbn [negb]. apply wp_bind. eapply wp_conseq; [apply (m_Data_ok m n n A Hl Hm)|]. cbn beta. intros lu Hlu.
  apply wp_bind. apply wp_make; [lia|]. apply wp_bind.
  apply (wp_fill 0 n _ (fun i => i)); rewrite ?len_repeat; try lia. { intros. auto. } intros pv Hpv Hv.
  assert (Hid : forall i, 0 <= i < n -> nthZ pv i = i) by (intros i Hi; rewrite Hv by auto; zb; auto). clear Hv.
  apply wp_bind.
  apply (wp_for_brk (fun col s => let '(lu', pivot', even') := s in len pivot' = n /\ swaps n even' (nthZ pivot') /\ exists M, RTab lu' n n M /\ lu_inv n A thr col M (nthZ pivot'))
    (fun s => let '(lu', pivot', even') := s in exists M, lu_done n A thr (mkLUD lu' pivot' even' true None None None) M)); try lia.
  - split; [lia|]. split; [apply sw_id; auto|]. exists A. split; [auto|]. split; [intros; lia|]. split; [intros; lia|]. split; [intros; lia|].
    intros i j Hi Hj. rewrite Hid by auto. auto.
  - intros col [[lu1 p1] e1] Hc (Hl1 & Hs1 & M1 & H1 & Inv). eapply wp_conseq; [apply (lu_column_spec lu1 p1 e1 n A thr col M1); auto|]. cbn beta.
    intros [brk [[lu2 p2] e2]] (Hl2 & Hs2 & Hb). destruct brk; cbn [fst snd].
    + destruct Hb as (-> & M' & max & H' & Hx & Ho & Hu & Hlo & Hmx & Ht). exists M'. split; [exact H'|]. cbn. split; [auto|]. split; [auto|].
      split; [discriminate|]. intros _. exists col, M1, max. split; [auto|]. split; [auto|]. split; [auto|]. split; [auto|]. auto.
    + split; [auto|]. split; [auto|]. exact Hb.
  - intros [[lu2 p2] e2] (Hl2 & Hs2 & M2 & H2 & Inv). apply wp_ok. split; [|cbn; auto]. exists M2. split; [exact H2|]. cbn.
    split; [auto|]. split; [auto|]. split; [auto|]. discriminate.
  - intros [[lu2 p2] e2] (M2 & Hd). apply wp_ok. split; [|cbn; auto]. exists M2. exact Hd.
Qed.
Lemma lu_new_bad m r c A thr : library m -> MatIs m r c A -> r <> c -> NewLUDecompositionWithThreshold m thr = Err ENonSquare.
Proof.
  intros Hl Hm Hn. unfold NewLUDecompositionWithThreshold, IsSquare. rewrite (MatIs_cols _ _ _ _ Hm), (MatIs_rows _ _ _ _ Hm). cbn [bind].
  destruct (Z.eqb_spec c r); [congruence|]. destruct (Z.eqb_spec r c); [congruence|]. reflexivity.
Qed.
End LUFacts.

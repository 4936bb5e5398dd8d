(** Proofs about the walks of the three matrix types. *)
From Coq Require Import ZArith List Lia Bool Permutation.
From Verif Require Import Base BaseLemmas Scalar Vector VecSpec VectorFacts Matrix Array2D BlockM Diagonal RealMatrixM MatSpec MatFacts Array2DFacts BlockLoops BlockFacts DiagFacts.
Import ListNotations.
Open Scope Z_scope.

(** ** Lists of coordinates *)
Fixpoint foldM {A S} (f : A -> S -> res S) (l : list A) (s : S) : res S :=
  match l with [] => Ok s | a :: l => let* s := f a s in foldM f l s end.
Lemma foldM_app {A S} (f : A -> S -> res S) l1 l2 s : foldM f (l1 ++ l2) s = let* s := foldM f l1 s in foldM f l2 s.
Proof. revert s. induction l1 as [|a l1 IH]; intros s; auto. cbn [foldM app]. rewrite bind_assoc. apply bind_ext. auto. Qed.
Lemma foldM_map {A B S} (h : B -> A) (f : A -> S -> res S) l s : foldM f (map h l) s = foldM (fun b => f (h b)) l s.
Proof. revert s. induction l as [|a l IH]; intros s; auto. cbn [foldM map]. apply bind_ext. auto. Qed.
Lemma foldM_flat_map {A B S} (h : B -> list A) (f : A -> S -> res S) l s :
  foldM f (flat_map h l) s = foldM (fun b => foldM f (h b)) l s.
Proof. revert s. induction l as [|a l IH]; intros s; auto. cbn [foldM flat_map]. rewrite foldM_app. apply bind_ext. auto. Qed.
Lemma foldM_ext {A S} (f g : A -> S -> res S) l s : (forall a s, In a l -> f a s = g a s) -> foldM f l s = foldM g l s.
Proof.
  revert s. induction l as [|a l IH]; intros s H; auto. cbn [foldM]. rewrite H by (left; auto). apply bind_ext.
  intros. apply IH. intros. apply H. right; auto.
Qed.

Lemma range_nil lo hi : hi <= lo -> range lo hi = [].
Proof. intros. unfold range. replace (Z.to_nat (hi - lo)) with 0%nat by lia. auto. Qed.
Lemma range_step lo hi : lo < hi -> range lo hi = lo :: range (lo + 1) hi.
Proof. intros. unfold range. replace (Z.to_nat (hi - lo)) with (S (Z.to_nat (hi - (lo + 1)))) by lia. auto. Qed.
Lemma range_app lo mid hi : lo <= mid <= hi -> range lo hi = range lo mid ++ range mid hi.
Proof.
  intros H. remember (Z.to_nat (mid - lo)) as n eqn:E. revert lo H E. induction n as [|n IH]; intros lo H E.
  - replace mid with lo by lia. rewrite (range_nil lo lo) by lia. auto.
  - rewrite (range_step lo hi), (range_step lo mid) by lia. cbn [app]. f_equal. apply IH; lia.
Qed.
Lemma in_range lo hi k : In k (range lo hi) <-> lo <= k < hi.
Proof.
  remember (Z.to_nat (hi - lo)) as n eqn:E. revert lo E. induction n as [|n IH]; intros lo E.
  - rewrite range_nil by lia. cbn. lia.
  - rewrite range_step by lia. cbn [In]. rewrite IH by lia. lia.
Qed.
Lemma NoDup_range lo hi : NoDup (range lo hi).
Proof.
  remember (Z.to_nat (hi - lo)) as n eqn:E. revert lo E. induction n as [|n IH]; intros lo E.
  - rewrite range_nil by lia. constructor.
  - rewrite range_step by lia. constructor; [rewrite in_range; lia|apply IH; lia].
Qed.
Lemma for_foldM {S} lo hi (body : Z -> S -> res S) s : for_ lo hi body s = foldM body (range lo hi) s.
Proof.
  remember (Z.to_nat (hi - lo)) as n eqn:E. revert lo s E. induction n as [|n IH]; intros lo s E.
  - rewrite range_nil, for_nil by lia. auto.
  - rewrite range_step, for_step by lia. cbn [foldM]. apply bind_ext. intros. apply IH. lia.
Qed.
(** A range cut at multiples of 52. *)
Lemma range_blocks lo hi : 0 <= lo -> lo < hi ->
  range lo hi = flat_map (fun I => range (Z.max lo (I * 52)) (Z.min ((I + 1) * 52) hi)) (range (lo / 52) (1 + (hi - 1) / 52)).
Proof.
  intros Hlo Hlt. remember (Z.to_nat ((hi - 1) / 52 - lo / 52)) as n eqn:E. revert lo Hlo Hlt E.
  pose proof (Z.div_mod (hi - 1) 52 ltac:(lia)). pose proof (Z.mod_pos_bound (hi - 1) 52 ltac:(lia)).
  induction n as [|n IH]; intros lo Hlo Hlt E;
  pose proof (Z.div_mod lo 52 ltac:(lia)); pose proof (Z.mod_pos_bound lo 52 ltac:(lia));
  assert (lo / 52 <= (hi - 1) / 52) by (apply Z.div_le_mono; lia).
  - rewrite (range_step (lo / 52)) by lia. rewrite (range_nil (lo / 52 + 1)) by lia. cbn [flat_map]. rewrite app_nil_r.
    f_equal; lia.
  - rewrite (range_step (lo / 52)) by lia. cbn [flat_map].
    rewrite (range_app lo ((lo / 52 + 1) * 52) hi) by lia. f_equal; [f_equal; lia|].
    assert (Ed : (lo / 52 + 1) * 52 / 52 = lo / 52 + 1) by (rewrite Z.div_mul; lia).
    rewrite (IH ((lo / 52 + 1) * 52)) by (rewrite ?Ed; lia). rewrite Ed.
    assert (G : forall l, (forall I, In I l -> lo / 52 + 1 <= I) ->
      flat_map (fun I => range (Z.max ((lo / 52 + 1) * 52) (I * 52)) (Z.min ((I + 1) * 52) hi)) l =
      flat_map (fun I => range (Z.max lo (I * 52)) (Z.min ((I + 1) * 52) hi)) l).
    { induction l as [|a l IHl]; intros Hl; auto. cbn [flat_map]. rewrite IHl by (intros; apply Hl; right; auto).
      f_equal. specialize (Hl a (or_introl eq_refl)). f_equal; lia. }
    apply G. intros I HI. apply in_range in HI. lia.
Qed.
Lemma for_blocks {S} lo hi (f : Z -> S -> res S) s : 0 <= lo -> lo < hi ->
  for_ (lo / 52) (1 + (hi - 1) / 52) (fun I s => for_ (Z.max lo (I * 52)) (Z.min ((I + 1) * 52) hi) f s) s = for_ lo hi f s.
Proof.
  intros. rewrite !for_foldM. rewrite (range_blocks lo hi) by auto. rewrite foldM_flat_map.
  apply foldM_ext. intros. apply for_foldM.
Qed.

Lemma in_row_order r0 r1 c0 c1 i j : In (i, j) (row_order r0 r1 c0 c1) <-> r0 <= i <= r1 /\ c0 <= j <= c1.
Proof.
  unfold row_order. rewrite in_flat_map. split.
  - intros (x & Hx & Hy). apply in_map_iff in Hy. destruct Hy as (y & E & Hy). inversion E; subst. rewrite in_range in *. lia.
  - intros H. exists i. rewrite in_range. split; [lia|]. apply in_map_iff. exists j. rewrite in_range. split; [auto|lia].
Qed.
Lemma in_column_order r0 r1 c0 c1 i j : In (i, j) (column_order r0 r1 c0 c1) <-> r0 <= i <= r1 /\ c0 <= j <= c1.
Proof.
  unfold column_order. rewrite in_flat_map. split.
  - intros (x & Hx & Hy). apply in_map_iff in Hy. destruct Hy as (y & E & Hy). inversion E; subst. rewrite in_range in *. lia.
  - intros H. exists j. rewrite in_range. split; [lia|]. apply in_map_iff. exists i. rewrite in_range. split; [auto|lia].
Qed.
Lemma for_row_order {S} r0 r1 c0 c1 (f : Z -> Z -> S -> res S) s :
  for_ r0 (r1 + 1) (fun i s => for_ c0 (c1 + 1) (fun j s => f i j s) s) s =
  foldM (fun p => f (fst p) (snd p)) (row_order r0 r1 c0 c1) s.
Proof.
  unfold row_order. rewrite foldM_flat_map, for_foldM. apply foldM_ext. intros. rewrite foldM_map, for_foldM. auto.
Qed.
Lemma for_column_order {S} r0 r1 c0 c1 (f : Z -> Z -> S -> res S) s :
  for_ c0 (c1 + 1) (fun j s => for_ r0 (r1 + 1) (fun i s => f i j s) s) s =
  foldM (fun p => f (fst p) (snd p)) (column_order r0 r1 c0 c1) s.
Proof.
  unfold column_order. rewrite foldM_flat_map, for_foldM. apply foldM_ext. intros. rewrite foldM_map, for_foldM. auto.
Qed.

(** The order of the optimized walk of a block matrix: block by block. *)
Definition blk_order r0 r1 c0 c1 : list (Z * Z) :=
  flat_map (fun I => flat_map (fun J => flat_map (fun i => map (fun j => (i, j))
    (range (Z.max c0 (J * 52)) (Z.min ((J + 1) * 52) (c1 + 1))))
    (range (Z.max r0 (I * 52)) (Z.min ((I + 1) * 52) (r1 + 1))))
    (range (c0 / 52) (1 + c1 / 52))) (range (r0 / 52) (1 + r1 / 52)).
Lemma flat_map_perm {A B} (f g : A -> list B) l : (forall a, Permutation (f a) (g a)) ->
  Permutation (flat_map f l) (flat_map g l).
Proof. intros H. induction l as [|a l IH]; auto. cbn [flat_map]. apply Permutation_app; auto. Qed.
Lemma flat_map_app_perm {A B} (f g : A -> list B) l :
  Permutation (flat_map (fun a => f a ++ g a) l) (flat_map f l ++ flat_map g l).
Proof.
  induction l as [|a l IH]; auto. cbn [flat_map]. rewrite IH. rewrite <- !app_assoc. apply Permutation_app_head.
  rewrite !app_assoc. apply Permutation_app_tail. apply Permutation_app_comm.
Qed.
Lemma flat_map_nil {A B} (l : list A) : flat_map (fun _ => @nil B) l = [].
Proof. induction l; auto. Qed.
Lemma flat_map_swap {A B C} (f : A -> B -> list C) la lb :
  Permutation (flat_map (fun a => flat_map (f a) lb) la) (flat_map (fun b => flat_map (fun a => f a b) la) lb).
Proof.
  induction la as [|a la IH]; cbn [flat_map].
  - rewrite flat_map_nil. auto.
  - rewrite IH. symmetry. apply flat_map_app_perm.
Qed.
Lemma map_flat_map {A B C} (h : B -> C) (f : A -> list B) l : map h (flat_map f l) = flat_map (fun a => map h (f a)) l.
Proof. induction l as [|a l IH]; auto. cbn [flat_map]. rewrite map_app, IH. auto. Qed.
Lemma flat_map_flat_map {A B C} (h : B -> list C) (f : A -> list B) l : flat_map h (flat_map f l) = flat_map (fun a => flat_map h (f a)) l.
Proof. induction l as [|a l IH]; auto. cbn [flat_map]. rewrite flat_map_app, IH. auto. Qed.
Lemma flat_map_ext' {A B} (f g : A -> list B) l : (forall a, f a = g a) -> flat_map f l = flat_map g l.
Proof. intros H. apply flat_map_ext. auto. Qed.
Lemma blk_order_perm r0 r1 c0 c1 : 0 <= r0 <= r1 -> 0 <= c0 <= c1 ->
  Permutation (blk_order r0 r1 c0 c1) (row_order r0 r1 c0 c1).
Proof.
  intros Hr Hc. unfold blk_order, row_order.
  rewrite (range_blocks r0 (r1 + 1)), (range_blocks c0 (c1 + 1)) by lia. rewrite flat_map_flat_map.
  replace (r1 + 1 - 1) with r1 by lia. replace (c1 + 1 - 1) with c1 by lia.
  apply flat_map_perm. intros I. rewrite flat_map_swap. apply flat_map_perm. intros i. rewrite map_flat_map. reflexivity.
Qed.

Section Walks.
Context {O : Ops}.

Lemma visits_foldM {St} (v : MatVisitor St) cs f st :
  visits v cs f st = foldM (fun p st => let* (_, st) := mv_visit v (fst p) (snd p) (f (fst p) (snd p)) st in Ok st) cs st.
Proof.
  revert st. induction cs as [|[i j] cs IH]; intros st; auto. cbn [visits foldM fst snd]. rewrite bind_assoc.
  apply bind_ext. intros [y st']. cbn [bind]. auto.
Qed.

(** [cell] visits position (i,j) of a representation [m] of the table [t]. *)
Definition usim {M St} (v : MatVisitor St) (R : M -> (Z -> Z -> F) -> Prop) i j (cell : M * St -> res (M * St)) : Prop :=
  forall m t st, R m t ->
  match mv_visit v i j (t i j) st with
  | Ok (y, st') => exists m', cell (m, st) = Ok (m', st') /\ R m' (tset t i j y)
  | Err e => cell (m, st) = Err e
  | Panic e => cell (m, st) = Panic e
  end.
Lemma foldM_usim {M St} (v : MatVisitor St) (R : M -> (Z -> Z -> F) -> Prop) (cell : Z -> Z -> M * St -> res (M * St)) cs m t st :
  R m t -> (forall i j, In (i, j) cs -> usim v R i j (cell i j)) ->
  match visits_update v cs t st with
  | Ok (g, st') => exists m', foldM (fun p => cell (fst p) (snd p)) cs (m, st) = Ok (m', st') /\ R m' g
  | Err e => foldM (fun p => cell (fst p) (snd p)) cs (m, st) = Err e
  | Panic e => foldM (fun p => cell (fst p) (snd p)) cs (m, st) = Panic e
  end.
Proof.
  revert m t st. induction cs as [|[i j] cs IH]; intros m t st HR Hc.
  - cbn [visits_update foldM]. eauto.
  - cbn [visits_update foldM fst snd]. pose proof (Hc i j (or_introl eq_refl) m t st HR) as H.
    destruct (mv_visit v i j (t i j) st) as [[y st']|e|e]; cbn [bind]; try (rewrite H; reflexivity).
    destruct H as (m' & E & HR'). rewrite E. cbn [bind]. apply IH; auto. intros. apply Hc. right; auto.
Qed.

(** The outcome of an update walk over the cells [cs]. *)
Definition walk_result {M St} (toM : M -> RealMatrix) (walk : res (M * St * F)) (v : MatVisitor St) r c cs f st : Prop :=
  match visits_update v cs f st with
  | Ok (g, st') => exists m', walk = Ok (m', st', mv_end v st') /\ MatIs (toM m') r c g
  | Err e => walk = Err e
  | Panic e => walk = Panic e
  end.

(** *** Array2DRowRealMatrix *)
Lemma a2_ucell_sim {St} (v : MatVisitor St) r c i j : 0 <= i < r -> 0 <= j < c ->
  usim v (fun d t => RTab d r c t) i j (a2_ucell v i j).
Proof.
  intros Hi Hj d t st H. unfold a2_ucell. rewrite (RTab_get _ _ _ _ i j H Hi Hj). cbn [bind].
  destruct (mv_visit v i j (t i j) st) as [[y st']|e|e]; cbn [bind]; auto.
  destruct (RTab_set d r c t i j y H Hi Hj) as (d' & -> & H'). cbn [bind]. eauto.
Qed.
Lemma a2_cell_eq {St} (v : MatVisitor St) d r c t i j st : RTab d r c t -> 0 <= i < r -> 0 <= j < c ->
  a2_cell v d i j st = let* (_, st) := mv_visit v i j (t i j) st in Ok st.
Proof. intros H Hi Hj. unfold a2_cell. rewrite (RTab_get _ _ _ _ i j H Hi Hj). reflexivity. Qed.

Lemma a2_walk_result {St} (v : MatVisitor St) d r c f cs st :
  1 <= r -> 1 <= c -> RTab d r c f -> (forall i j, In (i, j) cs -> 0 <= i < r /\ 0 <= j < c) ->
  walk_result MArr (let* (d, st) := foldM (fun p => a2_ucell v (fst p) (snd p)) cs (d, st) in
     Ok (mkA2D (Some d), st, mv_end v st)) v r c cs f st.
Proof.
  intros Hr Hc HT Hcs. unfold walk_result.
  pose proof (foldM_usim v (fun d t => RTab d r c t) (fun i j => a2_ucell v i j) cs d f st HT) as G.
  assert (G' : forall i j, In (i, j) cs -> usim v (fun d t => RTab d r c t) i j (a2_ucell v i j)).
  { intros i j H. apply Hcs in H. apply a2_ucell_sim; tauto. }
  specialize (G G'). destruct (visits_update v cs f st) as [[g st']|e|e].
  - destruct G as (d' & -> & H'). cbn [bind]. eexists; split; [reflexivity|]. apply MatIs_arr; auto.
  - rewrite G. reflexivity.
  - rewrite G. reflexivity.
Qed.
Lemma a2_read_result {St} (v : MatVisitor St) d r c f cs st :
  RTab d r c f -> (forall i j, In (i, j) cs -> 0 <= i < r /\ 0 <= j < c) ->
  foldM (fun p => a2_cell v d (fst p) (snd p)) cs st = visits v cs f st.
Proof.
  intros HT Hcs. rewrite visits_foldM. apply foldM_ext. intros [i j] s H. cbn [fst snd]. apply Hcs in H.
  apply (a2_cell_eq v d r c f); tauto.
Qed.
Lemma row_order_in r0 r1 c0 c1 r c : 0 <= r0 -> r1 < r -> 0 <= c0 -> c1 < c ->
  forall i j, In (i, j) (row_order r0 r1 c0 c1) -> 0 <= i < r /\ 0 <= j < c.
Proof. intros H1 H2 H3 H4 i j H. apply in_row_order in H. lia. Qed.
Lemma column_order_in r0 r1 c0 c1 r c : 0 <= r0 -> r1 < r -> 0 <= c0 -> c1 < c ->
  forall i j, In (i, j) (column_order r0 r1 c0 c1) -> 0 <= i < r /\ 0 <= j < c.
Proof. intros H1 H2 H3 H4 i j H. apply in_column_order in H. lia. Qed.

Ltac a2open H :=
  let Hr := fresh "Hr" in let Hc := fresh "Hc" in let HT := fresh "HT" in
  let d := fresh "d" in
  pose proof (MatIs_rows _ _ _ _ H); pose proof (MatIs_cols _ _ _ _ H); pose proof (MatIs_dims _ _ _ _ H);
  cbn [m_rows m_cols] in *;
  destruct (MatIs_arr_inv _ _ _ _ H) as (d & -> & Hr & Hc & HT).


(** Full walks are walks of the whole rectangle. *)
Lemma for_full_row {S} r c (f : Z -> Z -> S -> res S) s :
  for_ 0 r (fun i s => for_ 0 c (fun j s => f i j s) s) s = foldM (fun p => f (fst p) (snd p)) (row_order 0 (r - 1) 0 (c - 1)) s.
Proof. rewrite <- for_row_order. replace (r - 1 + 1) with r by lia. replace (c - 1 + 1) with c by lia. reflexivity. Qed.
Lemma for_full_column {S} r c (f : Z -> Z -> S -> res S) s :
  for_ 0 c (fun j s => for_ 0 r (fun i s => f i j s) s) s = foldM (fun p => f (fst p) (snd p)) (column_order 0 (r - 1) 0 (c - 1)) s.
Proof. rewrite <- for_column_order. replace (r - 1 + 1) with r by lia. replace (c - 1 + 1) with c by lia. reflexivity. Qed.

Lemma a2_walks {St} a r c f (v : MatVisitor St) st : MatIs (MArr a) r c f ->
  let st0 := mv_start v r c 0 (r - 1) 0 (c - 1) st in
  a2_WalkInRowOrder a v st = read_result v (row_order 0 (r - 1) 0 (c - 1)) f st0 /\
  a2_WalkInColumnOrder a v st = read_result v (column_order 0 (r - 1) 0 (c - 1)) f st0 /\
  walk_result MArr (a2_WalkInUpdateRowOrder a v st) v r c (row_order 0 (r - 1) 0 (c - 1)) f st0 /\
  walk_result MArr (a2_WalkInUpdateColumnOrder a v st) v r c (column_order 0 (r - 1) 0 (c - 1)) f st0.
Proof.
  intros H st0. a2open H.
  unfold a2_WalkInRowOrder, a2_WalkInColumnOrder, a2_WalkInUpdateRowOrder, a2_WalkInUpdateColumnOrder, read_result.
  rewrite H1. cbn [bind]. rewrite H0. fold st0. cbn [a2_d a2_data].
  rewrite for_full_row, for_full_column.
  rewrite (a2_read_result v d r c f), (a2_read_result v d r c f); auto; [|apply column_order_in; lia|apply row_order_in; lia].
  split; [reflexivity|]. split; [reflexivity|]. split.
  - rewrite (for_full_row r c (fun i j => a2_ucell v i j)). apply a2_walk_result; auto. apply row_order_in; lia.
  - rewrite (for_full_column r c (fun i j => a2_ucell v i j)). apply a2_walk_result; auto. apply column_order_in; lia.
Qed.
Lemma a2_walks_bounded {St} a r c f (v : MatVisitor St) r0 r1 c0 c1 st : MatIs (MArr a) r c f ->
  0 <= r0 <= r1 -> r1 < r -> 0 <= c0 <= c1 -> c1 < c ->
  let st0 := mv_start v r c r0 r1 c0 c1 st in
  a2_WalkInRowOrderBounded a v r0 r1 c0 c1 st = read_result v (row_order r0 r1 c0 c1) f st0 /\
  a2_WalkInColumnOrderBounded a v r0 r1 c0 c1 st = read_result v (column_order r0 r1 c0 c1) f st0 /\
  walk_result MArr (a2_WalkInUpdateRowOrderBounded a v r0 r1 c0 c1 st) v r c (row_order r0 r1 c0 c1) f st0 /\
  walk_result MArr (a2_WalkInUpdateColumnOrderBounded a v r0 r1 c0 c1 st) v r c (column_order r0 r1 c0 c1) f st0.
Proof.
  intros H B1 B2 B3 B4 st0. a2open H.
  unfold a2_WalkInRowOrderBounded, a2_WalkInColumnOrderBounded, a2_WalkInUpdateRowOrderBounded, a2_WalkInUpdateColumnOrderBounded, read_result.
  rewrite (checkSubMatrixIndex_ok _ c) by (cbn [m_rows]; auto; lia). cbn [bind orpanic].
  rewrite H1. cbn [bind]. rewrite H0. fold st0. cbn [a2_d a2_data].
  rewrite (for_row_order r0 r1 c0 c1 (a2_cell v d)), (for_column_order r0 r1 c0 c1 (a2_cell v d)).
  rewrite (a2_read_result v d r c f), (a2_read_result v d r c f); auto; [|apply column_order_in; lia|apply row_order_in; lia].
  split; [reflexivity|]. split; [reflexivity|]. split.
  - rewrite (for_row_order r0 r1 c0 c1 (fun i j => a2_ucell v i j)). apply a2_walk_result; auto. apply row_order_in; lia.
  - rewrite (for_column_order r0 r1 c0 c1 (fun i j => a2_ucell v i j)). apply a2_walk_result; auto. apply column_order_in; lia.
Qed.

(** *** BlockRealMatrix *)
(** The place of entry (p,q) in the storage, with block widths [w]. *)
Definition bplace {S} (nc : Z) (w : Z -> Z) (cell : Z -> Z -> Z -> Z -> S -> res S) (p q : Z) : S -> res S :=
  cell (p / 52 * nc + q / 52) ((p - p / 52 * 52) * w (q / 52) + (q - q / 52 * 52)) p q.
Lemma div52 p I : I * 52 <= p < (I + 1) * 52 -> p / 52 = I.
Proof. intros. symmetry. apply Z.div_unique with (p - I * 52); lia. Qed.
Lemma blk_inner {S} nc (w : Z -> Z) (cell : Z -> Z -> Z -> Z -> S -> res S) I p J lo hi s :
  I * 52 <= p < (I + 1) * 52 -> J * 52 <= lo -> hi <= (J + 1) * 52 ->
  (let* (s, _) := for_ lo hi (fun q '(s, k) => let* s := cell (I * nc + J) k p q s in Ok (s, k + 1))
     (s, (p - I * 52) * w J + lo - J * 52) in Ok s) = for_ lo hi (fun q s => bplace nc w cell p q s) s.
Proof.
  intros HI HJ1 HJ2. pose proof (for_count lo hi (fun q k s => cell (I * nc + J) k p q s) s ((p - I * 52) * w J + lo - J * 52)) as E.
  cbn beta in E. rewrite E. rewrite bind_assoc. cbn [bind].
  rewrite bind_ok_r. apply for_ext. intros q s' Hq. unfold bplace.
  rewrite (div52 p I), (div52 q J) by lia. f_equal. lia.
Qed.
Lemma blk_rows {S} nc (w : Z -> Z) (cell : Z -> Z -> Z -> Z -> S -> res S) r0 r1 c0 c1 s :
  0 <= r0 <= r1 -> 0 <= c0 <= c1 ->
  for_ (r0 / 52) (1 + r1 / 52) (fun I s =>
    for_ (Z.max r0 (I * 52)) (Z.min ((I + 1) * 52) (1 + r1)) (fun p s =>
      for_ (c0 / 52) (1 + c1 / 52) (fun J s =>
        let* (s, _) := for_ (Z.max c0 (J * 52)) (Z.min ((J + 1) * 52) (1 + c1))
          (fun q '(s, k) => let* s := cell (I * nc + J) k p q s in Ok (s, k + 1))
          (s, (p - I * 52) * w J + Z.max c0 (J * 52) - J * 52) in Ok s) s) s) s =
  foldM (fun pq => bplace nc w cell (fst pq) (snd pq)) (row_order r0 r1 c0 c1) s.
Proof.
  intros Hr Hc. rewrite <- for_row_order. rewrite <- (for_blocks r0 (r1 + 1)) by lia.
  replace (r1 + 1 - 1) with r1 by lia. apply for_ext. intros I s1 HI. replace (1 + r1) with (r1 + 1) by lia.
  apply for_ext. intros p s2 Hp. rewrite <- (for_blocks c0 (c1 + 1)) by lia.
  replace (c1 + 1 - 1) with c1 by lia. apply for_ext. intros J s3 HJ. replace (1 + c1) with (c1 + 1) by lia.
  apply blk_inner; lia.
Qed.
Lemma blk_opt {S} nc (w : Z -> Z) (cell : Z -> Z -> Z -> Z -> S -> res S) r0 r1 c0 c1 s :
  0 <= r0 <= r1 -> 0 <= c0 <= c1 ->
  for_ (r0 / 52) (1 + r1 / 52) (fun I s =>
    for_ (c0 / 52) (1 + c1 / 52) (fun J s =>
      for_ (Z.max r0 (I * 52)) (Z.min ((I + 1) * 52) (1 + r1)) (fun p s =>
        let* (s, _) := for_ (Z.max c0 (J * 52)) (Z.min ((J + 1) * 52) (1 + c1))
          (fun q '(s, k) => let* s := cell (I * nc + J) k p q s in Ok (s, k + 1))
          (s, (p - I * 52) * w J + Z.max c0 (J * 52) - J * 52) in Ok s) s) s) s =
  foldM (fun pq => bplace nc w cell (fst pq) (snd pq)) (blk_order r0 r1 c0 c1) s.
Proof.
  intros Hr Hc. unfold blk_order. rewrite foldM_flat_map, for_foldM. apply foldM_ext. intros I s1 HI. apply in_range in HI.
  rewrite foldM_flat_map, for_foldM. apply foldM_ext. intros J s2 HJ. apply in_range in HJ.
  rewrite foldM_flat_map, for_foldM. replace (1 + r1) with (r1 + 1) by lia. apply foldM_ext. intros p s3 Hp. apply in_range in Hp.
  rewrite foldM_map. rewrite <- (for_foldM _ _ (fun q => bplace nc w cell p q)). replace (1 + c1) with (c1 + 1) by lia.
  apply blk_inner; lia.
Qed.
Lemma nblk_1div n : 1 <= n -> nblk n = 1 + (n - 1) / 52.
Proof. intros. unfold nblk. replace (n + 51) with (n - 1 + 1 * 52) by lia. rewrite Z.div_add by lia. lia. Qed.
Lemma blk_rows_full {S} nc (w : Z -> Z) (cell : Z -> Z -> Z -> Z -> S -> res S) r c s :
  1 <= r -> 1 <= c ->
  for_ 0 (nblk r) (fun I s =>
    for_ (I * 52) (Z.min (I * 52 + 52) r) (fun p s =>
      for_ 0 (nblk c) (fun J s =>
        let* (s, _) := for_ (J * 52) (Z.min (J * 52 + 52) c)
          (fun q '(s, k) => let* s := cell (I * nc + J) k p q s in Ok (s, k + 1))
          (s, (p - I * 52) * w J) in Ok s) s) s) s =
  foldM (fun pq => bplace nc w cell (fst pq) (snd pq)) (row_order 0 (r - 1) 0 (c - 1)) s.
Proof.
  intros Hr Hc. rewrite <- blk_rows by lia. rewrite !nblk_1div by lia. change (0 / 52) with 0.
  apply for_ext. intros I s1 HI. replace (Z.max 0 (I * 52)) with (I * 52) by lia.
  replace (Z.min ((I + 1) * 52) (1 + (r - 1))) with (Z.min (I * 52 + 52) r) by lia. apply for_ext. intros p s2 Hp.
  apply for_ext. intros J s3 HJ. replace (Z.max 0 (J * 52)) with (J * 52) by lia.
  replace (Z.min ((J + 1) * 52) (1 + (c - 1))) with (Z.min (J * 52 + 52) c) by lia.
  replace ((p - I * 52) * w J + J * 52 - J * 52) with ((p - I * 52) * w J) by lia. reflexivity.
Qed.
(** A counter advanced by [d] in each iteration. *)
Lemma for_count_by {S} d lo hi (body : Z -> Z -> S -> res S) (s : S) k : lo <= hi ->
  for_ lo hi (fun i (sk : S * Z) => let* s' := body i (snd sk) (fst sk) in Ok (s', snd sk + d)) (s, k) =
  let* s' := for_ lo hi (fun i s => body i (k + (i - lo) * d) s) s in Ok (s', k + (hi - lo) * d).
Proof.
  intros Hle. remember (Z.to_nat (hi - lo)) as n eqn:E.
  revert lo k s E Hle. induction n; intros.
  - rewrite !for_nil by lia. cbn [bind]. f_equal. f_equal. replace (hi - lo) with 0 by lia. lia.
  - rewrite !for_step by lia. cbn [fst snd]. replace (k + (lo - lo) * d) with k by lia.
    destruct (body lo k s) as [s'|e|e]; cbn [bind]; auto.
    rewrite IHn by lia.
    rewrite (for_ext (lo + 1) hi _ (fun i s0 => body i (k + (i - lo) * d) s0)).
    + apply bind_ext. intros. f_equal. f_equal. nia.
    + intros. f_equal. nia.
Qed.
Lemma blk_opt_full {S} (cell : Z -> Z -> Z -> Z -> S -> res S) r c s :
  1 <= r -> 1 <= c ->
  for_ 0 (nblk r) (fun I s =>
    for_ 0 (nblk c) (fun J '(s, idx) =>
      let* (s, _) := for_ (I * 52) (Z.min (I * 52 + 52) r) (fun p sk =>
        for_ (J * 52) (Z.min (J * 52 + 52) c)
          (fun q '(s, k) => let* s := cell idx k p q s in Ok (s, k + 1)) sk) (s, 0) in
      Ok (s, idx + 1)) s) (s, 0) =
  let* s := foldM (fun pq => bplace (nblk c) (bw c) cell (fst pq) (snd pq)) (blk_order 0 (r - 1) 0 (c - 1)) s in
  Ok (s, nblk r * nblk c).
Proof.
  intros Hr Hc. rewrite <- blk_opt by lia.
  pose proof (nblk_1div r Hr) as Er. pose proof (nblk_1div c Hc) as Ec.
  assert (0 <= (r - 1) / 52) by (apply Z.div_pos; lia). assert (0 <= (c - 1) / 52) by (apply Z.div_pos; lia).
  set (body := fun I idx0 s0 => for_ 0 (nblk c) (fun J s => for_ (I * 52) (Z.min (I * 52 + 52) r) (fun p s =>
     let* (s, _) := for_ (J * 52) (Z.min (J * 52 + 52) c)
          (fun q '(s, k) => let* s := cell (idx0 + J) k p q s in Ok (s, k + 1)) (s, (p - I * 52) * bw c J) in Ok s) s) s0).
  rewrite (for_ext 0 (nblk r) _ (fun I sk => let* s' := body I (snd sk) (fst sk) in Ok (s', snd sk + nblk c))).
  - rewrite (for_count_by (nblk c) 0 (nblk r) body) by lia. cbn [bind]. rewrite Z.add_0_l, Z.sub_0_r.
    f_equal. rewrite <- Er, <- Ec. change (0 / 52) with 0.
    apply for_ext. intros I s1 HI. unfold body. apply for_ext. intros J s2 HJ.
    replace (Z.max 0 (I * 52)) with (I * 52) by lia.
    replace (Z.min ((I + 1) * 52) (1 + (r - 1))) with (Z.min (I * 52 + 52) r) by lia. apply for_ext. intros p s3 Hp.
    replace (Z.max 0 (J * 52)) with (J * 52) by lia.
    replace (Z.min ((J + 1) * 52) (1 + (c - 1))) with (Z.min (J * 52 + 52) c) by lia.
    replace ((p - I * 52) * bw c J + J * 52 - J * 52) with ((p - I * 52) * bw c J) by lia.
    replace (0 + (I - 0) * nblk c + J) with (I * nblk c + J) by lia. reflexivity.
  - intros I [s1 idx0] HI. cbn [fst snd].
    pose proof (for_count 0 (nblk c) (fun J idx s => for_ (I * 52) (Z.min (I * 52 + 52) r) (fun p s =>
     let* (s, _) := for_ (J * 52) (Z.min (J * 52 + 52) c)
          (fun q '(s, k) => let* s := cell idx k p q s in Ok (s, k + 1)) (s, (p - I * 52) * bw c J) in Ok s) s) s1 idx0) as E.
    replace (idx0 + Z.max 0 (nblk c - 0)) with (idx0 + nblk c) in E by lia.
    unfold body. rewrite (for_ext 0 (nblk c) _ (fun J s => for_ (I * 52) (Z.min (I * 52 + 52) r) (fun p s =>
     let* (s, _) := for_ (J * 52) (Z.min (J * 52 + 52) c)
          (fun q '(s, k) => let* s := cell (idx0 + (J - 0)) k p q s in Ok (s, k + 1)) (s, (p - I * 52) * bw c J) in Ok s) s) s1).
    2:{ intros. rewrite Z.sub_0_r. reflexivity. }
    rewrite <- E. apply for_ext. intros J [s2 idx] HJ.
    pose proof (Z.div_mod (r - 1) 52 ltac:(lia)). pose proof (Z.mod_pos_bound (r - 1) 52 ltac:(lia)).
    pose proof (bw_bounds c J Hc HJ).
    pose proof (for_count_by (bw c J) (I * 52) (Z.min (I * 52 + 52) r) (fun p k s => let* (s, _) := for_ (J * 52) (Z.min (J * 52 + 52) c)
          (fun q '(s, k) => let* s := cell idx k p q s in Ok (s, k + 1)) (s, k) in Ok s) s2 0 ltac:(lia)) as E2.
    rewrite (for_ext _ _ _ (fun p (sk : S * Z) => let* s' := (let* (s, _) := for_ (J * 52) (Z.min (J * 52 + 52) c)
          (fun q '(s, k) => let* s := cell idx k p q s in Ok (s, k + 1)) (fst sk, snd sk) in Ok s) in Ok (s', snd sk + bw c J))).
    + rewrite E2. rewrite !bind_assoc. cbn [bind]. apply bind_ext. intros. reflexivity.
    + intros p [s3 k] Hp. cbn [fst snd].
      pose proof (for_count (J * 52) (Z.min (J * 52 + 52) c) (fun q k s => cell idx k p q s) s3 k) as E3. cbn beta in E3.
      rewrite E3. rewrite !bind_assoc. cbn [bind]. apply bind_ext. intros. f_equal. f_equal. unfold bw. lia.
Qed.

Lemma b_ucell_sim {St} (v : MatVisitor St) r c (w : Z -> Z) i j : 1 <= r -> 1 <= c ->
  (forall J, 0 <= J < nblk c -> w J = bw c J) -> 0 <= i < r -> 0 <= j < c ->
  usim v (fun bl t => BTab bl r c t) i j (bplace (nblk c) w (b_ucell v) i j).
Proof.
  intros Hr Hc Hw Hi Hj bl t st H. unfold bplace, b_ucell. rewrite Hw by (apply blk_of; auto).
  rewrite (BTab_get' bl r c t i j) by auto. cbn [bind].
  destruct (mv_visit v i j (t i j) st) as [[y st']|e|e]; cbn [bind]; auto.
  destruct (BTab_set' bl r c t i j y Hr Hc H Hi Hj) as (bl' & -> & H'). cbn [bind]. eauto.
Qed.
Lemma b_read_result {St} (v : MatVisitor St) bl r c (w : Z -> Z) f cs st : 1 <= r -> 1 <= c ->
  (forall J, 0 <= J < nblk c -> w J = bw c J) ->
  BTab bl r c f -> (forall i j, In (i, j) cs -> 0 <= i < r /\ 0 <= j < c) ->
  foldM (fun p => bplace (nblk c) w (b_cell v bl) (fst p) (snd p)) cs st = visits v cs f st.
Proof.
  intros Hr Hc Hw HT Hcs. rewrite visits_foldM. apply foldM_ext. intros [i j] s H. cbn [fst snd]. apply Hcs in H.
  unfold bplace, b_cell. rewrite Hw by (apply blk_of; tauto). rewrite (BTab_get' bl r c f) by tauto. reflexivity.
Qed.
Lemma b_walk_result {St} (v : MatVisitor St) b bl r c (w : Z -> Z) f cs st : 1 <= r -> 1 <= c ->
  (forall J, 0 <= J < nblk c -> w J = bw c J) ->
  BTab bl r c f -> (forall bl', BTab bl' r c f -> True) -> (forall i j, In (i, j) cs -> 0 <= i < r /\ 0 <= j < c) ->
  (forall bl' g, BTab bl' r c g -> BIs (with_blocks b bl') r c g) ->
  walk_result MBlk (let* (bl, st) := foldM (fun p => bplace (nblk c) w (b_ucell v) (fst p) (snd p)) cs (bl, st) in
     Ok (with_blocks b bl, st, mv_end v st)) v r c cs f st.
Proof.
  intros Hr Hc Hw HT _ Hcs Hb. unfold walk_result.
  pose proof (foldM_usim v (fun bl t => BTab bl r c t) (fun i j => bplace (nblk c) w (b_ucell v) i j) cs bl f st HT) as G.
  assert (G' : forall i j, In (i, j) cs -> usim v (fun bl t => BTab bl r c t) i j (bplace (nblk c) w (b_ucell v) i j)).
  { intros i j H. apply Hcs in H. apply b_ucell_sim; tauto. }
  specialize (G G'). destruct (visits_update v cs f st) as [[g st']|e|e].
  - destruct G as (d' & -> & H'). cbn [bind]. eexists; split; [reflexivity|]. apply MatIs_blk; auto.
  - rewrite G. reflexivity.
  - rewrite G. reflexivity.
Qed.
(** The column-order walks use At and SetEntry. *)
Lemma b_col_usim {St} (v : MatVisitor St) r c i j : 0 <= i < r -> 0 <= j < c ->
  usim v (fun b t => MatIs (MBlk b) r c t) i j (fun '((b, st) : Block * St) =>
      let* oldValue := b_At b i j in
      let* (newValue, st) := mv_visit v i j oldValue st in
      let* b := b_SetEntry b i j newValue in Ok (b, st)).
Proof.
  intros Hi Hj b t st H. pose proof (MatIs_At _ _ _ _ i j H Hi Hj) as E. cbn [m_At] in E. rewrite E. cbn [bind].
  destruct (mv_visit v i j (t i j) st) as [[y st']|e|e]; cbn [bind]; auto.
  destruct (b_SetEntry_spec b r c t i j y (MatIs_blk_inv _ _ _ _ H) Hi Hj) as (b' & -> & H'). cbn [bind]. apply MatIs_blk in H'. eauto.
Qed.
Lemma b_col_result {St} (v : MatVisitor St) b r c f cs st :
  MatIs (MBlk b) r c f -> (forall i j, In (i, j) cs -> 0 <= i < r /\ 0 <= j < c) ->
  walk_result MBlk (let* (b, st) := foldM (fun p '((b, st) : Block * St) =>
      let* oldValue := b_At b (fst p) (snd p) in
      let* (newValue, st) := mv_visit v (fst p) (snd p) oldValue st in
      let* b := b_SetEntry b (fst p) (snd p) newValue in Ok (b, st)) cs (b, st) in
     Ok (b, st, mv_end v st)) v r c cs f st.
Proof.
  intros HT Hcs. unfold walk_result.
  pose proof (foldM_usim v (fun b t => MatIs (MBlk b) r c t) (fun i j '((b, st) : Block * St) =>
      let* oldValue := b_At b i j in
      let* (newValue, st) := mv_visit v i j oldValue st in
      let* b := b_SetEntry b i j newValue in Ok (b, st)) cs b f st HT) as G.
  specialize (G ltac:(intros i j H; apply Hcs in H; apply b_col_usim; tauto)).
  destruct (visits_update v cs f st) as [[g st']|e|e].
  - destruct G as (d' & -> & H'). cbn [bind]. eexists; split; [reflexivity|]. auto.
  - rewrite G. reflexivity.
  - rewrite G. reflexivity.
Qed.
Lemma b_col_read {St} (v : MatVisitor St) b r c f cs st :
  MatIs (MBlk b) r c f -> (forall i j, In (i, j) cs -> 0 <= i < r /\ 0 <= j < c) ->
  foldM (fun p st => let* x := b_At b (fst p) (snd p) in
      let* (_, st) := mv_visit v (fst p) (snd p) x st in Ok st) cs st = visits v cs f st.
Proof.
  intros HT Hcs. rewrite visits_foldM. apply foldM_ext. intros [i j] s H. cbn [fst snd]. apply Hcs in H.
  pose proof (MatIs_At _ _ _ _ i j HT (proj1 H) (proj2 H)) as E. cbn [m_At] in E. rewrite E. reflexivity.
Qed.
Lemma blk_order_in r0 r1 c0 c1 r c : 0 <= r0 <= r1 -> r1 < r -> 0 <= c0 <= c1 -> c1 < c ->
  forall i j, In (i, j) (blk_order r0 r1 c0 c1) -> 0 <= i < r /\ 0 <= j < c.
Proof.
  intros H1 H2 H3 H4 i j H. apply (Permutation_in _ (blk_order_perm r0 r1 c0 c1 H1 H3)) in H. apply in_row_order in H. lia.
Qed.
Lemma b_walks {St} b r c f (v : MatVisitor St) st : MatIs (MBlk b) r c f ->
  let st0 := mv_start v r c 0 (r - 1) 0 (c - 1) st in
  b_WalkInRowOrder b v st = read_result v (row_order 0 (r - 1) 0 (c - 1)) f st0 /\
  b_WalkInColumnOrder b v st = read_result v (column_order 0 (r - 1) 0 (c - 1)) f st0 /\
  b_WalkInOptimizedOrder b v st = read_result v (blk_order 0 (r - 1) 0 (c - 1)) f st0 /\
  walk_result MBlk (b_WalkInUpdateRowOrder b v st) v r c (row_order 0 (r - 1) 0 (c - 1)) f st0 /\
  walk_result MBlk (b_WalkInUpdateColumnOrder b v st) v r c (column_order 0 (r - 1) 0 (c - 1)) f st0 /\
  walk_result MBlk (b_WalkInUpdateOptimizedOrder b v st) v r c (blk_order 0 (r - 1) 0 (c - 1)) f st0.
Proof.
  intros H. pose proof (MatIs_blk_inv _ _ _ _ H) as (bl & Eb & Hr & Hc & HT). intros st0.
  assert (Hw : forall J, 0 <= J < nblk c -> blockWidth b J = bw c J) by (intros; subst b; apply blockWidth_bw; auto).
  assert (Hb : forall bl' g, BTab bl' r c g -> BIs (with_blocks b bl') r c g).
  { intros bl' g Hg. exists bl'. subst b. split; [reflexivity|]. auto. }
  unfold b_WalkInRowOrder, b_WalkInColumnOrder, b_WalkInOptimizedOrder, b_WalkInUpdateRowOrder, b_WalkInUpdateColumnOrder,
    b_WalkInUpdateOptimizedOrder, read_result.
  assert (b_rows b = r /\ b_columns b = c /\ b_blocks b = bl /\ b_blockRows b = nblk r /\ b_blockColumns b = nblk c) as (-> & -> & -> & -> & ->)
    by (subst b; repeat split).
  fold st0. unfold BLOCK_SIZE.
  rewrite (blk_rows_full (nblk c) (blockWidth b) (b_cell v bl) r c st0) by auto.
  rewrite (for_full_column r c (fun row column st => let* x := b_At b row column in
      let* (_, st) := mv_visit v row column x st in Ok st)).
  rewrite (blk_opt_full (b_cell v bl) r c st0) by auto.
  rewrite (b_read_result v bl r c (blockWidth b) f) by (auto; apply row_order_in; lia).
  rewrite (b_col_read v b r c f) by (auto; apply column_order_in; lia).
  rewrite (b_read_result v bl r c (bw c) f) by (auto; apply blk_order_in; lia).
  split; [reflexivity|]. split; [reflexivity|]. split; [rewrite bind_assoc; reflexivity|].
  split; [|split].
  - rewrite (blk_rows_full (nblk c) (blockWidth b) (b_ucell v) r c) by auto. apply b_walk_result; auto. apply row_order_in; lia.
  - rewrite (for_full_column r c (fun row column '((b, st) : Block * St) =>
      let* oldValue := b_At b row column in
      let* (newValue, st) := mv_visit v row column oldValue st in
      let* b := b_SetEntry b row column newValue in Ok (b, st))). apply b_col_result; auto. apply column_order_in; lia.
  - rewrite (blk_opt_full (b_ucell v) r c) by auto. rewrite bind_assoc. cbn [bind].
    apply (b_walk_result v b bl r c (bw c)); auto. apply blk_order_in; lia.
Qed.
Lemma b_walks_bounded {St} b r c f (v : MatVisitor St) r0 r1 c0 c1 st : MatIs (MBlk b) r c f ->
  0 <= r0 <= r1 -> r1 < r -> 0 <= c0 <= c1 -> c1 < c ->
  let st0 := mv_start v r c r0 r1 c0 c1 st in
  b_WalkInRowOrderBounded b v r0 r1 c0 c1 st = read_result v (row_order r0 r1 c0 c1) f st0 /\
  b_WalkInColumnOrderBounded b v r0 r1 c0 c1 st = read_result v (column_order r0 r1 c0 c1) f st0 /\
  b_WalkInOptimizedOrderBounded b v r0 r1 c0 c1 st = read_result v (blk_order r0 r1 c0 c1) f st0 /\
  walk_result MBlk (b_WalkInUpdateRowOrderBounded b v r0 r1 c0 c1 st) v r c (row_order r0 r1 c0 c1) f st0 /\
  walk_result MBlk (b_WalkInUpdateColumnOrderBounded b v r0 r1 c0 c1 st) v r c (column_order r0 r1 c0 c1) f st0 /\
  walk_result MBlk (b_WalkInUpdateOptimizedOrderBounded b v r0 r1 c0 c1 st) v r c (blk_order r0 r1 c0 c1) f st0.
Proof.
  intros H B1 B2 B3 B4. pose proof (MatIs_blk_inv _ _ _ _ H) as (bl & Eb & Hr & Hc & HT). intros st0.
  assert (Hw : forall J, 0 <= J < nblk c -> blockWidth b J = bw c J) by (intros; subst b; apply blockWidth_bw; auto).
  assert (Hb : forall bl' g, BTab bl' r c g -> BIs (with_blocks b bl') r c g).
  { intros bl' g Hg. exists bl'. subst b. split; [reflexivity|]. auto. }
  unfold b_WalkInRowOrderBounded, b_WalkInColumnOrderBounded, b_WalkInOptimizedOrderBounded, b_WalkInUpdateRowOrderBounded,
    b_WalkInUpdateColumnOrderBounded, b_WalkInUpdateOptimizedOrderBounded, read_result.
  rewrite (checkSubMatrixIndex_ok _ c) by (rewrite ?(MatIs_rows _ _ _ _ H); eauto using MatIs_cols). cbn [bind orpanic].
  assert (b_rows b = r /\ b_columns b = c /\ b_blocks b = bl /\ b_blockRows b = nblk r /\ b_blockColumns b = nblk c) as (-> & -> & -> & _ & ->)
    by (subst b; repeat split).
  fold st0. unfold BLOCK_SIZE.
  rewrite (blk_rows (nblk c) (blockWidth b) (b_cell v bl) r0 r1 c0 c1 st0) by auto.
  rewrite (for_column_order r0 r1 c0 c1 (fun row column st => let* x := b_At b row column in
      let* (_, st) := mv_visit v row column x st in Ok st)).
  rewrite (blk_opt (nblk c) (blockWidth b) (b_cell v bl) r0 r1 c0 c1 st0) by auto.
  rewrite (b_read_result v bl r c (blockWidth b) f) by (auto; apply row_order_in; lia).
  rewrite (b_col_read v b r c f) by (auto; apply column_order_in; lia).
  rewrite (b_read_result v bl r c (blockWidth b) f) by (auto; apply blk_order_in; lia).
  split; [reflexivity|]. split; [reflexivity|]. split; [reflexivity|].
  split; [|split].
  - rewrite (blk_rows (nblk c) (blockWidth b) (b_ucell v) r0 r1 c0 c1) by auto. apply b_walk_result; auto. apply row_order_in; lia.
  - rewrite (for_column_order r0 r1 c0 c1 (fun row column '((b, st) : Block * St) =>
      let* oldValue := b_At b row column in
      let* (newValue, st) := mv_visit v row column oldValue st in
      let* b := b_SetEntry b row column newValue in Ok (b, st))). apply b_col_result; auto. apply column_order_in; lia.
  - rewrite (blk_opt (nblk c) (blockWidth b) (b_ucell v) r0 r1 c0 c1) by auto. apply b_walk_result; auto. apply blk_order_in; lia.
Qed.

(** *** DiagonalMatrix *)
(** What an update walk does to a diagonal table: the diagonal entries are
    replaced, an off-diagonal value must be accepted by the zero test and is
    not stored. *)
Fixpoint visits_diag {St} (v : MatVisitor St) (cs : list (Z * Z)) (g : Z -> F) (st : St) : res ((Z -> F) * St) :=
  match cs with
  | [] => Ok (g, st)
  | (i, j) :: cs =>
      let* (y, st) := mv_visit v i j (if i =? j then g i else fzero) st in
      if i =? j then visits_diag v cs (fun k => if k =? i then y else g k) st
      else if fulp1 fzero y then visits_diag v cs g st else Panic ETooLarge
  end.
Definition walk_diag_result {St} (walk : res (Diag * St * F)) (v : MatVisitor St) n cs g st : Prop :=
  match visits_diag v cs g st with
  | Ok (h, st') => exists d', walk = Ok (d', st', mv_end v st') /\ MatIs (MDiag d') n n (dg h)
  | Err e => walk = Err e
  | Panic e => walk = Panic e
  end.
Lemma d_walk_result {St} (v : MatVisitor St) d n g cs st :
  DIs d n g -> (forall i j, In (i, j) cs -> 0 <= i < n /\ 0 <= j < n) ->
  walk_diag_result (let* (d, st) := foldM (fun p => d_ucell v (fst p) (snd p)) cs (d, st) in
     Ok (d, st, mv_end v st)) v n cs g st.
Proof.
  unfold walk_diag_result. revert d g st. induction cs as [|[i j] cs IH]; intros d g st Hd Hcs; cbn [visits_diag foldM fst snd].
  - cbn [bind]. eexists; split; [reflexivity|]. apply DIs_MatIs; auto.
  - destruct (Hcs i j (or_introl eq_refl)) as [Hi Hj].
    assert (Hcs' : forall i j, In (i, j) cs -> 0 <= i < n /\ 0 <= j < n) by (intros; apply Hcs; right; auto).
    assert (Eu : d_ucell v i j (d, st) = let* (y, st) := mv_visit v i j (if i =? j then g i else fzero) st in
      let* d := d_SetEntry d i j y in Ok (d, st)).
    { unfold d_ucell. rewrite (d_At_ok d n g i j Hd Hi Hj). reflexivity. }
    rewrite Eu. clear Eu.
    destruct (mv_visit v i j (if i =? j then g i else fzero) st) as [[y st']|e|e]; cbn [bind]; auto.
    destruct (Z.eqb_spec i j) as [->|Hne].
    + destruct (d_Set_on d n g j y Hd Hi) as (d' & -> & Hd'). cbn [bind]. apply IH; auto.
    + destruct (fulp1 fzero y) eqn:Ez.
      * rewrite (d_Set_off d i j y Hne Ez). cbn [bind]. apply IH; auto.
      * rewrite (d_Set_off_bad d i j y Hne) by (unfold zlike; congruence). reflexivity.
Qed.
Lemma d_read {St} (v : MatVisitor St) d r c f cs st :
  MatIs (MDiag d) r c f -> (forall i j, In (i, j) cs -> 0 <= i < r /\ 0 <= j < c) ->
  foldM (fun p => d_cell v d (fst p) (snd p)) cs st = visits v cs f st.
Proof.
  intros HT Hcs. rewrite visits_foldM. apply foldM_ext. intros [i j] s H. cbn [fst snd]. apply Hcs in H.
  unfold d_cell. pose proof (MatIs_At _ _ _ _ i j HT (proj1 H) (proj2 H)) as E. cbn [m_At] in E. rewrite E. reflexivity.
Qed.
Lemma d_walks {St} d n g (v : MatVisitor St) st : DIs d n g ->
  let st0 := mv_start v n n 0 (n - 1) 0 (n - 1) st in
  d_WalkInRowOrder d v st = read_result v (row_order 0 (n - 1) 0 (n - 1)) (dg g) st0 /\
  d_WalkInColumnOrder d v st = read_result v (column_order 0 (n - 1) 0 (n - 1)) (dg g) st0 /\
  walk_diag_result (d_WalkInUpdateRowOrder d v st) v n (row_order 0 (n - 1) 0 (n - 1)) g st0 /\
  walk_diag_result (d_WalkInUpdateColumnOrder d v st) v n (column_order 0 (n - 1) 0 (n - 1)) g st0.
Proof.
  intros Hd st0. pose proof (DIs_MatIs _ _ _ Hd) as HM. pose proof (MatIs_dims _ _ _ _ HM).
  unfold d_WalkInRowOrder, d_WalkInColumnOrder, d_WalkInUpdateRowOrder, d_WalkInUpdateColumnOrder, read_result.
  rewrite (proj1 Hd). fold st0.
  rewrite (for_full_row n n (d_cell v d)), (for_full_column n n (d_cell v d)).
  rewrite (d_read v d n n (dg g)) by (auto; apply row_order_in; lia).
  rewrite (d_read v d n n (dg g)) by (auto; apply column_order_in; lia).
  split; [reflexivity|]. split; [reflexivity|]. split.
  - rewrite (for_full_row n n (d_ucell v)). apply d_walk_result; auto. apply row_order_in; lia.
  - rewrite (for_full_column n n (d_ucell v)). apply d_walk_result; auto. apply column_order_in; lia.
Qed.
Lemma d_walks_bounded {St} d n g (v : MatVisitor St) r0 r1 c0 c1 st : DIs d n g ->
  0 <= r0 -> r1 < n -> 0 <= c0 -> c1 < n ->
  let st0 := mv_start v n n r0 r1 c0 c1 st in
  d_WalkInRowOrderBounded d v r0 r1 c0 c1 st = read_result v (row_order r0 r1 c0 c1) (dg g) st0 /\
  d_WalkInColumnOrderBounded d v r0 r1 c0 c1 st = read_result v (column_order r0 r1 c0 c1) (dg g) st0 /\
  walk_diag_result (d_WalkInUpdateRowOrderBounded d v r0 r1 c0 c1 st) v n (row_order r0 r1 c0 c1) g st0 /\
  walk_diag_result (d_WalkInUpdateColumnOrderBounded d v r0 r1 c0 c1 st) v n (column_order r0 r1 c0 c1) g st0.
Proof.
  intros Hd B1 B2 B3 B4 st0. pose proof (DIs_MatIs _ _ _ Hd) as HM.
  unfold d_WalkInRowOrderBounded, d_WalkInColumnOrderBounded, d_WalkInUpdateRowOrderBounded, d_WalkInUpdateColumnOrderBounded, read_result.
  rewrite (proj1 Hd). fold st0.
  rewrite (for_row_order r0 r1 c0 c1 (d_cell v d)), (for_column_order r0 r1 c0 c1 (d_cell v d)).
  rewrite (d_read v d n n (dg g)) by (auto; apply row_order_in; lia).
  rewrite (d_read v d n n (dg g)) by (auto; apply column_order_in; lia).
  split; [reflexivity|]. split; [reflexivity|]. split.
  - rewrite (for_row_order r0 r1 c0 c1 (d_ucell v)). apply d_walk_result; auto. apply row_order_in; lia.
  - rewrite (for_column_order r0 r1 c0 c1 (d_ucell v)). apply d_walk_result; auto. apply column_order_in; lia.
Qed.
End Walks.

(** Goroutines with cells are goroutines without, as far as the arrays go. *)
From Coq Require Import ZArith List Lia Bool Arith.
From Verif Require Import Base BaseLemmas Scalar Vector Matrix Heap HeapDec HeapSolve HeapSpec HeapFacts HeapCo HeapCoCode HeapCoSpec HeapCoFacts HeapCoRel HeapCoStep HeapCoMain HeapCell HeapCellSpec.
Import ListNotations.
Open Scope Z_scope.

Section Facts.
Context {O : Ops}.
Lemma moves_app {A} (w : world A) o1 o2 : moves w (o1 ++ o2) = moves (moves w o1) o2.
Proof. revert w. induction o1; intros; cbn; auto. Qed.
Lemma cmoves_snoc {A} (w : cworld A) o i : cmoves w (o ++ [i]) = cmove (cmoves w o) i.
Proof. revert w. induction o; intros; cbn; auto. Qed.
Lemma turns_snoc o i j : turns_of (o ++ [i]) j = (turns_of o j + if Nat.eqb j i then 1 else 0)%nat.
Proof. unfold turns_of. rewrite filter_app, app_length. cbn. destruct (Nat.eqb j i); reflexivity. Qed.
Lemma move_other {A} (w : world A) i j : i <> j -> nth_error (threads (move w i)) j = nth_error (threads w) j.
Proof.
  intros H. unfold move. destruct (nth_error (threads w) i) eqn:E; auto. destruct (step _ _). cbn [threads].
  rewrite nth_put by (apply nth_error_Some; congruence). destruct (Nat.eqb_spec i j); congruence.
Qed.
Lemma move_at {A} (w : world A) i p : nth_error (threads w) i = Some p ->
  nth_error (threads (move w i)) i = Some (snd (step (memory w) p)) /\ memory (move w i) = fst (step (memory w) p).
Proof.
  intros E. unfold move. rewrite E. destruct (step _ _) as [h p']. cbn. split; auto.
  rewrite nth_put by (apply nth_error_Some; congruence). rewrite Nat.eqb_refl. reflexivity.
Qed.
Lemma length_move {A} (w : world A) i : length (threads (move w i)) = length (threads w).
Proof.
  unfold move. destruct (nth_error (threads w) i) eqn:E; auto. destruct (step _ _). cbn. apply length_put. apply nth_error_Some. congruence.
Qed.
Lemma cmove_some {A} (w : cworld A) i t : nth_error (cthreads w) i = Some t ->
  let '(h, cs, t') := cstep (cmem w) (cells w) t in
  cmem (cmove w i) = h /\ cells (cmove w i) = cs /\ length (cthreads (cmove w i)) = length (cthreads w) /\
  forall j, nth_error (cthreads (cmove w i)) j = if Nat.eqb i j then Some t' else nth_error (cthreads w) j.
Proof.
  intros E. unfold cmove. rewrite E. destruct (cstep _ _ _) as [[h cs] t']. cbn. repeat split; auto.
  - apply length_put. apply nth_error_Some. congruence.
  - intros j. apply nth_put. apply nth_error_Some. congruence.
Qed.

(** ** A goroutine without cells *)
Inductive mirror : cprog (list answer) -> prog (list answer) -> Prop :=
| mi_run p : mirror (Sub p Fin) p
| mi_end r : mirror (Fin r) (Done r).
(** A part without cells, one action of it, and the same without what follows. *)
Lemma sub_step {A} h cs p (k : res (list answer) -> cprog A) :
  (exists r, p = Done r /\ cstep h cs (Sub p k) = (h, cs, k r)) \/
  cstep h cs (Sub p k) = (fst (step h p), cs, Sub (snd (step h p)) k).
Proof. destruct p; [left; eexists; split; reflexivity|right; cbn [cstep]; destruct (step _ _); reflexivity..]. Qed.
Lemma mirror_step h cs t p : mirror t p ->
  exists t', cstep h cs t = (fst (step h p), cs, t') /\ mirror t' (snd (step h p)).
Proof.
  intros [p0|r].
  - destruct (sub_step h cs p0 Fin) as [(r & -> & E)|E]; rewrite E; eexists; split; try reflexivity; constructor.
  - eexists. split; [reflexivity|]. constructor.
Qed.

(** ** Cells that are filled *)
Section Filled.
Variable h : heap.
Variable cs : list (option HMat).
Variable gs : list (list task).
Variable qs : list accessor.
Hypothesis Hf : forall q, In q qs -> settled cs q.
Definition idle : list (list task) := gs ++ map (fun _ => []) qs.
Definition reader (q : accessor) (n : nat) (t : cprog (list answer)) : Prop :=
  (n = 0%nat /\ t = access q) \/ (n = 1%nat /\ t = give (cell_of q)) \/ ((2 <= n)%nat /\ t = Fin (Ok (held (cell cs (cell_of q))))).
Record calm (o : list nat) (w : cworld (list answer)) : Prop := {
  ca_mem : cmem w = memory (moves (launch h idle) o);
  ca_cells : cells w = cs;
  ca_len : length (cthreads w) = length idle;
  ca_go : forall i t, (i < length gs)%nat -> nth_error (cthreads w) i = Some t ->
    exists p, nth_error (threads (moves (launch h idle) o)) i = Some p /\ mirror t p;
  ca_acc : forall i q, nth_error qs i = Some q ->
    exists t, nth_error (cthreads w) (length gs + i) = Some t /\ reader q (turns_of o (length gs + i)) t;
  ca_idle : forall i, (i < length qs)%nat -> nth_error (threads (moves (launch h idle) o)) (length gs + i) = Some (Done (Ok []))
}.
Lemma reader_step m q n t : (settled cs q) -> reader q n t ->
  exists t', cstep m cs t = (m, cs, t') /\ reader q (n + 1) t'.
Proof.
  intros Hs [[-> ->]|[[-> ->]|[Hn ->]]].
  - exists (give (cell_of q)). split; [|right; left; auto]. destruct Hs as [[x Hx]|Hx].
    + destruct q; cbn [access cell_of c_luL c_luU c_luP c_chLT c_chL cstep] in *; rewrite Hx; reflexivity.
    + destruct q; cbn [no_matrix] in Hx; try discriminate Hx; cbn [access cell_of]; unfold c_luL, c_luU, c_luP; cbn [cstep]; rewrite Hx; destruct (cell cs c); reflexivity.
  - exists (Fin (Ok (held (cell cs (cell_of q))))). split; [reflexivity|]. right; right. split; [lia|auto].
  - eexists. split; [reflexivity|]. right; right. split; [lia|auto].
Qed.
Lemma calm_start : calm [] (begin h cs gs qs).
Proof.
  assert (Lm : length (map plain gs) = length gs) by apply map_length.
  split; cbn [begin cmem cells cthreads moves launch memory threads]; auto.
  - unfold idle. rewrite !app_length, !map_length. reflexivity.
  - intros i t Hi E. rewrite nth_error_app1 in E by lia. rewrite nth_error_map in E. destruct (nth_error gs i) as [ts|] eqn:Ei; [|discriminate].
    injection E as <-. exists (go ts []). unfold idle. rewrite nth_error_map, nth_error_app1, Ei by lia. split; [reflexivity|constructor].
  - intros i q Hq. exists (access q). rewrite nth_error_app2, Lm by lia. replace (length gs + i - length gs)%nat with i by lia.
    rewrite nth_error_map, Hq. split; [reflexivity|left; split; reflexivity].
  - intros i Hi. unfold idle. rewrite nth_error_map, nth_error_app2, nth_error_map by lia. replace (length gs + i - length gs)%nat with i by lia.
    destruct (nth_error qs i) eqn:E; [reflexivity|]. apply nth_error_None in E. lia.
Qed.
Lemma calm_move o w i : calm o w -> calm (o ++ [i]) (cmove w i).
Proof.
  intros [C1 C2 C3 C4 C5 C6]. rewrite <- (app_nil_r (o ++ [i])), <- app_assoc. cbn [app].
  destruct (nth_error (cthreads w) i) as [t|] eqn:Et.
  2:{ assert (Hi : (length idle <= i)%nat) by (rewrite <- C3; apply nth_error_None; auto).
      assert (Lq : length idle = (length gs + length qs)%nat) by (unfold idle; rewrite app_length, map_length; auto).
      assert (Eb : moves (launch h idle) (o ++ [i]) = moves (launch h idle) o).
      { rewrite moves_app. cbn [moves]. unfold move.
        assert (forall o w0, length (threads (A := list answer) w0) = length idle -> length (threads (moves w0 o)) = length idle) as LL.
        { induction o0; intros; cbn [moves]; auto. apply IHo0. rewrite length_move. auto. }
        rewrite (proj2 (nth_error_None _ _)); auto. rewrite (LL o); auto. cbn. rewrite map_length. reflexivity. }
      unfold cmove. rewrite Et. split; rewrite ?Eb; auto.
      intros k q Hq. destruct (C5 k q Hq) as (t & E1 & E2). exists t. split; auto. rewrite turns_snoc.
      destruct (Nat.eqb_spec (length gs + k) i) as [<-|]; [congruence|]. rewrite Nat.add_0_r. auto. }
  pose proof (cmove_some w i t Et) as Hm.
  assert (Hi : (i < length idle)%nat) by (rewrite <- C3; apply nth_error_Some; congruence).
  assert (Lq : length idle = (length gs + length qs)%nat) by (unfold idle; rewrite app_length, map_length; auto).
  rewrite C2 in Hm. set (b := moves (launch h idle) o) in *.
  assert (Eb : moves (launch h idle) (o ++ [i]) = move b i) by (rewrite moves_app; reflexivity).
  destruct (le_lt_dec (length gs) i) as [Hg|Hg].
  - assert (Hq : exists q, nth_error qs (i - length gs) = Some q).
    { destruct (nth_error qs (i - length gs)) eqn:E; [eauto|]. apply nth_error_None in E. lia. }
    destruct Hq as [q Hq]. destruct (C5 _ q Hq) as (t0 & E1 & E2). replace (length gs + (i - length gs))%nat with i in * by lia.
    assert (t0 = t) by congruence. subst t0.
    destruct (reader_step (cmem w) q _ t (Hf q (nth_error_In _ _ Hq)) E2) as (t' & S1 & S2). rewrite S1 in Hm. destruct Hm as (M1 & M2 & M3 & M4).
    pose proof (C6 (i - length gs)%nat ltac:(lia)) as Hb. replace (length gs + (i - length gs))%nat with i in Hb by lia.
    destruct (move_at b i _ Hb) as [B1 B2]. cbn [step fst snd] in B1, B2.
    split; rewrite ?Eb; auto; try congruence.
    + intros j tj Hj Ej. rewrite M4 in Ej. rewrite move_other by lia. destruct (Nat.eqb_spec i j); [lia|]. auto.
    + intros j qj Hj. rewrite M4, turns_snoc. destruct (Nat.eqb_spec i (length gs + j)) as [E|E].
      * subst i. replace (length gs + j - length gs)%nat with j in Hq by lia. assert (qj = q) by congruence. subst qj. exists t'. rewrite Nat.eqb_refl. auto.
      * destruct (C5 j qj Hj) as (tj & F1 & F2). exists tj. destruct (Nat.eqb_spec (length gs + j) i); [lia|]. rewrite Nat.add_0_r. auto.
    + intros j Hj. destruct (Nat.eq_dec i (length gs + j)) as [<-|E]; [auto|]. rewrite move_other by auto. auto.
  - destruct (C4 i t Hg Et) as (p & P1 & P2). destruct (mirror_step (cmem w) cs t p P2) as (t' & S1 & S2). rewrite S1 in Hm. destruct Hm as (M1 & M2 & M3 & M4).
    destruct (move_at b i _ P1) as [B1 B2]. rewrite <- C1 in B1, B2.
    split; rewrite ?Eb; auto; try congruence.
    + intros j tj Hj Ej. rewrite M4 in Ej. destruct (Nat.eqb_spec i j) as [<-|E].
      * injection Ej as <-. eexists. split; [exact B1|auto].
      * rewrite move_other by lia. auto.
    + intros j qj Hj. rewrite M4, turns_snoc. destruct (Nat.eqb_spec i (length gs + j)) as [E|E]; [lia|].
      destruct (C5 j qj Hj) as (tj & F1 & F2). exists tj. destruct (Nat.eqb_spec (length gs + j) i); [lia|]. rewrite Nat.add_0_r. auto.
    + intros j Hj. rewrite move_other by lia. auto.
Qed.
Lemma calm_all order : calm order (cmoves (begin h cs gs qs) order).
Proof.
  induction order as [|i order IH] using rev_ind; [apply calm_start|]. rewrite cmoves_snoc. apply calm_move. auto.
Qed.
Lemma idle_ready : ready h gs -> ready h idle.
Proof.
  intros [H1 H2]. split; auto. intros ts c f1 f2 Hin Hc. apply in_app_or in Hin. destruct Hin as [Hin|Hin]; [eauto|].
  apply in_map_iff in Hin. destruct Hin as (_ & <- & _). contradiction.
Qed.
End Filled.

Lemma filled_same h cs gs qs order : ready h gs -> (forall q, In q qs -> settled cs q) ->
  cells (cmoves (begin h cs gs qs) order) = cs /\ only_adds h (cmem (cmoves (begin h cs gs qs) order)).
Proof.
  intros Hr Hf. pose proof (calm_all h cs gs qs Hf order) as C. split; [apply C|]. rewrite (ca_mem _ _ _ _ _ _ C). apply co_shared, idle_ready, Hr.
Qed.
Lemma filled_result h cs gs qs order i q : (forall q, In q qs -> settled cs q) -> nth_error qs i = Some q ->
  (forall r, finished (cmoves (begin h cs gs qs) order) (length gs + i) r -> r = Ok (held (cell cs (cell_of q)))) /\
  ((2 <= turns_of order (length gs + i))%nat -> exists r, finished (cmoves (begin h cs gs qs) order) (length gs + i) r).
Proof.
  intros Hf Hq. pose proof (calm_all h cs gs qs Hf order) as C. destruct (ca_acc _ _ _ _ _ _ C i q Hq) as (t & E1 & E2). unfold finished. rewrite E1.
  destruct E2 as [[-> ->]|[[-> ->]|[Hn ->]]]; split; intros; try lia; try (eexists; reflexivity); try congruence; [destruct q|]; discriminate.
Qed.
Lemma filled_others h cs gs qs order i ts r : ready h gs -> (forall q, In q qs -> settled cs q) ->
  nth_error gs i = Some ts -> finished (cmoves (begin h cs gs qs) order) i r ->
  outcome (cmem (cmoves (begin h cs gs qs) order)) r = outcome (snd (go_alone ts [] h)) (fst (go_alone ts [] h)).
Proof.
  intros Hr Hf Hi He. pose proof (calm_all h cs gs qs Hf order) as C. assert (Li : (i < length gs)%nat) by (apply nth_error_Some; congruence).
  destruct (ca_go _ _ _ _ _ _ C i _ Li He) as (p & P1 & P2). inversion P2; subst. rewrite (ca_mem _ _ _ _ _ _ C).
  eapply co_alone; [apply idle_ready, Hr| |exact P1]. unfold idle. rewrite nth_error_app1 by auto. auto.
Qed.
Lemma filled_clash h cs gs qs order : ready h gs -> (forall q, In q qs -> settled cs q) ->
  ~ clash (cmoves (begin h cs gs qs) order) /\ ~ cell_clash (cmoves (begin h cs gs qs) order).
Proof.
  intros Hr Hf. pose proof (calm_all h cs gs qs Hf order) as C. set (w := cmoves _ _) in *.
  assert (Hs : forall i t, nth_error (cthreads w) i = Some t -> (exists p, nth_error (threads (moves (launch h (idle gs qs)) order)) i = Some p /\ mirror t p) \/
    exists q n, reader cs q n t).
  { intros i t E. destruct (le_lt_dec (length gs) i) as [Hg|Hg]; [right|left; eapply ca_go; eauto].
    assert (Hi : (i < length (idle gs qs))%nat) by (rewrite <- (ca_len _ _ _ _ _ _ C); apply nth_error_Some; congruence).
    unfold idle in Hi. rewrite app_length, map_length in Hi.
    destruct (nth_error qs (i - length gs)) as [q|] eqn:Eq; [|apply nth_error_None in Eq; lia].
    destruct (ca_acc _ _ _ _ _ _ C _ q Eq) as (t0 & E1 & E2). replace (length gs + (i - length gs))%nat with i in * by lia.
    assert (t0 = t) by congruence. subst t0. eauto. }
  assert (Hn : forall i p k, nth_error (cthreads w) i = Some (Sub p k) -> nth_error (threads (moves (launch h (idle gs qs)) order)) i = Some p).
  { intros i p k E. destruct (Hs i _ E) as [(p0 & P1 & P2)|(q & n & [[_ R]|[[_ R]|[_ R]]])].
    - inversion P2; subst; auto.
    - destruct q; discriminate R.
    - discriminate R.
    - discriminate R. }
  split.
  - intros (i & j & p & q & kp & kq & k & a & Hij & E1 & E2 & Ha & Hc & Hu). apply (co_race h (idle gs qs) order (idle_ready h gs qs Hr)).
    exists i, j, p, q, k, a. repeat split; eauto.
  - intros (i & j & c & x & k & q & Hij & E1 & _). destruct (Hs i _ E1) as [(p0 & _ & P2)|(q' & n & [[_ R]|[[_ R]|[_ R]]])]; [inversion P2|destruct q'; discriminate R|discriminate R..].
Qed.

(** ** Cells that are filled with a matrix that is ready *)
Section Publish.
Variable h : heap.
Variable cs0 : list (option HMat).
Variable gs : list (list task).
Variable c : nat.
Variable q : call.
Variable n : nat.
Variable t0 : cprog (list answer).
Hypothesis Hc : (c < length cs0)%nat.
Hypothesis He : cell cs0 c = None.
Hypothesis Hq : forall l, fst (one_alone q h) = Ok l -> exists x, l = [AMat x].
Definition then_give (r : res (list answer)) : cprog (list answer) :=
  match r with
  | Ok [AMat x] => Keep c x (fun _ => give c)
  | Ok _ => Fin (Panic ERuntime)
  | Err e => Fin (Panic e)
  | Panic e => Fin (Panic e)
  end.
(** [Sub (one q)] followed by filling the cell, up to the form of what follows. *)
Definition fills (k : res (list answer) -> cprog (list answer)) : Prop :=
  (forall x, exists u, k (Ok [AMat x]) = Keep c x u /\ u tt = give c) /\
  (forall e, k (Err e) = Fin (Panic e)) /\ (forall e, k (Panic e) = Fin (Panic e)).
Inductive lead : cprog (list answer) -> Prop :=
| ld_end k : fills k -> lead (Sub (one q) k)
| ld_own k : lead (k None) -> (forall x, k (Some x) = give c) -> lead (Look c k)
| ld_other c' k x : c' <> c -> cell cs0 c' = Some x -> lead (k (Some x)) -> lead (Look c' k).
Hypothesis Ht0 : lead t0.
Definition busy : list (list task) := gs ++ repeat [Make q None None] n.
Definition complete (b : world (list answer)) (x : HMat) : Prop :=
  exists j, (length gs <= j)%nat /\ nth_error (threads b) j = Some (Done (Ok [AMat x])).
Inductive state (b : world (list answer)) (cs : list (option HMat)) : cprog (list answer) -> prog (list answer) -> Prop :=
| st_lead t : lead t -> state b cs t (one q)
| st_make p k : fills k -> state b cs (Sub p k) p
| st_keep x u : u tt = give c -> complete b x -> state b cs (Keep c x u) (Done (Ok [AMat x]))
| st_give p x : cell cs c = Some x -> state b cs (give c) p
| st_got p x : complete b x -> state b cs (Fin (Ok [AMat x])) p
| st_fail p e : p = Done (Err e) \/ p = Done (Panic e) -> state b cs (Fin (Panic e)) p.
Record pub (o : list nat) (w : cworld (list answer)) : Prop := {
  pu_mem : cmem w = memory (moves (launch h busy) o);
  pu_len : length (cthreads w) = length busy;
  pu_lenc : length (cells w) = length cs0;
  pu_other : forall c', c' <> c -> cell (cells w) c' = cell cs0 c';
  pu_cell : forall x, cell (cells w) c = Some x -> complete (moves (launch h busy) o) x;
  pu_go : forall i t, (i < length gs)%nat -> nth_error (cthreads w) i = Some t ->
    exists p, nth_error (threads (moves (launch h busy) o)) i = Some p /\ mirror t p;
  pu_acc : forall i t, (length gs <= i)%nat -> nth_error (cthreads w) i = Some t ->
    exists p, nth_error (threads (moves (launch h busy) o)) i = Some p /\ state (moves (launch h busy) o) (cells w) t p
}.
Lemma complete_move b i x : complete b x -> complete (move b i) x.
Proof.
  intros (j & Hj & E). exists j. split; auto. destruct (Nat.eq_dec i j) as [->|Hn]; [|rewrite move_other by auto; auto].
  rewrite (proj1 (move_at b j _ E)). reflexivity.
Qed.
Lemma nth_repeat_some {A} (x : A) k i y : nth_error (repeat x k) i = Some y -> y = x.
Proof. intros H. apply nth_error_In, repeat_spec in H. auto. Qed.
Lemma pub_start : pub [] (mkCW h cs0 (map plain gs ++ repeat t0 n)).
Proof.
  assert (Lm : length (map plain gs) = length gs) by apply map_length.
  split; cbn [cmem cells cthreads moves launch memory threads]; auto.
  - unfold busy. rewrite !app_length, map_length, !repeat_length. reflexivity.
  - intros x Hx. congruence.
  - intros i t Hi E. rewrite nth_error_app1 in E by lia. rewrite nth_error_map in E. destruct (nth_error gs i) as [ts|] eqn:Ei; [|discriminate].
    injection E as <-. exists (go ts []). unfold busy. rewrite nth_error_map, nth_error_app1, Ei by lia. split; [reflexivity|constructor].
  - intros i t Hi E. rewrite nth_error_app2 in E by lia. exists (one q). unfold busy. rewrite nth_error_map, nth_error_app2 by lia. rewrite Lm in E.
    assert (Hl : (i - length gs < n)%nat) by (rewrite <- (repeat_length t0 n); apply nth_error_Some; congruence).
    apply nth_repeat_some in E. subst t.
    destruct (nth_error (repeat [Make q None None] n) (i - length gs)) as [ts|] eqn:Et; [|apply nth_error_None in Et; rewrite repeat_length in Et; lia].
    apply nth_repeat_some in Et. subst ts. split; [reflexivity|constructor; auto].
Qed.
Hypothesis Hr : ready h busy.
Lemma busy_len o : length (threads (moves (launch h busy) o)) = length busy.
Proof.
  assert (forall o w0, length (threads (A := list answer) (moves w0 o)) = length (threads w0)) as LL.
  { induction o0; intros; cbn [moves]; auto. rewrite IHo0, length_move. auto. }
  rewrite LL. cbn. apply map_length.
Qed.
Lemma busy_nth i : (length gs <= i)%nat -> (i < length busy)%nat -> nth_error busy i = Some [Make q None None].
Proof.
  intros H1 H2. unfold busy in *. rewrite nth_error_app2 by auto. rewrite app_length, repeat_length in H2.
  destruct (nth_error (repeat [Make q None None] n) (i - length gs)) as [ts|] eqn:Et; [|apply nth_error_None in Et; rewrite repeat_length in Et; lia].
  apply nth_repeat_some in Et. subst; auto.
Qed.
(** What has been made is one matrix. *)
Lemma made o i r : (length gs <= i)%nat -> nth_error (threads (moves (launch h busy) o)) i = Some (Done r) ->
  like_alone h (memory (moves (launch h busy) o)) q (match r with Err e => Panic e | _ => r end) /\ forall l, r = Ok l -> exists x, l = [AMat x].
Proof.
  intros Hi E. assert (Hi' : (i < length busy)%nat) by (rewrite <- (busy_len o); apply nth_error_Some; congruence).
  pose proof (co_alone h busy o i _ r Hr (busy_nth i Hi Hi') E) as Ho. fold (one_alone q) in Ho.
  destruct (one_alone q h) as [[l0|e|e] h0] eqn:E0; destruct r as [l|e'|e']; cbn [outcome fst snd] in Ho; try discriminate Ho.
  - injection Ho as Ho. split.
    + cbn [like_alone]. exists l0. rewrite E0. auto.
    + intros l1 E1. injection E1 as <-. destruct (Hq l0) as [x ->]; [first [reflexivity|rewrite E0; reflexivity]|].
      destruct l as [|a [|b l]]; try discriminate Ho. cbn [map] in Ho. injection Ho as Ho.
      destruct a, x as [s'|s'|b']; cbn [seen] in Ho; try discriminate Ho; eauto.
  - injection Ho as ->. split; [|intros; discriminate]. cbn [like_alone]. rewrite E0. auto.
  - injection Ho as ->. split; [|intros; discriminate]. cbn [like_alone]. rewrite E0. auto.
Qed.
Lemma put_cell (cs : list (option HMat)) x c' : (c < length cs)%nat -> cell (HeapCo.put cs c (Some x)) c' = if Nat.eqb c c' then Some x else cell cs c'.
Proof.
  intros H. unfold cell. pose proof (nth_put cs c (Some x) c' H) as E. destruct (Nat.eqb_spec c c') as [->|Hn].
  - erewrite nth_error_nth; eauto.
  - destruct (nth_error cs c') eqn:E'; [erewrite nth_error_nth by eauto; erewrite nth_error_nth by eauto; auto|].
    rewrite !nth_overflow; auto; apply nth_error_None; auto.
Qed.
Lemma state_up b cs b' cs' t p : (forall x, complete b x -> complete b' x) -> (forall x, cell cs c = Some x -> exists y, cell cs' c = Some y) ->
  state b cs t p -> state b' cs' t p.
Proof.
  intros H1 H2 [t' A|p' k A|x u A B|p' x A|p' x A|p' e A]; try (constructor; auto; fail).
  - destruct (H2 x A) as [y Hy]. econstructor; eauto.
Qed.
(** One action of an accessor: the common memory without cells does nothing or the
    same. *)
Lemma pub_move o w i : pub o w -> exists o', pub o' (cmove w i).
Proof.
  intros [C1 C2 Cc C3 C4 C5 C6]. destruct (nth_error (cthreads w) i) as [t|] eqn:Et.
  2:{ exists o. unfold cmove. rewrite Et. split; auto. }
  pose proof (cmove_some w i t Et) as Hm. set (b := moves (launch h busy) o) in *.
  assert (Eb : moves (launch h busy) (o ++ [i]) = move b i) by (rewrite moves_app; reflexivity).
  (* the base moves with it *)
  assert (Go : forall p t', nth_error (threads b) i = Some p -> cstep (cmem w) (cells w) t = (fst (step (cmem w) p), cells w, t') ->
    ((i < length gs)%nat -> mirror t' (snd (step (cmem w) p))) ->
    ((length gs <= i)%nat -> state (move b i) (cells w) t' (snd (step (cmem w) p))) -> pub (o ++ [i]) (cmove w i)).
  { intros p t' P1 S1 S2 S3. rewrite S1 in Hm. destruct Hm as (M1 & M2 & M3 & M4). destruct (move_at b i p P1) as [B1 B2]. rewrite <- C1 in B1, B2.
    split; rewrite ?Eb, ?M2; auto; try congruence.
    - intros x Hx. apply complete_move. auto.
    - intros j tj Hj Ej. rewrite M4 in Ej. destruct (Nat.eqb_spec i j) as [<-|E].
      + injection Ej as <-. eauto.
      + rewrite move_other by lia. auto.
    - intros j tj Hj Ej. rewrite M4 in Ej. destruct (Nat.eqb_spec i j) as [<-|E].
      + injection Ej as <-. eauto.
      + rewrite move_other by lia. destruct (C6 j tj Hj Ej) as (p' & F1 & F2). exists p'. split; auto.
        eapply state_up; [intros x Hx; apply complete_move, Hx|eauto|exact F2]. }
  (* the base stays *)
  assert (Stay : forall p t' cs', nth_error (threads b) i = Some p -> cstep (cmem w) (cells w) t = (cmem w, cs', t') -> (length gs <= i)%nat ->
    state b cs' t' p -> length cs' = length cs0 -> (forall c', c' <> c -> cell cs' c' = cell cs0 c') -> (forall x, cell cs' c = Some x -> complete b x) ->
    (forall x, cell (cells w) c = Some x -> exists y, cell cs' c = Some y) -> pub o (cmove w i)).
  { intros p t' cs' P1 S1 Hi S3 K0 K1 K2 K3. rewrite S1 in Hm. destruct Hm as (M1 & M2 & M3 & M4). split; rewrite ?M2; auto; try congruence.
    - rewrite M1. exact C1.
    - intros j tj Hj Ej. rewrite M4 in Ej. destruct (Nat.eqb_spec i j) as [<-|E]; [lia|]. auto.
    - intros j tj Hj Ej. rewrite M4 in Ej. destruct (Nat.eqb_spec i j) as [<-|E].
      + injection Ej as <-. eauto.
      + destruct (C6 j tj Hj Ej) as (p' & F1 & F2). exists p'. split; auto. eapply (state_up b (cells w)); [intros x Hx; exact Hx|exact K3|exact F2]. }
  destruct (le_lt_dec (length gs) i) as [Hg|Hg].
  2:{ destruct (C5 i t Hg Et) as (p & P1 & P2). destruct (mirror_step (cmem w) (cells w) t p P2) as (t' & S1 & S2). exists (o ++ [i]).
      eapply Go; eauto. lia. }
  destruct (C6 i t Hg Et) as (p & P1 & P2).
  assert (Sub' : forall p k, fills k -> t = Sub p k -> nth_error (threads b) i = Some p -> exists o', pub o' (cmove w i)).
  { intros p1 k A -> Q1. destruct (sub_step (cmem w) (cells w) p1 k) as [(r & -> & S1)|S1].
    - exists o. apply (Stay (Done r) (k r) (cells w) Q1 S1 Hg); auto; eauto. destruct (made o i r Hg Q1) as [_ Hl]. destruct A as (A1 & A2 & A3).
      destruct r as [l|e|e].
      + destruct (Hl l eq_refl) as [x ->]. destruct (A1 x) as (u & -> & U). constructor; auto. exists i. auto.
      + rewrite A2. constructor. auto.
      + rewrite A3. constructor. auto.
    - exists (o ++ [i]). apply (Go p1 _ Q1 S1); [lia|]. intros _. constructor. auto. }
  inversion P2 as [t' A E1 E2|p' k A E1 E2|x u A B E1 E2|p' x A E1 E2|p' x A E1 E2|p' e A E1 E2]; subst.
  - inversion A as [k A' E|k A1 A2 E|c' k x A1 A2 A3 E]; subst.
    + eapply Sub'; eauto.
    + exists o. assert (Ec : (exists x, cell (cells w) c = Some x) \/ cell (cells w) c = None) by (destruct (cell (cells w) c); eauto).
      destruct Ec as [[x Ec]|Ec].
      * apply (Stay (one q) (k (Some x)) (cells w) P1); auto; [cbn [cstep]; rewrite Ec; reflexivity| |eauto].
        rewrite A2. apply (st_give _ _ _ x). auto.
      * apply (Stay (one q) (k None) (cells w) P1); auto; [cbn [cstep]; rewrite Ec; reflexivity|constructor; auto|eauto].
    + exists o. apply (Stay (one q) (k (Some x)) (cells w) P1); auto; [cbn [cstep]; rewrite C3, A2 by auto; reflexivity|constructor; auto|eauto].
  - eapply Sub'; eauto.
  - exists o. assert (Lc : (c < length (cells w))%nat) by lia.
    apply (Stay (Done (Ok [AMat x])) (u tt) (HeapCo.put (cells w) c (Some x)) P1); auto.
    + rewrite A. apply (st_give _ _ _ x). rewrite put_cell, Nat.eqb_refl by auto. reflexivity.
    + rewrite length_put; auto.
    + intros c' Hc'. rewrite put_cell by auto. destruct (Nat.eqb_spec c c'); [congruence|auto].
    + intros y. rewrite put_cell, Nat.eqb_refl by auto. intros E. injection E as <-. auto.
    + intros y _. rewrite put_cell, Nat.eqb_refl by auto. eauto.
  - exists o. apply (Stay p (Fin (Ok (held (Some x)))) (cells w) P1); eauto; [cbn [give cstep]; rewrite A; reflexivity|constructor; auto].
  - exists o. apply (Stay p (Fin (Ok [AMat x])) (cells w) P1 eq_refl Hg); eauto; constructor; auto.
  - exists o. apply (Stay p (Fin (Panic e)) (cells w) P1 eq_refl Hg); eauto; constructor; auto.
Qed.
Lemma pub_all order : exists o, pub o (cmoves (mkCW h cs0 (map plain gs ++ repeat t0 n)) order).
Proof.
  induction order as [|i order IH] using rev_ind; [eexists; apply pub_start|]. rewrite cmoves_snoc. destruct IH as [o IH]. eapply pub_move; eauto.
Qed.
Lemma pub_result order i r : finished (cmoves (mkCW h cs0 (map plain gs ++ repeat t0 n)) order) (length gs + i) r ->
  like_alone h (cmem (cmoves (mkCW h cs0 (map plain gs ++ repeat t0 n)) order)) q r.
Proof.
  intros Hf. destruct (pub_all order) as [o P]. destruct (pu_acc _ _ P (length gs + i)%nat _ ltac:(lia) Hf) as (p & P1 & P2). rewrite (pu_mem _ _ P).
  inversion P2 as [t' A E1 E2|p' k A E1 E2|x u A B E1 E2|p' x A E1 E2|p' x A E1 E2|p' e A E1 E2]; subst.
  - inversion A.
  - destruct A as (j & Hj & E). apply (made o j _ Hj E).
  - destruct A as [->| ->]; [apply (made o (length gs + i)%nat (Err e) ltac:(lia) P1)|apply (made o (length gs + i)%nat (Panic e) ltac:(lia) P1)].
Qed.
Lemma pub_clash order : ~ clash (cmoves (mkCW h cs0 (map plain gs ++ repeat t0 n)) order).
Proof.
  intros (i & j & p & s & kp & kq & k & a & Hij & E1 & E2 & Ha & Hx & Hu). destruct (pub_all order) as [o P]. apply (co_race h busy o Hr).
  assert (Hn : forall i p k, nth_error (cthreads (cmoves (mkCW h cs0 (map plain gs ++ repeat t0 n)) order)) i = Some (Sub p k) ->
    nth_error (threads (moves (launch h busy) o)) i = Some p).
  { intros i0 p0 k0 E. destruct (le_lt_dec (length gs) i0) as [Hg|Hg].
    - destruct (pu_acc _ _ P _ _ Hg E) as (p' & P1 & P2). inversion P2; subst; auto. match goal with H : lead _ |- _ => inversion H; subst; auto end.
    - destruct (pu_go _ _ P _ _ Hg E) as (p' & P1 & P2). inversion P2; subst; auto. }
  exists i, j, p, s, k, a. repeat split; eauto.
Qed.
Lemma pub_keeps order : only_adds h (cmem (cmoves (mkCW h cs0 (map plain gs ++ repeat t0 n)) order)).
Proof. destruct (pub_all order) as [o P]. rewrite (pu_mem _ _ P). apply co_shared, Hr. Qed.
Lemma pub_others order i ts r : nth_error gs i = Some ts -> finished (cmoves (mkCW h cs0 (map plain gs ++ repeat t0 n)) order) i r ->
  outcome (cmem (cmoves (mkCW h cs0 (map plain gs ++ repeat t0 n)) order)) r = outcome (snd (go_alone ts [] h)) (fst (go_alone ts [] h)).
Proof.
  intros Hi Hf. destruct (pub_all order) as [o P]. assert (Li : (i < length gs)%nat) by (apply nth_error_Some; congruence).
  destruct (pu_go _ _ P _ _ Li Hf) as (p & P1 & P2). inversion P2; subst. rewrite (pu_mem _ _ P). eapply co_alone; [exact Hr| |exact P1].
  unfold busy. rewrite nth_error_app1 by auto. auto.
Qed.
End Publish.

(** ** The accessors of the Cholesky decomposition *)
Lemma busy_ready h gs q n : ready h gs -> call_in h q -> ready h (busy gs q n).
Proof.
  intros [H1 H2] Hq. split; auto. intros ts c f1 f2 Hin Hc. apply in_app_or in Hin. destruct Hin as [Hin|Hin]; [eauto|].
  apply repeat_spec in Hin. subst ts. destruct Hc as [Hc|[]]. injection Hc as <- _ _. auto.
Qed.
Lemma slices_mat lT h l : fst (one_alone (CFromSlices lT) h) = Ok l -> exists x, l = [AMat x].
Proof.
  unfold one_alone. cbn [go_alone alone the_call pick app]. unfold mbind, ret.
  destruct (h_NewRealMatrixFromSlices lT h) as [[d|e|e] h']; cbn; intros E; try discriminate. injection E as <-. eauto.
Qed.
Lemma transpose_mat x h l : fst (one_alone (CTranspose x) h) = Ok l -> exists x, l = [AMat x].
Proof.
  unfold one_alone. cbn [go_alone alone the_call pick app]. unfold mbind, ret.
  destruct (hm_Transpose x h) as [[d|e|e] h']; cbn; intros E; try discriminate. injection E as <-. eauto.
Qed.
Lemma lead_LT cs c lT : lead cs c (CFromSlices lT) (c_chLT c lT).
Proof.
  unfold c_chLT. apply ld_own.
  - cbn [cbind fill]. apply ld_end. split; [|split; reflexivity]. intros x. eexists. split; reflexivity.
  - intros x. reflexivity.
Qed.
Lemma lead_L cs c c' lT x : c' <> c -> cell cs c' = Some x -> lead cs c (CTranspose x) (c_chL c c' lT).
Proof.
  intros Hn Hx. unfold c_chL. apply ld_own; [|reflexivity].
  cbn [cbind c_chLT]. apply (ld_other _ _ _ _ _ x); auto. cbn [cbind give]. apply (ld_other _ _ _ _ _ x); auto. cbn [cbind held fill].
  apply ld_end. split; [|split; reflexivity]. intros y. eexists. split; reflexivity.
Qed.
Lemma begin_repeat h cs gs q n : begin h cs gs (repeat q n) = mkCW h cs (map plain gs ++ repeat (access q) n).
Proof. unfold begin. do 2 f_equal. induction n; cbn; congruence. Qed.
Lemma LT_all h cs gs c lT n order : ready h gs -> exists_in h (OM lT) -> (c < length cs)%nat -> cell cs c = None ->
  let w := cmoves (begin h cs gs (repeat (ChLT c lT) n)) order in
  (forall i r, finished w (length gs + i) r -> like_alone h (cmem w) (CFromSlices lT) r) /\
  only_adds h (cmem w) /\ ~ clash w /\
  (forall i ts r, nth_error gs i = Some ts -> finished w i r -> outcome (cmem w) r = outcome (snd (go_alone ts [] h)) (fst (go_alone ts [] h))).
Proof.
  intros Hr Hl Hc He w. unfold w. rewrite begin_repeat. cbn [access].
  pose proof (busy_ready h gs (CFromSlices lT) n Hr Hl) as Hb. pose proof (slices_mat lT h) as Hm. pose proof (lead_LT cs c lT) as Ht.
  repeat split.
  - intros i r. eapply pub_result; eauto.
  - eapply pub_keeps; eauto.
  - eapply pub_clash; eauto.
  - intros i ts r. eapply pub_others; eauto.
Qed.
Lemma L_all h cs gs c c' lT x n order : ready h gs -> mat_in h x -> (c < length cs)%nat -> c' <> c -> cell cs c = None -> cell cs c' = Some x ->
  let w := cmoves (begin h cs gs (repeat (ChL c c' lT) n)) order in
  (forall i r, finished w (length gs + i) r -> like_alone h (cmem w) (CTranspose x) r) /\
  only_adds h (cmem w) /\ ~ clash w /\
  (forall i ts r, nth_error gs i = Some ts -> finished w i r -> outcome (cmem w) r = outcome (snd (go_alone ts [] h)) (fst (go_alone ts [] h))).
Proof.
  intros Hr Hl Hc Hn He Hx w. unfold w. rewrite begin_repeat. cbn [access].
  pose proof (busy_ready h gs (CTranspose x) n Hr Hl) as Hb. pose proof (transpose_mat x h) as Hm. pose proof (lead_L cs c c' lT x Hn Hx) as Ht.
  repeat split.
  - intros i r. eapply pub_result; eauto.
  - eapply pub_keeps; eauto.
  - eapply pub_clash; eauto.
  - intros i ts r. eapply pub_others; eauto.
Qed.

(** ** Reading off what a goroutine has come to *)
Definition got (w : cworld (list answer)) (i : nat) : option (list (list F)) :=
  match nth_error (cthreads w) i with
  | Some (Fin (Ok l)) => match map (seen (cmem w)) l with [SArr2 (_, _, o)] => Some (map snd o) | _ => None end
  | _ => None
  end.
Lemma got_finished w i v : got w i = Some v -> exists l, finished w i (Ok l) /\
  forall w' i' l' v', finished w' i' (Ok l') -> got w' i' = Some v' -> map (seen (cmem w)) l = map (seen (cmem w')) l' -> v = v'.
Proof.
  unfold got, finished. intros H. destruct (nth_error (cthreads w) i) as [[[l|e|e]|p k|c k|c x k]|]; try discriminate.
  exists l. split; auto. intros w' i' l' v' E H' Em. rewrite E in H'. rewrite Em in H. congruence.
Qed.
Definition table_of (w : cworld (list answer)) (i : nat) : option slice :=
  match nth_error (cthreads w) i with Some (Fin (Ok [AMat (HA o)])) => Some o | _ => None end.
Lemma table_finished w i o : table_of w i = Some o -> finished w i (Ok [AMat (HA o)]).
Proof.
  unfold table_of, finished. destruct (nth_error (cthreads w) i) as [[[[|[x|s|s|[s|s|s]|s|s|s|s|s] [|a l]]|e|e]|p k|c k|c x k]|]; try discriminate. congruence.
Qed.
Definition about (w : cworld (list answer)) (i : nat) : option (bool * nat) :=
  match nth_error (cthreads w) i with Some (Look c _) => Some (false, c) | Some (Keep c _ _) => Some (true, c) | _ => None end.
Lemma about_clash w i j b c : i <> j -> about w i = Some (true, c) -> about w j = Some (b, c) -> cell_clash w.
Proof.
  unfold about. intros Hij Hi Hj. destruct (nth_error (cthreads w) i) as [[r|p k|c1 k|c1 x k]|] eqn:Ei; try discriminate. injection Hi as ->.
  destruct (nth_error (cthreads w) j) as [q|] eqn:Ej; [|discriminate]. exists i, j, c, x, k, q. repeat split; auto.
  destruct q; try discriminate; injection Hj; cbn; auto.
Qed.
Definition array_at (w : cworld (list answer)) (i : nat) : option (bool * Z) :=
  match nth_error (cthreads w) i with
  | Some (Sub (RdF s _ _) _) => Some (false, sl_arr s)
  | Some (Sub (WrF s _ _ _) _) => Some (true, sl_arr s)
  | _ => None
  end.
Lemma array_clash w i j b a : i <> j -> 0 <= a -> array_at w i = Some (true, a) -> array_at w j = Some (b, a) -> clash w.
Proof.
  unfold array_at. intros Hij Ha Hi Hj. destruct (nth_error (cthreads w) i) as [[r|p k|c1 k|c1 x k]|] eqn:Ei; try discriminate. destruct p; try discriminate.
  destruct (nth_error (cthreads w) j) as [[r|p' k'|c1 k'|c1 x' k']|] eqn:Ej; try discriminate.
  destruct p'; try discriminate; exists i, j; do 4 eexists; exists KF, a; (split; [exact Hij|]); (split; [exact Ei|]); (split; [exact Ej|]); cbn; split; auto; split; congruence.
Qed.
End Facts.

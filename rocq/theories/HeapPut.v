(** What writes of many entries of a matrix leave in memory. *)
From Coq Require Import ZArith List Lia Bool.
From Verif Require Import Base BaseLemmas Scalar Matrix MatSpec MatFacts BlockFacts2 Heap HeapBlk HeapSpec HeapPutSpec HeapAtomSpec HeapFacts HeapSim HeapSim2 HeapSim4 HeapVec HeapMain HeapProps HeapAtom HeapAtomBlk.
Import ListNotations.
Open Scope Z_scope.

Section Put.
Context {O : Ops}.
(** ** Entry (i, j) of an [r] by [c] table is place [cK i j] of array [cA i j] *)
Record cells := mkCells { c_r : Z; c_c : Z; cA : Z -> Z -> Z; cK : Z -> Z -> Z }.
Definition inr (C : cells) (i j : Z) : Prop := 0 <= i < c_r C /\ 0 <= j < c_c C.
Definition cinj (C : cells) : Prop := forall i j i' j', inr C i j -> inr C i' j' -> cA C i j = cA C i' j' -> cK C i j = cK C i' j' -> i = i' /\ j = j'.
Definition cval (C : cells) (h : heap) (f : Z -> Z -> F) : Prop := forall i j, inr C i j -> slot h (cA C i j) (cK C i j) = Ok (f i j).
(** The entries in [P] have received the values [v], and no others. *)
Definition put (C : cells) (v : Z -> Z -> F) (h0 : heap) (P : Z -> Z -> bool) (h : heap) : Prop :=
  live h0 h /\ (forall i j, inr C i j -> P i j = true -> slot h (cA C i j) (cK C i j) = Ok (v i j)) /\
  (forall a k, (forall i j, inr C i j -> P i j = true -> ~ (a = cA C i j /\ k = cK C i j)) -> slot h a k = slot h0 a k).
Lemma goes_and {A} (m : M A) h Q1 Q2 : goes m h Q1 -> goes m h Q2 -> goes m h (fun a h' => Q1 a h' /\ Q2 a h').
Proof. intros (a & h1 & R1 & H1) (a' & h1' & R1' & H1'). unfold runs in *. rewrite R1 in R1'. injection R1' as <- <-. exists a, h1. auto. Qed.
Lemma put_refl C v h0 : put C v h0 (fun _ _ => false) h0.
Proof. split; [apply live_refl|]. split; intros; [discriminate|reflexivity]. Qed.
Lemma put_ext C v h0 P Q h : (forall i j, inr C i j -> P i j = Q i j) -> put C v h0 P h -> put C v h0 Q h.
Proof.
  intros E (H1 & H2 & H3). split; [auto|]. split.
  - intros i j Hr HQ. apply H2; auto. rewrite E; auto.
  - intros a k H. apply H3. intros i j Hr HP. apply H; auto. rewrite <- E; auto.
Qed.
Lemma put_val C v h0 P h f : cval C h0 f -> cinj C -> put C v h0 P h -> cval C h (fun i j => if P i j then v i j else f i j).
Proof.
  intros Hf Hi (_ & H2 & H3) i j Hr. destruct (P i j) eqn:EP; [apply H2; auto|].
  rewrite H3; [apply Hf; auto|]. intros i' j' Hr' HP' [Ea Ek]. destruct (Hi _ _ _ _ Hr Hr' Ea Ek) as [-> ->]. congruence.
Qed.
(** The [n] entries [(i, j0)], ..., taken from [s[k]], ... *)
Lemma put_copyrange C v h0 P Q h i j0 n d x s k : cinj C -> put C v h0 P h -> 1 <= n -> 0 <= i < c_r C -> 0 <= j0 -> j0 + n <= c_c C ->
  inheap h0 d -> 0 <= x -> x + n <= sl_len d -> (forall t, 0 <= t < n -> cA C i (j0 + t) = sl_arr d /\ cK C i (j0 + t) = sl_off d + (x + t)) ->
  inheap h0 s -> 0 <= k -> k + n <= sl_len s -> (forall t, 0 <= t < n -> slot h (sl_arr s) (sl_off s + (k + t)) = Ok (v i (j0 + t))) ->
  (forall i' j', inr C i' j' -> (Q i' j' = true <-> P i' j' = true \/ (i' = i /\ j0 <= j' < j0 + n))) ->
  goes (copyrange d x (x + n) s k (k + n)) h (fun _ => put C v h0 Q).
Proof.
  intros Inj (L & H2 & H3) Hn Hi Hj0 Hj Hd Hx Hxn Hc Hs Hk Hkn Hv HQ.
  pose proof (live_copyrange h0 h d x n s k L Hd Hs Hn Hx Hxn Hk Hkn) as G1.
  pose proof (live_inheap _ _ _ L Hd) as Hd'. pose proof (live_inheap _ _ _ L Hs) as Hs'.
  assert (G2 : goes (copyrange d x (x + n) s k (k + n)) h (fun _ h' =>
    (forall i j, inr C i j -> Q i j = true -> slot h' (cA C i j) (cK C i j) = Ok (v i j)) /\
    (forall a k, (forall i j, inr C i j -> Q i j = true -> ~ (a = cA C i j /\ k = cK C i j)) -> slot h' a k = slot h0 a k))).
  2:{ destruct (goes_and _ _ _ _ G1 G2) as (u & h' & R & L' & Q1 & Q2). exists u, h'. split; [exact R|]. split; [exact L'|]. split; assumption. }
  unfold copyrange.
  assert (R : forall t i, inheap h t -> 0 <= i -> i + n <= sl_len t -> runs (reslice t i (i + n)) h (mkSl (sl_arr t) (sl_off t + i) (i + n - i) (sl_cap t - i)) h).
  { intros t j (_ & Hcp & _) Q1 Q2. unfold runs, reslice. rewrite (proj2 (Z.leb_le 0 j)), (proj2 (Z.leb_le j (j + n))), (proj2 (Z.leb_le (j + n) (sl_cap t))) by lia. reflexivity. }
  eapply g_step; [apply R; auto|]. eapply g_step; [apply R; auto|]. cbv beta.
  pose proof (sub_slice h d x n Hd' Hx ltac:(lia) Hxn) as D1. pose proof (sub_slice h s k n Hs' Hk ltac:(lia) Hkn) as S1.
  destruct (gocopy_slot h _ _ D1 S1 ltac:(cbn; lia) ltac:(cbn; lia)) as (h' & R' & E & H'). cbn in H'. eapply g_runs; [exact R'|]. split.
  - intros i' j' Hr HP. apply HQ in HP; [|auto]. destruct HP as [HP|[-> Hj']].
    + rewrite H'. destruct (_ && _) eqn:Eb; [|apply H2; auto]. rewrite !andb_true_iff, Z.eqb_eq, Z.leb_le, Z.ltb_lt in Eb.
      set (t := cK C i' j' - (sl_off d + x)). destruct (Hc t ltac:(unfold t; lia)) as [Ca Ck].
      destruct (Inj i' j' i (j0 + t) Hr ltac:(split; unfold t in *; lia) ltac:(lia) ltac:(unfold t in *; lia)) as [Ei Ej].
      replace (sl_off s + k + t) with (sl_off s + (k + t)) by lia. rewrite Hv by (unfold t; lia). rewrite <- Ej, Ei. reflexivity.
    + destruct (Hc (j' - j0) ltac:(lia)) as [Ca Ck]. replace (j0 + (j' - j0)) with j' in * by lia. rewrite H', Ca, Ck.
      rewrite Z.eqb_refl, (proj2 (Z.leb_le _ _)), (proj2 (Z.ltb_lt _ _)) by lia. cbn.
      replace (sl_off s + k + (sl_off d + (x + (j' - j0)) - (sl_off d + x))) with (sl_off s + (k + (j' - j0))) by lia. rewrite Hv by lia. do 2 f_equal. lia.
  - intros a q H. rewrite H'. destruct (_ && _) eqn:Eb; [|apply H3; intros; apply H; auto; apply HQ; auto]. rewrite !andb_true_iff, Z.eqb_eq, Z.leb_le, Z.ltb_lt in Eb.
    exfalso. set (t := q - (sl_off d + x)). destruct (Hc t ltac:(unfold t; lia)) as [Ca Ck].
    assert (Hr : inr C i (j0 + t)) by (split; unfold t; lia). apply (H i (j0 + t)); [exact Hr|apply HQ; [exact Hr|right; split; unfold t; lia]|]. rewrite Ca, Ck. unfold t. lia.
Qed.
(** One entry. *)
Lemma put_wrF C v h0 P Q h i j d x : cinj C -> put C v h0 P h -> inr C i j -> inheap h0 d -> 0 <= x < sl_len d -> cA C i j = sl_arr d -> cK C i j = sl_off d + x ->
  (forall i' j', inr C i' j' -> (Q i' j' = true <-> P i' j' = true \/ (i' = i /\ j' = j))) ->
  goes (wrF d x (v i j)) h (fun _ => put C v h0 Q).
Proof.
  intros Inj (L & H2 & H3) Hr Hd Hx Ca Ck HQ. pose proof (live_wrF h0 h d x (v i j) L Hd Hx) as G1. destruct (live_inheap _ _ _ L Hd) as (_ & _ & Hd').
  destruct (Hd' x Hx) as (y & Ey). destruct (wrF_slot h d x (v i j) y Hx Ey) as (h' & W & Es & H').
  destruct G1 as (u & h1 & R1 & L'). unfold runs in *. rewrite W in R1. injection R1 as <- <-. exists tt, h'. split; [exact W|]. split; [exact L'|]. split.
  - intros i' j' Hr' HP. rewrite H'. destruct (_ && _) eqn:Eb.
    + rewrite andb_true_iff, !Z.eqb_eq in Eb. destruct (Inj i' j' i j Hr' Hr ltac:(lia) ltac:(lia)) as [-> ->]. reflexivity.
    + apply HQ in HP; [|auto]. destruct HP as [HP|[-> ->]]; [apply H2; auto|]. rewrite Ca, Ck, !Z.eqb_refl in Eb. discriminate.
  - intros a q H. rewrite H'. destruct (_ && _) eqn:Eb; [|apply H3; intros; apply H; auto; apply HQ; auto]. rewrite andb_true_iff, !Z.eqb_eq in Eb.
    exfalso. apply (H i j Hr); [apply HQ; auto|lia].
Qed.

(** ** The cells of a dense matrix *)
Definition rowh (h : heap) (o : slice) (i : Z) : slice := match rdS o i h with (Ok s, _) => s | _ => nilsl end.
#[local] Arguments rowh : simpl never.
Definition dcells (h : heap) (o : slice) (r c : Z) : cells := mkCells r c (fun i _ => sl_arr (rowh h o i)) (fun i j => sl_off (rowh h o i) + j).
Lemma HTab_rows h a r c f : HTab h a r c f -> sl_arr a <> -1 /\ sl_len a = r /\ 0 <= sl_off a /\ 1 <= r /\ 1 <= c /\
  (forall i, 0 <= i < r -> rdS a i h = (Ok (rowh h a i), h) /\ inheap h (rowh h a i) /\ sl_len (rowh h a i) = c) /\ cval (dcells h a r c) h f.
Proof.
  intros (Hn & Hr & Hc & d & HM & HR & Hv). pose proof HM as (HF & Hl & Ho). destruct HR as [HR1 HR2].
  assert (W : forall i, 0 <= i < r -> exists w, zget d i = Ok w /\ len w = c /\ rdS a i h = (Ok (rowh h a i), h) /\ VRep h (rowh h a i) w).
  { intros i Hi. destruct (zget_some d i ltac:(lia)) as (w & Ew). destruct (runs_rdS _ _ _ _ _ HM Ew) as (s & Rs & HV). unfold runs in Rs. exists w. split; [auto|].
    assert (Es : rowh h a i = s) by (unfold rowh; rewrite Rs; reflexivity). rewrite Es. split; [|split; auto]. specialize (HR2 i Hi). rewrite zget_ok in Ew by lia. congruence. }
  split; [auto|]. split; [lia|]. split; [auto|]. split; [auto|]. split; [auto|]. split.
  - intros i Hi. destruct (W i Hi) as (w & Ew & El & Rs & HV). split; [auto|]. split; [eapply VRep_inheap; eauto|]. destruct HV as (_ & E & _). lia.
  - intros i j [Hi Hj]. cbn in *. destruct (W i Hi) as (w & Ew & El & Rs & HV). eapply VRep_slots; eauto. pose proof (Hv i j Hi Hj) as E. unfold mget in E. rewrite Ew in E. exact E.
Qed.

Lemma zget_map {A B} (g : A -> B) l i x : zget l i = Ok x -> zget (map g l) i = Ok (g x).
Proof. intros E. apply zget_nth in E. destruct E as [Hi E]. apply zget_nth. split; [auto|]. rewrite nth_error_map, E. reflexivity. Qed.
Lemma MRep_of h0 h o d : MRep h0 o d -> live h0 h -> MRep h o (map (cont h) (heads h o)).
Proof.
  intros (HF & Hl & Ho) L. pose proof L as [Es _]. assert (Eh : heads h o = heads h0 o) by (unfold heads; rewrite Es; reflexivity). rewrite Eh. split; [|split].
  - rewrite Eh. clear Hl Eh. induction HF as [|s w ls ws HV HF IH]; cbn; constructor; auto. pose proof (VRep_inheap _ _ _ HV) as Hi. destruct HV as (_ & E & H1 & H2).
    split; [reflexivity|]. rewrite cont_len; [auto|eapply live_inheap; eauto|rewrite E; apply len_nonneg].
  - rewrite len_map. rewrite Hl. apply Forall2_len in HF. congruence.
  - exact Ho.
Qed.
Lemma MRep_of_get h0 h o d i s : MRep h0 o d -> live h0 h -> rdS o i h0 = (Ok s, h0) -> zget (map (cont h) (heads h o)) i = Ok (cont h s).
Proof.
  intros HM L E. pose proof L as [Es _]. assert (Eh : heads h o = heads h0 o) by (unfold heads; rewrite Es; reflexivity). rewrite Eh.
  assert (Hi : 0 <= i < sl_len o). { unfold rdS in E. destruct (inb i (sl_len o)) eqn:Eb; [apply inb_true; auto|discriminate]. }
  pose proof HM as (HF & Hl & Ho). destruct (zget_some d i ltac:(lia)) as (w & Ew). destruct (Forall2_zget _ _ _ _ _ HF Ew) as (s' & Es' & _).
  destruct (runs_rdS _ _ _ _ _ HM Ew) as (s2 & R2 & _). unfold runs in R2. rewrite E in R2. injection R2 as <-.
  assert (Ess : s' = s). { destruct (window_get (hs h0) o (heads h0 o) i s' eq_refl) as (A & HA & Hx); auto. { apply Forall2_len in HF. lia. }
    unfold rdS in E. rewrite (proj2 (inb_true _ _) Hi), HA in E. cbn in E. rewrite Hx in E. congruence. }
  subst s'. apply zget_map. exact Es'.
Qed.
Lemma slot_cont h s j x : inheap h s -> 0 <= j < sl_len s -> slot h (sl_arr s) (sl_off s + j) = Ok x -> zget (cont h s) j = Ok x.
Proof. intros. rewrite cont_get; auto. Qed.
Lemma HTab_of h0 h a r c f g : HTab h0 a r c f -> live h0 h -> cval (dcells h0 a r c) h g -> HTab h a r c g.
Proof.
  intros H L Hg. destruct (HTab_rows _ _ _ _ _ H) as (Hn & Hl & Ho & Hr & Hc & Hrow & _). pose proof H as (_ & _ & _ & d & HM & HR & _).
  split; [auto|]. split; [auto|]. split; [auto|]. exists (map (cont h) (heads h a)). pose proof (MRep_of _ _ _ _ HM L) as HM'. split; [auto|].
  assert (W : forall i, 0 <= i < r -> zget (map (cont h) (heads h a)) i = Ok (cont h (rowh h0 a i)) /\ len (cont h (rowh h0 a i)) = c).
  { intros i Hi. destruct (Hrow i Hi) as (E & I1 & El). split; [exact (MRep_of_get _ _ _ _ _ _ HM L E)|]. pose proof (cont_len h (rowh h0 a i) (live_inheap _ _ _ L I1) ltac:(lia)). lia. }
  split; [split|].
  - destruct HM' as (_ & E & _). lia.
  - intros i Hi. destruct (W i Hi) as [E1 E2]. rewrite zget_ok in E1 by (destruct HM' as (_ & E & _); lia). injection E1 as ->. exact E2.
  - intros i j Hi Hj. destruct (W i Hi) as [E1 E2]. unfold mget. rewrite E1. cbn. destruct (Hrow i Hi) as (E & I1 & El).
    apply slot_cont; [exact (live_inheap _ _ _ L I1)|lia|]. apply (Hg i j). split; auto.
Qed.
Lemma dcells_inj h a r c f : HTab h a r c f -> own_rows h a -> cinj (dcells h a r c).
Proof.
  intros H Hown i j i' j' [Hi Hj] [Hi' Hj'] Ea Ek. cbn in *. destruct (HTab_rows _ _ _ _ _ H) as (_ & _ & _ & _ & _ & Hrow & _).
  destruct (Hrow i Hi) as (E & I1 & El). destruct (Hrow i' Hi') as (E' & I1' & El'). destruct (Z.eq_dec i i') as [->|N]; [split; lia|].
  destruct (Hown i i' _ _ N E E') as [Q|[Q|Q]]; [contradiction|lia|lia].
Qed.
Lemma cont_same h0 h t : live h0 h -> inheap h0 t -> (forall j, 0 <= j < sl_len t -> slot h (sl_arr t) (sl_off t + j) = slot h0 (sl_arr t) (sl_off t + j)) -> cont h t = cont h0 t.
Proof.
  intros L Hi Hs. pose proof (live_inheap _ _ _ L Hi) as Hi'. destruct (Z_le_gt_dec 0 (sl_len t)) as [Hl|Hl].
  - apply list_ext; [rewrite !cont_len; auto|]. intros j Hj. rewrite cont_len in Hj by auto. pose proof (Hs j Hj) as E. rewrite <- !cont_get in E by auto. rewrite !zget_ok in E by (rewrite cont_len; auto). congruence.
  - unfold cont, window. replace (Z.to_nat (sl_len t)) with 0%nat by lia. destruct (zget (hf h) (sl_arr t)), (zget (hf h0) (sl_arr t)); reflexivity.
Qed.
(** A window apart from all cells keeps its values. *)
Definition cfree (C : cells) (t : slice) : Prop := forall i j k, inr C i j -> 0 <= k < sl_len t -> ~ (sl_arr t = cA C i j /\ sl_off t + k = cK C i j).
Lemma put_free C v h0 P h t j : put C v h0 P h -> cfree C t -> 0 <= j < sl_len t -> slot h (sl_arr t) (sl_off t + j) = slot h0 (sl_arr t) (sl_off t + j).
Proof. intros (_ & _ & H3) Hf Hj. apply H3. intros i k Hr _ E. apply (Hf i k j Hr Hj E). Qed.
Lemma put_only C v h0 P h o : put C v h0 P h -> (forall t, clear h0 o t -> cfree C t) -> only_in h0 h o.
Proof.
  intros Hp Hc. pose proof Hp as (L & _). split; [apply L|]. intros t Hi Hcl. split; [eapply live_inheap; eauto|]. apply cont_same; auto. intros j Hj. eapply put_free; eauto.
Qed.
Lemma clear_dcells h a r c f t : HTab h a r c f -> clear h a t -> cfree (dcells h a r c) t.
Proof.
  intros H Hcl i j k [Hi Hj] Hk [Ea Ek]. cbn in *. destruct (HTab_rows _ _ _ _ _ H) as (_ & _ & _ & _ & _ & Hrow & _). destruct (Hrow i Hi) as (E & I1 & El).
  destruct (Hcl i _ E) as [Q|[Q|Q]]; [congruence|lia|lia].
Qed.

(** ** Dense matrices *)
Lemma HVec_slots h d n g : HVecIs h d n g -> inheap h d /\ sl_len d = n /\ forall k, 0 <= k < n -> slot h (sl_arr d) (sl_off d + k) = Ok (g k).
Proof.
  intros (l & HV & Hl & Hg). split; [eapply VRep_inheap; eauto|]. split; [destruct HV as (_ & E & _); lia|]. intros k Hk. eapply VRep_slots; eauto.
Qed.
Lemma put_for C v h0 lo hi (B : Z -> unit -> M unit) (P : Z -> Z -> Z -> bool) : lo <= hi ->
  (forall i j, inr C i j -> P lo i j = false) ->
  (forall k h, lo <= k < hi -> put C v h0 (P k) h -> goes (B k tt) h (fun _ => put C v h0 (P (k + 1)))) ->
  goes (mfor lo hi B tt) h0 (fun _ => put C v h0 (P hi)).
Proof.
  intros Hl H0 HB. apply (mfor_inv (fun k => put C v h0 (P k))); auto. eapply put_ext; [|apply put_refl]. intros i j Hr. symmetry. apply H0; auto.
Qed.
Lemma put_done h0 h a r c f v P : HTab h0 a r c f -> own_rows h0 a -> put (dcells h0 a r c) v h0 P h ->
  HTab h a r c (fun i j => if P i j then v i j else f i j) /\ only_in h0 h a.
Proof.
  intros H Hown Hp. pose proof (dcells_inj _ _ _ _ _ H Hown) as Inj. pose proof (HTab_rows _ _ _ _ _ H) as (_ & _ & _ & _ & _ & _ & Hv). split.
  - eapply HTab_of; [exact H|apply Hp|]. apply (put_val _ _ _ _ _ _ Hv Inj Hp).
  - eapply put_only; [exact Hp|]. intros t Ht. eapply clear_dcells; eauto.
Qed.
Lemma goes_ret {A} (m : M A) h Q (R : heap -> A -> Prop) : goes m h Q -> (forall y h', Q y h' -> R h' y) -> returns m h R.
Proof. intros (y & h' & E & H) HR. exists y, h'. split; [exact E|auto]. Qed.
Lemma set2_column h a r c f j d g : HTab h a r c f -> own_rows h a -> HVecIs h d r g -> clear h a d -> 0 <= j < c ->
  returns (h2_SetColumn a j d) h (fun h' _ => HTab h' a r c (fun i k => if k =? j then g i else f i k) /\ only_in h h' a).
Proof.
  intros H Hown Hd Hcl Hj. destruct (HTab_dims _ _ _ _ _ H) as [Er Ec]. pose proof (dcells_inj _ _ _ _ _ H Hown) as Inj.
  pose proof (HTab_rows _ _ _ _ _ H) as (_ & _ & _ & Hr & Hc & Hrow & Hv). destruct (HVec_slots _ _ _ _ Hd) as (Di & Dl & Ds).
  pose proof (clear_dcells _ _ _ _ _ _ H Hcl) as Hf. set (C := dcells h a r c) in *. set (v := fun (i k : Z) => g i).
  assert (G : goes (h2_SetColumn a j d) h (fun _ => put C v h (fun i k => (i <? r) && (k =? j)))).
  { unfold h2_SetColumn. eapply g_step.
    { unfold runs, h2_ckcol. destruct (Z.ltb_spec j 0); [lia|]. unfold mbind. rewrite Ec. destruct (Z.leb_spec c j); [lia|reflexivity]. }
    rewrite Er, Dl, Z.eqb_refl. cbn [negb]. eapply (put_for C v h 0 r _ (fun q i k => (i <? q) && (k =? j))); [lia| |].
    - intros i k [Hi _]. cbn in Hi. destruct (Z.ltb_spec i 0); [lia|reflexivity].
    - intros i h1 Hi Hp. pose proof Hp as (L & _). eapply g_step.
      { apply (rdF_slot h1 d i (g i)); [lia|]. rewrite (put_free _ _ _ _ _ d i Hp Hf) by lia. apply Ds; auto. }
      unfold wr2. destruct (Hrow i Hi) as (E & I1 & El). eapply g_step; [exact (live_head _ _ _ _ _ L E)|]. change (g i) with (v i j).
      eapply (put_wrF C v h _ _ h1 i j); eauto; [split; cbn; lia|lia|].
      intros i' k' _. rewrite !andb_true_iff, !Z.ltb_lt, Z.eqb_eq. lia. }
  eapply goes_ret; [exact G|]. intros y h' Hp. destruct (put_done _ _ _ _ _ _ _ _ H Hown Hp) as [H1 H2]. split; [|exact H2].
  eapply HTab_of; [exact H|apply Hp|]. intros i k Hr'. fold C. fold C in Hr'. rewrite (put_val _ _ _ _ _ _ Hv Inj Hp i k Hr'). destruct Hr' as [Hi _]. cbn in Hi. destruct (Z.ltb_spec i r); [reflexivity|lia].
Qed.
(** SetRow: one copy, so the argument may be anywhere. *)
Lemma set2_row h a r c f i d g s : HTab h a r c f -> own_rows h a -> HVecIs h d c g -> row_of h a i s -> i + c <= sl_cap s -> 0 <= i < r ->
  returns (h2_SetRow a i d) h (fun h' _ => HTab h' a r c (fun k j => if k =? i then g j else f k j) /\ only_in h h' a).
Proof.
  intros H Hown Hd Hs Hcap Hi. destruct (HTab_dims _ _ _ _ _ H) as [Er Ec]. pose proof (dcells_inj _ _ _ _ _ H Hown) as Inj.
  pose proof (HTab_rows _ _ _ _ _ H) as (_ & _ & _ & Hr & Hc & Hrow & Hv). destruct (HVec_slots _ _ _ _ Hd) as (Di & Dl & Ds).
  set (C := dcells h a r c) in *. set (v := fun (k j : Z) => g j). destruct (Hrow i Hi) as (E & I1 & El). unfold row_of in Hs. rewrite E in Hs. injection Hs as <-.
  assert (G : goes (h2_SetRow a i d) h (fun _ => put C v h (fun k j => k =? i))).
  { unfold h2_SetRow. eapply g_step; [unfold runs, h2_ckrow; rewrite Er, (proj2 (inb_true _ _) Hi); reflexivity|]. eapply g_step; [exact Ec|].
    rewrite Dl, Z.eqb_refl. cbn [negb]. eapply g_step; [exact E|].
    assert (G0 : goes (copyrange (rowh h a i) 0 (0 + c) d 0 (0 + c)) h (fun _ => put C v h (fun k j => k =? i))).
    { eapply (put_copyrange C v h (fun _ _ => false) _ h i 0 c); [exact Inj|apply put_refl|lia|cbn; lia|lia|cbn; lia|exact I1|lia|lia| |exact Di|lia|lia| |].
      - intros t Ht. cbn. auto.
      - intros t Ht. unfold v. rewrite !Z.add_0_l. auto.
      - intros i' j' [_ Hj']. cbn in Hj'. rewrite Z.eqb_eq. split; [intros ->; right; lia|intros [Q|Q]; [discriminate|lia]]. }
    assert (EQ : copyrange (rowh h a i) 0 (i + c) d 0 c h = copyrange (rowh h a i) 0 (0 + c) d 0 (0 + c) h).
    { rewrite !Z.add_0_l. unfold copyrange, mbind, reslice. pose proof I1 as (J1 & J2 & _). rewrite (proj2 (Z.leb_le 0 0)), (proj2 (Z.leb_le 0 (i + c))), (proj2 (Z.leb_le 0 c)), (proj2 (Z.leb_le (i + c) _)), (proj2 (Z.leb_le c (sl_cap (rowh h a i)))) by lia.
      cbn. pose proof Di as (_ & J3 & _). rewrite (proj2 (Z.leb_le c (sl_cap d))) by lia. unfold ret, gocopy. cbn. replace (Z.min (i + c - 0) (c - 0)) with (Z.min (c - 0) (c - 0)) by lia. reflexivity. }
    destruct G0 as (y & h' & R & HQ). exists y, h'. split; [unfold runs in *; rewrite EQ; exact R|exact HQ]. }
  eapply goes_ret; [exact G|]. intros y h' Hp. apply (put_done _ _ _ _ _ _ _ _ H Hown Hp).
Qed.
Lemma set2_sub h a r c f sub p q e row column : HTab h a r c f -> own_rows h a -> HTab h sub p q e -> clear_rows h a sub ->
  0 <= row -> row + p <= r -> 0 <= column -> column + q <= c ->
  returns (h2_SetSubMatrix a sub row column) h (fun h' a' => a' = a /\
    HTab h' a r c (fun i j => if ((row <=? i) && (i <? row + p)) && ((column <=? j) && (j <? column + q)) then e (i - row) (j - column) else f i j) /\ only_in h h' a).
Proof.
  intros H Hown Hs Hcl R1 R2 C1 C2. destruct (HTab_dims _ _ _ _ _ H) as [Er Ec]. pose proof (dcells_inj _ _ _ _ _ H Hown) as Inj.
  pose proof (HTab_rows _ _ _ _ _ H) as (Hn & _ & _ & Hr & Hc & Hrow & Hv). pose proof (HTab_rows _ _ _ _ _ Hs) as (Hn' & Ls & _ & Hp & Hq & Hrow' & Hv').
  set (C := dcells h a r c) in *. set (v := fun i j => e (i - row) (j - column)).
  assert (Hf : forall k, 0 <= k < p -> cfree C (rowh h sub k)). { intros k Hk. eapply clear_dcells; [exact H|]. apply (Hcl k). apply Hrow'; auto. }
  assert (G : goes (h2_SetSubMatrix a sub row column) h (fun a' h' => a' = a /\ put C v h (fun i j => ((row <=? i) && (i <? row + p)) && ((column <=? j) && (j <? column + q))) h')).
  { unfold h2_SetSubMatrix, isnil. rewrite (proj2 (Z.eqb_neq _ _) Hn'), Ls. destruct (Z.eqb_spec p 0); [lia|]. destruct (Hrow' 0 ltac:(lia)) as (E0 & _ & El0). eapply g_step; [exact E0|]. rewrite El0.
    destruct (Z.eqb_spec q 0); [lia|]. rewrite (proj2 (Z.eqb_neq _ _) Hn).
    eapply g_step with (h1 := h) (a := tt).
    { destruct (mfor_inv (fun _ h' => h' = h) 1 p (fun (r : Z) (_ : unit) => let! sr := rdS sub r in if negb (sl_len sr =? q) then mpanic EDimMismatch else ret tt) h ltac:(lia) eq_refl) as ([] & h' & R & ->); [|exact R].
      intros k h1 Hk ->. destruct (Hrow' k ltac:(lia)) as (Ek & _ & Elk). eapply g_step; [exact Ek|]. rewrite Elk, Z.eqb_refl. apply g_ret. reflexivity. }
    assert (CkR : forall i, 0 <= i < r -> runs (h2_ckrow a i) h tt h). { intros i Hi. unfold runs, h2_ckrow. rewrite Er, (proj2 (inb_true _ _) Hi). reflexivity. }
    assert (CkC : forall j, 0 <= j < c -> runs (h2_ckcol a j) h tt h). { intros j Hj. unfold runs, h2_ckcol. destruct (Z.ltb_spec j 0); [lia|]. unfold mbind. rewrite Ec. destruct (Z.leb_spec c j); [lia|reflexivity]. }
    eapply g_step; [apply CkR; lia|]. eapply g_step; [apply CkC; lia|]. eapply g_step; [apply CkR; lia|]. eapply g_step; [apply CkC; lia|].
    apply g_bind. eapply g_imp; [|intros u h' Hput; apply g_ret; split; [reflexivity|exact Hput]].
    eapply (put_for C v h 0 p _ (fun k i j => ((row <=? i) && (i <? row + k)) && ((column <=? j) && (j <? column + q)))); [lia| |].
    - intros i j _. destruct (Z.leb_spec row i), (Z.ltb_spec i (row + 0)); try lia; reflexivity.
    - intros k h1 Hk Hput. eapply (g_imp _ _ (fun _ => put C v h (fun i j => (((row <=? i) && (i <? row + k)) && ((column <=? j) && (j <? column + q))) || ((i =? row + k) && ((column <=? j) && (j <? column + q)))))).
      + apply (mfor_inv (fun l => put C v h (fun i j => (((row <=? i) && (i <? row + k)) && ((column <=? j) && (j <? column + q))) || ((i =? row + k) && ((column <=? j) && (j <? column + l)))))); [lia| |].
        * eapply put_ext; [|exact Hput]. intros i j _. cbv beta. destruct (Z.leb_spec column j), (Z.ltb_spec j (column + 0)); try lia; cbn; rewrite ?andb_false_r, ?orb_false_r; reflexivity.
        * intros l h2 Hl Hput2. pose proof Hput2 as (L & _). destruct (Hrow' k Hk) as (Ek & _ & Elk).
          eapply g_step. { unfold runs, rd2, mbind. rewrite (live_head _ _ _ _ _ L Ek). apply (rdF_slot h2 (rowh h sub k) l (e k l)); [lia|]. rewrite (put_free _ _ _ _ _ _ l Hput2 (Hf k Hk)) by lia. apply (Hv' k l). split; cbn; lia. }
          unfold h2_SetEntry. destruct (HTab_reach h a r c f (row + k) (column + l) H ltac:(lia) ltac:(lia)) as [_ Ck]. eapply g_step; [exact (live_ck _ _ _ _ _ _ L Ck)|].
          unfold wr2. destruct (Hrow (row + k) ltac:(lia)) as (E & I1 & El). eapply g_step; [exact (live_head _ _ _ _ _ L E)|].
          replace (e k l) with (v (row + k) (column + l)) by (unfold v; f_equal; lia).
          eapply (put_wrF C v h _ _ h2 (row + k) (column + l)); eauto; [split; cbn; lia|lia|].
          intros i' j' _. rewrite !orb_true_iff, !andb_true_iff, !Z.leb_le, !Z.ltb_lt, !Z.eqb_eq. lia.
      + intros u h2 Hput2. eapply put_ext; [|exact Hput2]. intros i j _. apply eq_true_iff_eq. rewrite !orb_true_iff, !andb_true_iff, !Z.leb_le, !Z.ltb_lt, !Z.eqb_eq. lia. }
  eapply goes_ret; [exact G|]. intros y h' [-> Hput]. split; [reflexivity|]. apply (put_done _ _ _ _ _ _ _ _ H Hown Hput).
Qed.
End Put.

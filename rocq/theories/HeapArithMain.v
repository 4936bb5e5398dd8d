(** The contents of the results of the arithmetic of HeapArith.v. *)
From Coq Require Import ZArith List Lia Bool.
From Verif Require Import Base BaseLemmas Scalar Vector Matrix VecSpec MatSpec MatFacts Array2D Array2DFacts.
From Verif Require Import Heap HeapSpec HeapFacts HeapIndep HeapSim HeapSim2 HeapSim3 HeapSim4 HeapMain HeapProps HeapDec HeapAtom HeapRefSpec HeapRef2 HeapRef8 HeapRef9
  HeapSolve HeapArith HeapArithFacts.
Import ListNotations.
Open Scope Z_scope.

Section HeapArithMain.
Context {O : Ops}.

(** ** Loops *)
Lemma g_loop {T} (Inv : Z -> T -> heap -> Prop) n (B : Z -> T -> M T) t h : 0 <= n -> Inv 0 t h ->
  (forall i t h, 0 <= i < n -> Inv i t h -> goes (B i t) h (Inv (i + 1))) -> goes (mfor 0 n B t) h (Inv n).
Proof.
  intros Hn H0 HB. assert (E : forall k i, iter_up k i (fun _ (_ : unit) => Ok tt) tt = Ok tt).
  { induction k as [|k IH]; intros i; cbn [iter_up bind]; auto. }
  pose proof (g_for (fun i (_ : unit) => Inv i) 0 n (fun _ _ => Ok tt) B tt t h tt (E _ _) H0) as G. cbv beta in G.
  replace (Z.max 0 n) with n in G by lia. apply G. intros i _ t0 h1 _ Hi HI _. auto.
Qed.
Lemma g_sum n (B : Z -> F -> M F) v h : 0 <= n -> (forall i s, 0 <= i < n -> B i s h = (Ok (s + v i)%f, h)) ->
  mfor 0 n B fzero h = (Ok (fsum n v), h).
Proof.
  intros Hn HB. destruct (g_loop (fun i s h' => s = fsum i v /\ h' = h) n B fzero h Hn) as (s & h' & R & -> & ->); auto.
  intros i s h' Hi [-> ->]. exists (fsum i v + v i)%f, h. split; [apply HB; auto|]. split; auto.
  unfold fsum. replace (Z.to_nat (i + 1)) with (Datatypes.S (Z.to_nat i)) by lia. cbn [accum]. rewrite Z2Nat.id by lia. reflexivity.
Qed.
Definition part (q : list F) (c k : Z) (v : Z -> F) : Prop := len q = c /\ forall j, 0 <= j < k -> nthZ q j = v j.
Lemma part_upd q c k v : part q c k v -> 0 <= k < c -> part (upd q k (v k)) c (k + 1) v.
Proof.
  intros [L H] Hk. split; [rewrite len_upd; auto|]. intros j Hj. rewrite nthZ_upd by lia. destruct (Z.eqb_spec k j); [subst; auto|]. apply H. lia.
Qed.
(** Filling an array made by the call. *)
Lemma fill_own h0 s c v (B : Z -> unit -> M unit) h q : 0 <= c -> OwnE h0 s q h -> len q = c ->
  (forall j h', 0 <= j < c -> Ext h0 h' -> B j tt h' = wrF s j (v j) h') ->
  goes (mfor 0 c B tt) h (fun _ h' => exists q', OwnE h0 s q' h' /\ VTab q' c v).
Proof.
  intros Hc HO L HB. eapply g_imp; [apply (g_loop (fun j (_ : unit) h' => exists q', OwnE h0 s q' h' /\ part q' c j v) c B tt h Hc)|].
  - exists q. split; auto. split; auto. intros; lia.
  - intros j [] h1 Hj (q1 & HO1 & HP). pose proof HP as [L1 _]. destruct (g_wrF h0 h1 s q1 j (v j) (upd q1 j (v j)) HO1) as (u & h2 & R & HO2); [apply zset_ok; lia|].
    exists u, h2. split; [unfold runs; rewrite HB; [exact R|auto|apply HO1]|]. exists (upd q1 j (v j)). split; auto. apply part_upd; auto.
  - intros u h' (q' & HO' & HP). exists q'. split; auto.
Qed.
(** Filling a row of a table made by the call. *)
Lemma fill_row h0 o d i s c v (B : Z -> unit -> M unit) h q : 0 <= c -> RowE h0 o d i s q h -> len q = c ->
  (forall j h', 0 <= j < c -> Ext h0 h' -> runs (rdS o i) h' s h' -> B j tt h' = wrF s j (v j) h') ->
  goes (mfor 0 c B tt) h (fun _ h' => exists q', TabE h0 o (upd d i q') h' /\ VTab q' c v).
Proof.
  intros Hc HR L HB. eapply g_imp; [apply (g_loop (fun j (_ : unit) h' => exists q' d', RowE h0 o d' i s q' h' /\ d' = upd d i q' /\ part q' c j v) c B tt h Hc)|].
  - exists q, d. split; [auto|]. split; [|split; auto; intros; lia]. destruct HR as (hd & HA). pose proof (at_r _ _ _ _ _ _ _ _ HA) as Eq.
    symmetry. apply upd_id; auto.
  - intros j [] h1 Hj (q1 & d1 & HR1 & Ed & HP). pose proof HP as [L1 _]. destruct (RowE_wrF h0 h1 o d1 i s q1 j (v j) (upd q1 j (v j)) HR1) as (u & h2 & R & HR2); [apply zset_ok; lia|].
    exists u, h2. split; [unfold runs; rewrite HB; [exact R|auto|eapply RowE_e; eauto|eapply RowE_rd; eauto]|]. eexists _, _. split; [exact HR2|]. split; [rewrite Ed, upd_upd; auto|apply part_upd; auto].
  - intros u h' (q' & d' & HR' & -> & HP). exists q'. split; auto. eapply RowE_T; eauto.
Qed.
(** Building a table row by row. *)
Lemma build h0 o r c f (B : Z -> unit -> M unit) h d : 0 <= r -> TabE h0 o d h -> len d = r ->
  (forall i h d, 0 <= i < r -> TabE h0 o d h -> len d = r -> goes (B i tt) h (fun _ h' => exists q, TabE h0 o (upd d i q) h' /\ VTab q c (f i))) ->
  goes (mfor 0 r B tt) h (fun _ h' => exists d', TabE h0 o d' h' /\ RTab d' r c f).
Proof.
  intros Hr HT L HB. eapply g_imp; [apply (g_loop (fun i (_ : unit) h' => exists d', TabE h0 o d' h' /\ len d' = r /\ forall k, 0 <= k < i -> VTab (nthZ d' k) c (f k)) r B tt h Hr)|].
  - exists d. split; auto. split; auto. intros; lia.
  - intros i [] h1 Hi (d1 & HT1 & L1 & H1). eapply g_imp; [apply HB; eauto|]. intros _ h2 (q & HT2 & HV). exists (upd d1 i q). split; auto. split; [rewrite len_upd; auto|].
    intros k Hk. rewrite nthZ_upd by lia. destruct (Z.eqb_spec i k); [subst; auto|]. apply H1. lia.
  - intros _ h' (d' & HT' & L' & H'). exists d'. split; auto. split; [split; auto; intros i Hi; apply (H' i Hi)|]. intros i j Hi Hj. apply (H' i Hi); auto.
Qed.

(** ** Operands *)
Lemma tab_src h0 a r c f : HTab h0 a r c f -> h2_rows a = r /\ 1 <= r /\ 1 <= c /\ (forall h, Ext h0 h -> h2_cols a h = (Ok c, h)) /\
  forall i, 0 <= i < r -> exists s, forall h, Ext h0 h -> rdS a i h = (Ok s, h) /\ forall j, 0 <= j < c -> rdF s j h = (Ok (f i j), h).
Proof.
  intros H. destruct (HTab_dims _ _ _ _ _ H) as [E1 _]. destruct (HTab_elim _ _ _ _ _ H) as (d & HR & HM & HT). pose proof H as (_ & Hr & Hc & _).
  split; [auto|split; [auto|split; [auto|split]]].
  - intros h He. apply (HTab_dims h a r c f). exact (HMat_Ext h0 h (HA a) r c f He H).
  - intros i Hi. destruct HT as [[L1 L2] HT]. destruct (s2_rdS h0 a _ i (nthZ d i) HR) as (s & Hs); [apply zget_ok; cbn; lia|].
    exists s. intros h He. destruct (Hs h He) as [R HV]. split; [exact R|]. intros j Hj. rewrite <- HT by auto. apply (runs_rdF h s _ j _ HV). apply zget_ok. rewrite L2; auto.
Qed.
Lemma tab_rd2 h0 a r c f : HTab h0 a r c f -> forall h i j, Ext h0 h -> 0 <= i < r -> 0 <= j < c -> rd2 a i j h = (Ok (f i j), h).
Proof.
  intros H h i j He Hi Hj. destruct (tab_src _ _ _ _ _ H) as (_ & _ & _ & _ & S). destruct (S i Hi) as (s & Hs). destruct (Hs h He) as [R1 R2].
  unfold rd2, mbind. rewrite R1. apply R2. auto.
Qed.
Lemma mat_At h0 x r c g : HMatIs h0 x r c g -> forall h i j, Ext h0 h -> 0 <= i < r -> 0 <= j < c -> hm_At x i j h = (Ok (g i j), h).
Proof.
  intros H h i j He Hi Hj. rewrite (HMat_At h x r c g i j (HMat_Ext _ _ _ _ _ _ He H)). rewrite !(proj2 (inb_true _ _)) by auto. reflexivity.
Qed.
Lemma ckAdd_ok h a m r c f g : HMatIs h a r c f -> HMatIs h m r c g -> h_ckAdd a m h = (Ok tt, h).
Proof.
  intros Ha Hm. destruct (HMat_dims _ _ _ _ _ Ha) as [E1 E2]. destruct (HMat_dims _ _ _ _ _ Hm) as [D1 D2].
  unfold h_ckAdd, mbind. rewrite E1, D1, Z.eqb_refl. rewrite E2, D2, Z.eqb_refl. reflexivity.
Qed.
Lemma ckAdd_bad h a m r c f r' c' g : HMatIs h a r c f -> HMatIs h m r' c' g -> r <> r' \/ c <> c' -> h_ckAdd a m h = (Panic EMatDimMismatch, h).
Proof.
  intros Ha Hm N. destruct (HMat_dims _ _ _ _ _ Ha) as [E1 E2]. destruct (HMat_dims _ _ _ _ _ Hm) as [D1 D2].
  unfold h_ckAdd, mbind. rewrite E1, D1. destruct (Z.eqb_spec r r'); rewrite E2, D2; [|reflexivity]. destruct (Z.eqb_spec c c'); [lia|reflexivity].
Qed.
Lemma ckMul_ok h a m r n c f g : HMatIs h a r n f -> HMatIs h m n c g -> h_ckMul a m h = (Ok tt, h).
Proof.
  intros Ha Hm. destruct (HMat_dims _ _ _ _ _ Ha) as [E1 E2]. destruct (HMat_dims _ _ _ _ _ Hm) as [D1 D2].
  unfold h_ckMul, mbind. rewrite E2, D1, !Z.eqb_refl. reflexivity.
Qed.
Lemma ckMul_bad h a m r n f n' c g : HMatIs h a r n f -> HMatIs h m n' c g -> n <> n' -> h_ckMul a m h = (Panic EDimMismatch, h).
Proof.
  intros Ha Hm N. destruct (HMat_dims _ _ _ _ _ Ha) as [E1 E2]. destruct (HMat_dims _ _ _ _ _ Hm) as [D1 D2].
  unfold h_ckMul, mbind. rewrite E2, D1. destruct (Z.eqb_spec n n'); [lia|reflexivity].
Qed.
Lemma make_ok {A} (x : A) n : 0 <= n -> make x n = Ok (repeat x (Z.to_nat n)).
Proof. intros H. unfold make. replace (n <? 0) with false by lia. reflexivity. Qed.
Lemma len_repeat {A} (x : A) n : 0 <= n -> len (repeat x (Z.to_nat n)) = n.
Proof. intros. unfold len. rewrite repeat_length. lia. Qed.

(** ** Entry by entry *)
Lemma g_table h r c f (B : slice -> Z -> unit -> M unit) : 1 <= r -> 1 <= c ->
  (forall o i h' d, 0 <= i < r -> TabE h o d h' -> len d = r ->
     goes (B o i tt) h' (fun _ h'' => exists q, TabE h o (upd d i q) h'' /\ VTab q c (f i))) ->
  goes (let! o := makeS r in let! _ := mfor 0 r (B o) tt in ret o) h (fun o h' => HTab h' o r c f).
Proof.
  intros Hr Hc HB. apply g_bind. eapply g_imp; [apply (g_makeS h h r _ (Ext_refl _) (make_ok _ r ltac:(lia)))|]. nx o h1 HT.
  apply g_bind. eapply g_imp; [eapply (build h o r c f); [lia|exact HT|apply len_repeat; lia|intros; apply HB; auto]|].
  intros _ h2 (d' & HT' & HR). apply g_ret. eapply TabE_HTab; eauto.
Qed.
(** A new row, then its entries. *)
Lemma g_row h0 h o d i c v (K : unit -> M unit) : TabE h0 o d h -> 0 <= i < len d -> 0 <= c ->
  (forall s q h', RowE h0 o (upd d i q) i s q h' -> len q = c -> goes (K tt) h' (fun _ h'' => exists q', TabE h0 o (upd (upd d i q) i q') h'' /\ VTab q' c v)) ->
  goes (let! s := makeF c in let! _ := wrS o i s in K tt) h (fun _ h' => exists q, TabE h0 o (upd d i q) h' /\ VTab q c v).
Proof.
  intros HT Hi Hc HK. eapply g_newrow with (f := fun _ _ => K tt); [exact HT|apply make_ok; lia|lia|]. intros s h' HR.
  eapply g_imp; [eapply HK; [exact HR|apply len_repeat; lia]|]. intros _ h'' (q' & HT' & HV). rewrite upd_upd in HT'. eauto.
Qed.
Ltac stp := first [eapply g_step; [eassumption|] | eapply g_step; [solve [eauto]|]].
Lemma m2_Add h a m r c f g : HTab h a r c f -> HMatIs h m r c g ->
  returns (h2_Add a m) h (fun h' o => HTab h' o r c (fun i j => (f i j + g i j)%f)).
Proof.
  intros Ha Hm. destruct (tab_src _ _ _ _ _ Ha) as (Er & Hr & Hc & Ec & Sa). apply (goes_returns _ _ (fun o h' => HTab h' o r c (fun i j => (f i j + g i j)%f))); [|auto].
  unfold h2_Add. eapply g_step; [eapply (ckAdd_ok h (HA a) m r c f g); eauto|]. pose proof (Ec h (Ext_refl _)) as Ec0.
  destruct m as [b|b|b]; rewrite Er; cbv zeta; (eapply g_step; [exact Ec0|]); apply g_table; auto; intros o i h1 d Hi HT L; pose proof (TabE_e _ _ _ _ HT) as He1; destruct (Sa i Hi) as (sa & Hsa).
  - destruct (tab_src _ _ _ _ _ Hm) as (_ & _ & _ & _ & Sb). destruct (Sb i Hi) as (sb & Hsb).
    eapply g_step; [apply Hsa; auto|]. eapply g_step; [apply Hsb; auto|]. eapply g_row with (K := fun _ => _); [exact HT|lia|lia|]. intros s q h2 HR Lq.
    eapply g_step; [eapply RowE_rd; eauto|]. eapply fill_row; [lia|exact HR|auto|]. intros j h' Hj He _. unfold mbind at 1. rewrite (proj2 (Hsa h' He)) by auto. unfold mbind. rewrite (proj2 (Hsb h' He)) by auto. reflexivity.
  - eapply g_step; [apply Hsa; auto|]. eapply g_row with (K := fun _ => _); [exact HT|lia|lia|]. intros s q h2 HR Lq.
    eapply g_step; [eapply RowE_rd; eauto|]. eapply fill_row; [lia|exact HR|auto|]. intros j h' Hj He _. unfold mbind at 1. rewrite (proj2 (Hsa h' He)) by auto. unfold mbind. rewrite (mat_At _ _ _ _ _ Hm) by auto. reflexivity.
  - eapply g_step; [apply Hsa; auto|]. eapply g_row with (K := fun _ => _); [exact HT|lia|lia|]. intros s q h2 HR Lq.
    eapply g_step; [eapply RowE_rd; eauto|]. eapply fill_row; [lia|exact HR|auto|]. intros j h' Hj He _. unfold mbind at 1. rewrite (proj2 (Hsa h' He)) by auto. unfold mbind. rewrite (mat_At _ _ _ _ _ Hm) by auto. reflexivity.
Qed.
Lemma m2_Subtract h a m r c f g : HTab h a r c f -> HMatIs h m r c g ->
  returns (h2_Subtract a m) h (fun h' o => HTab h' o r c (fun i j => (f i j - g i j)%f)).
Proof.
  intros Ha Hm. destruct (tab_src _ _ _ _ _ Ha) as (Er & Hr & Hc & Ec & Sa). apply (goes_returns _ _ (fun o h' => HTab h' o r c (fun i j => (f i j - g i j)%f))); [|auto].
  unfold h2_Subtract. eapply g_step; [eapply (ckAdd_ok h (HA a) m r c f g); eauto|]. pose proof (Ec h (Ext_refl _)) as Ec0.
  destruct m as [b|b|b]; rewrite Er; cbv zeta; (eapply g_step; [exact Ec0|]); apply g_table; auto; intros o i h1 d Hi HT L; pose proof (TabE_e _ _ _ _ HT) as He1; destruct (Sa i Hi) as (sa & Hsa).
  - destruct (tab_src _ _ _ _ _ Hm) as (_ & _ & _ & _ & Sb). destruct (Sb i Hi) as (sb & Hsb).
    eapply g_step; [apply Hsa; auto|]. eapply g_step; [apply Hsb; auto|]. eapply g_row with (K := fun _ => _); [exact HT|lia|lia|]. intros s q h2 HR Lq.
    eapply g_step; [eapply RowE_rd; eauto|]. eapply fill_row; [lia|exact HR|auto|]. intros j h' Hj He _. unfold mbind at 1. rewrite (proj2 (Hsa h' He)) by auto. unfold mbind. rewrite (proj2 (Hsb h' He)) by auto. reflexivity.
  - eapply g_step; [apply Hsa; auto|]. eapply g_row with (K := fun _ => _); [exact HT|lia|lia|]. intros s q h2 HR Lq.
    eapply g_step; [eapply RowE_rd; eauto|]. eapply fill_row; [lia|exact HR|auto|]. intros j h' Hj He _. unfold mbind at 1. rewrite (proj2 (Hsa h' He)) by auto. unfold mbind. rewrite (mat_At _ _ _ _ _ Hm) by auto. reflexivity.
  - eapply g_step; [apply Hsa; auto|]. eapply g_row with (K := fun _ => _); [exact HT|lia|lia|]. intros s q h2 HR Lq.
    eapply g_step; [eapply RowE_rd; eauto|]. eapply fill_row; [lia|exact HR|auto|]. intros j h' Hj He _. unfold mbind at 1. rewrite (proj2 (Hsa h' He)) by auto. unfold mbind. rewrite (mat_At _ _ _ _ _ Hm) by auto. reflexivity.
Qed.
Lemma wr2_row h o i s j x : runs (rdS o i) h s h -> wr2 o i j x h = wrF s j x h.
Proof. intros R. unfold wr2, mbind. rewrite R. reflexivity. Qed.
Lemma m2_ScalarAdd h a x r c f : HTab h a r c f -> returns (h2_ScalarAdd a x) h (fun h' o => HTab h' o r c (fun i j => (f i j + x)%f)).
Proof.
  intros Ha. destruct (tab_src _ _ _ _ _ Ha) as (Er & Hr & Hc & Ec & Sa). apply (goes_returns _ _ (fun o h' => HTab h' o r c (fun i j => (f i j + x)%f))); [|auto].
  unfold h2_ScalarAdd. rewrite Er. cbv zeta. eapply g_step; [apply (Ec h (Ext_refl _))|]. apply g_table; auto. intros o i h1 d Hi HT L.
  eapply g_row with (K := fun _ => _); [exact HT|lia|lia|]. intros s q h2 HR Lq. eapply fill_row; [lia|exact HR|auto|]. intros j h' Hj He Rr.
  unfold mbind. rewrite (tab_rd2 _ _ _ _ _ Ha) by auto. apply wr2_row; auto.
Qed.
Lemma m2_ScalarMultiply h a x r c f : HTab h a r c f -> returns (h2_ScalarMultiply a x) h (fun h' o => HTab h' o r c (fun i j => (f i j * x)%f)).
Proof.
  intros Ha. destruct (tab_src _ _ _ _ _ Ha) as (Er & Hr & Hc & Ec & Sa). apply (goes_returns _ _ (fun o h' => HTab h' o r c (fun i j => (f i j * x)%f))); [|auto].
  unfold h2_ScalarMultiply. rewrite Er. cbv zeta. eapply g_step; [apply (Ec h (Ext_refl _))|]. apply g_table; auto. intros o i h1 d Hi HT L.
  eapply g_row with (K := fun _ => _); [exact HT|lia|lia|]. intros s q h2 HR Lq. eapply fill_row; [lia|exact HR|auto|]. intros j h' Hj He Rr.
  unfold mbind. rewrite (tab_rd2 _ _ _ _ _ Ha) by auto. apply wr2_row; auto.
Qed.

(** ** Sums of products *)
Lemma m2_Trace h a n f : HTab h a n n f -> h2_Trace a h = (Ok (fsum n (fun i => f i i)), h).
Proof.
  intros Ha. destruct (tab_src _ _ _ _ _ Ha) as (Er & Hr & Hc & Ec & Sa). unfold h2_Trace, mbind at 1. rewrite Ec by apply Ext_refl. rewrite Er, Z.eqb_refl. cbn [negb].
  apply g_sum; [lia|]. intros i s Hi. unfold mbind. rewrite (tab_rd2 _ _ _ _ _ Ha) by (auto; apply Ext_refl). reflexivity.
Qed.
Lemma vec_rd h0 v n g : HVecIs h0 v n g -> sl_len v = n /\ forall h j, Ext h0 h -> 0 <= j < n -> rdF v j h = (Ok (g j), h).
Proof.
  intros H. destruct (HVecIs_elim _ _ _ _ H) as (l & HV & L & Hg). split; [destruct HV as (_ & E & _); lia|].
  intros h j He Hj. rewrite <- Hg by auto. apply (runs_rdF h v l). { eapply VRep_ext; eauto. } apply zget_ok. lia.
Qed.
Lemma g_vector h n g (B : slice -> Z -> unit -> M unit) : 0 <= n ->
  (forall o j h', 0 <= j < n -> Ext h h' -> B o j tt h' = wrF o j (g j) h') ->
  goes (let! o := makeF n in let! _ := mfor 0 n (B o) tt in ret o) h (fun o h' => exists q, OwnE h o q h' /\ VTab q n g).
Proof.
  intros Hn HB. apply g_bind. eapply g_imp; [apply (g_makeF h h n _ (Ext_refl _) (make_ok _ n Hn))|]. nx o h1 HO.
  apply g_bind. eapply g_imp; [eapply (fill_own h o n g); [auto|exact HO|apply len_repeat; auto|intros; apply HB; auto]|]. intros [] h2 H. apply g_ret. exact H.
Qed.
Lemma g_Operate h a v r c f g : HTab h a r c f -> HVecIs h v c g ->
  goes (h2_Operate a v) h (fun o h' => exists q, OwnE h o q h' /\ VTab q r (fun i => fsum c (fun k => (f i k * g k)%f))).
Proof.
  intros Ha Hv. destruct (tab_src _ _ _ _ _ Ha) as (Er & Hr & Hc & Ec & Sa). destruct (vec_rd _ _ _ _ Hv) as [Lv Rv].
  unfold h2_Operate. rewrite Er. cbv zeta. eapply g_step; [apply (Ec h (Ext_refl _))|]. rewrite Lv, Z.eqb_refl. cbn [negb].
  apply g_vector; [lia|]. intros o i h' Hi He. unfold mbind at 1.
  rewrite (g_sum c _ (fun k => (f i k * g k)%f)); [reflexivity|lia|]. intros k s Hk. unfold mbind. rewrite (tab_rd2 _ _ _ _ _ Ha) by auto. rewrite Rv by auto. reflexivity.
Qed.
Lemma g_PreMultiply h a v r c f g : HTab h a r c f -> HVecIs h v r g ->
  goes (h2_PreMultiply a v) h (fun o h' => exists q, OwnE h o q h' /\ VTab q c (fun j => fsum r (fun k => (f k j * g k)%f))).
Proof.
  intros Ha Hv. destruct (tab_src _ _ _ _ _ Ha) as (Er & Hr & Hc & Ec & Sa). destruct (vec_rd _ _ _ _ Hv) as [Lv Rv].
  unfold h2_PreMultiply. rewrite Er. cbv zeta. eapply g_step; [apply (Ec h (Ext_refl _))|]. rewrite Lv, Z.eqb_refl. cbn [negb].
  apply g_vector; [lia|]. intros o i h' Hi He. unfold mbind at 1.
  rewrite (g_sum r _ (fun k => (f k i * g k)%f)); [reflexivity|lia|]. intros k s Hk. unfold mbind. rewrite (tab_rd2 _ _ _ _ _ Ha) by auto. rewrite Rv by auto. reflexivity.
Qed.
Lemma m2_Operate h a v r c f g : HTab h a r c f -> HVecIs h v c g ->
  returns (h2_Operate a v) h (fun h' o => HVecIs h' o r (fun i => fsum c (fun k => (f i k * g k)%f))).
Proof. intros Ha Hv. eapply goes_returns; [eapply g_Operate; eauto|]. intros o h' (q & HO & HV). eapply OwnE_HVec; eauto. Qed.
Lemma m2_PreMultiply h a v r c f g : HTab h a r c f -> HVecIs h v r g ->
  returns (h2_PreMultiply a v) h (fun h' o => HVecIs h' o c (fun j => fsum r (fun k => (f k j * g k)%f))).
Proof. intros Ha Hv. eapply goes_returns; [eapply g_PreMultiply; eauto|]. intros o h' (q & HO & HV). eapply OwnE_HVec; eauto. Qed.
Lemma m2_PreMultiplyVector h a v r c f g : HTab h a r c f -> HVecIs h v r g ->
  returns (h2_PreMultiplyVector a (HArr v)) h (fun h' o => HVecIs h' o c (fun j => fsum r (fun k => (f k j * g k)%f))).
Proof.
  intros Ha Hv. apply (goes_returns _ _ (fun o h' => HVecIs h' o c (fun j => fsum r (fun k => (f k j * g k)%f)))); [|auto]. cbn [h2_PreMultiplyVector].
  apply g_bind. eapply g_imp; [apply (g_PreMultiply _ _ _ _ _ _ _ Ha Hv)|]. intros o h1 (q & HO & HV). eapply g_imp; [apply (g_appendF h h1 o q (proj2 HO) (OwnE_VRep _ _ _ _ HO))|].
  intros o1 h2 HO1. exact (OwnE_HVec _ _ _ _ _ _ HO1 HV).
Qed.

(** ** Multiply, by a matrix of another kind *)
Lemma m2_Multiply_At h a m r n c f g : HTab h a r n f -> HMatIs h m n c g ->
  returns (let! nCols := hm_cols m in
      let! nSum := h2_cols a in
      let! outData := makeS (h2_rows a) in
      let! _ := mfor 0 (h2_rows a) (fun row (_ : unit) =>
        let! r := makeF nCols in
        let! _ := wrS outData row r in
        let! dataRow := rdS a row in
        mfor 0 nCols (fun col (_ : unit) =>
          let! sum := mfor 0 nSum (fun i sum =>
            let! x := rdF dataRow i in
            let! y := hm_At m i col in
            ret (sum + x * y)%f) fzero in
          wr2 outData row col sum) tt) tt in
      ret outData) h (fun h' o => HTab h' o r c (fun i j => fsum n (fun k => (f i k * g k j)%f))).
Proof.
  intros Ha Hm. destruct (tab_src _ _ _ _ _ Ha) as (Er & Hr & Hn & Ec & Sa). apply (goes_returns _ _ (fun o h' => HTab h' o r c (fun i j => fsum n (fun k => (f i k * g k j)%f)))); [|auto].
  destruct (HMat_dims _ _ _ _ _ Hm) as [D1 D2]. destruct (HMat_pos _ _ _ _ _ Hm) as [_ Hc]. rewrite Er.
  eapply g_step; [exact D2|]. eapply g_step; [apply (Ec h (Ext_refl _))|]. apply g_table; auto. intros o i h1 d Hi HT L. destruct (Sa i Hi) as (sa & Hsa).
  eapply g_row with (K := fun _ => _); [exact HT|lia|lia|]. intros s q h2 HR Lq. eapply g_step; [apply Hsa; eapply RowE_e; eauto|]. eapply fill_row; [lia|exact HR|auto|]. intros j h' Hj He Rr.
  unfold mbind at 1. rewrite (g_sum n _ (fun k => (f i k * g k j)%f)); [apply wr2_row; auto|lia|].
  intros k t Hk. unfold mbind. rewrite (proj2 (Hsa h' He)) by auto. rewrite (mat_At _ _ _ _ _ Hm) by auto. reflexivity.
Qed.

(** ** Multiply, by another dense matrix *)
Section Mul.
Variables (h0 : heap) (o mc : slice) (r n c : Z) (g : Z -> Z -> F) (P : Z -> Z -> F).
(** Before column [k] of row [i]. *)
Definition MI (k i : Z) (h : heap) : Prop := exists hd d q, Tab h0 h o hd d /\ Own h0 h mc q /\ away hd (sl_arr mc) /\ len d = r /\
  part q n n (fun t => g t k) /\
  forall i', 0 <= i' < r -> if (i' <? i) || (0 <? k) then part (nthZ d i') c (if i' <? i then k + 1 else k) (P i') else zget hd i' = Ok nilsl.
(** Between the columns, [mc] holds anything. *)
Definition MJ (k : Z) (h : heap) : Prop := exists hd d q, Tab h0 h o hd d /\ Own h0 h mc q /\ away hd (sl_arr mc) /\ len d = r /\ len q = n /\
  forall i', 0 <= i' < r -> if 0 <? k then part (nthZ d i') c k (P i') else zget hd i' = Ok nilsl.
Lemma MI_e k i h : MI k i h -> Ext h0 h.
Proof. intros (hd & d & q & HT & _). apply HT. Qed.
Lemma MI_row k i h (sum : F) : MI k i h -> 0 <= k < c -> 0 <= i < r -> sum = P i k ->
  goes (let! x := rdS o i in let! _ := (if isnil x then let! r := makeF c in wrS o i r else ret tt) in wr2 o i k sum) h (fun _ => MI k (i + 1)).
Proof.
  intros (hd & d & q & HT & HO & HA & L & HQ & HP) Hk Hi ->. pose proof (tb_l _ _ _ _ _ HT) as Lh.
  (* the row is there *)
  assert (W : forall h1 hd1 d1, Tab h0 h1 o hd1 d1 -> Own h0 h1 mc q -> away hd1 (sl_arr mc) -> len d1 = r -> part (nthZ d1 i) c k (P i) ->
    (forall i', 0 <= i' < r -> i' <> i -> nthZ d1 i' = nthZ d i' /\ zget hd1 i' = zget hd i') -> goes (wr2 o i k (P i k)) h1 (fun _ => MI k (i + 1))).
  { intros h1 hd1 d1 HT1 HO1 HA1 L1 HP1 Hsame. pose proof (tb_l _ _ _ _ _ HT1) as Lh1. destruct HP1 as [Lq HPk].
    destruct (Tab_rdS h0 h1 o hd1 d1 i (nthZ d1 i) HT1) as (s & R & HAt); [apply zget_ok; lia|].
    assert (Ez : zset (nthZ d1 i) k (P i k) = Ok (upd (nthZ d1 i) k (P i k))) by (apply zset_ok; lia).
    pose proof (zset_own _ _ _ _ _ _ _ (AtRow_Row _ _ _ _ _ _ _ _ HAt) Ez) as HOs.
    destruct (runs_wrF h0 h1 s _ k (P i k) _ (tb_e _ _ _ _ _ HT1) HOs Ez) as (h2 & R2 & HO2 & He2 & Eh & Ef).
    assert (Ns : sl_arr s <> sl_arr mc). { destruct (HA1 i s (at_s _ _ _ _ _ _ _ _ HAt)) as [G|G]; auto. destruct HOs as (G1 & _). rewrite G in G1. cbn in G1. pose proof (len_nonneg (hf h0)). lia. }
    exists tt, h2. split; [unfold runs; rewrite (wr2_row h1 o i s k _ R); exact R2|].
    pose proof (AtRow_put _ _ _ _ _ _ _ _ _ _ HAt HOs HO2 He2 Eh Ef) as HAt2. exists hd1, (upd d1 i (upd (nthZ d1 i) k (P i k))), q.
    split; [apply HAt2|]. split. { destruct HO1 as (B1 & B2 & B3). split; [auto|split; auto]. rewrite Ef, zget_upd_other; auto. }
    split; [auto|split; [rewrite len_upd; auto|split; [auto|]]].
    intros i' Hi'. rewrite nthZ_upd by lia. destruct (Z.eqb_spec i i').
    - subst i'. replace (i <? i + 1) with true by lia. cbn [orb]. apply part_upd; [split; auto|lia].
    - destruct (Hsame i' Hi') as [Q1 Q2]; [auto|]. specialize (HP i' Hi'). rewrite Q1, Q2. replace (i' <? i + 1) with (i' <? i) by lia. exact HP. }
  specialize (HP i Hi) as HPi. replace (i <? i) with false in HPi by lia. cbn [orb] in HPi.
  destruct (Z.ltb_spec 0 k).
  - destruct (Tab_rdS h0 h o hd d i (nthZ d i) HT) as (s & R & HAt); [apply zget_ok; lia|]. eapply g_step; [exact R|].
    assert (Ez : zset (nthZ d i) k (P i k) = Ok (upd (nthZ d i) k (P i k))) by (destruct HPi; apply zset_ok; lia).
    pose proof (zset_own _ _ _ _ _ _ _ (AtRow_Row _ _ _ _ _ _ _ _ HAt) Ez) as (G1 & _). pose proof (len_nonneg (hf h0)).
    replace (isnil s) with false by (unfold isnil; lia). eapply g_step; [reflexivity|]. apply (W h hd d); auto.
  - destruct (zget_some d i) as (q0 & Hq0); [lia|]. destruct (Tab_rdS h0 h o hd d i q0 HT Hq0) as (s & R & HAt). pose proof (at_s _ _ _ _ _ _ _ _ HAt) as Es.
    rewrite HPi in Es. injection Es as <-. eapply g_step; [exact R|]. change (isnil nilsl) with true. cbv iota.
    destruct (runs_makeF h0 h c _ (tb_e _ _ _ _ _ HT) (make_ok _ c ltac:(lia))) as (t & h1 & R1 & HOt & He1 & Ea & Ef1 & Eh1).
    destruct (Tab_newF h0 h o hd d c _ HT (make_ok _ c ltac:(lia))) as (t' & h1' & R1' & HL). unfold runs in R1, R1'. rewrite R1 in R1'. injection R1' as <- <-.
    destruct (Loose_wrS _ _ _ _ _ _ _ i HL ltac:(lia)) as (h2 & R2 & HT2 & HO2).
    assert (Ef2 : hf h2 = hf h1).
    { unfold runs, wrS in R2. destruct (inb i (sl_len o)); [|discriminate]. destruct (zget (hs h1) (sl_arr o)); [|discriminate..]. cbn [bind] in R2.
      destruct (zset _ _ _); [|discriminate..]. cbn [bind] in R2. destruct (zset _ _ _); [|discriminate..]. injection R2 as <-. reflexivity. }
    eapply g_step; [eapply runs_bind; [exact R1|exact R2]|].
    apply (W h2 (upd hd i t) (upd d i (repeat fzero (Z.to_nat c)))); auto.
    + pose proof (Own_frame _ _ _ _ _ _ HO Ef1) as (B1 & B2 & B3). split; [auto|split; auto]. rewrite Ef2. exact B3.
    + intros i' s' Hs'. rewrite zget_upd in Hs'. destruct (Z.eqb_spec i i').
      * subst i'. rewrite (proj2 (inb_true _ _)) in Hs' by lia. cbn in Hs'. injection Hs' as <-. left. destruct HO as (_ & _ & B3). apply zget_range in B3. lia.
      * cbn in Hs'. eapply HA; eauto.
    + rewrite len_upd. auto.
    + rewrite nthZ_upd_eq by lia. split; [apply len_repeat; lia|]. intros; lia.
    + intros i' Hi' N. rewrite nthZ_upd_ne by lia. rewrite zget_upd_other by auto. auto.
Qed.
Lemma MJ_fill b rb fb k h : HTab h0 b n rb fb -> 0 <= n -> MJ k h -> 0 <= k < rb -> (forall t, 0 <= t < n -> fb t k = g t k) ->
  goes (mfor 0 n (fun t (_ : unit) => let! x := rd2 b t k in wrF mc t x) tt) h (fun _ => MI k 0).
Proof.
  intros Hb Hn (hd & d & q & HT & HO & HA & L & Lq & HP) Hk Hg.
  eapply g_imp; [apply (g_loop (fun j (_ : unit) h' => exists q', Tab h0 h' o hd d /\ Own h0 h' mc q' /\ part q' n j (fun t => g t k)) n _ tt h Hn)|].
  - exists q. split; auto. split; auto. split; auto. intros; lia.
  - intros j [] h1 Hj (q1 & HT1 & HO1 & HP1). pose proof (tb_e _ _ _ _ _ HT1) as He1. eapply g_step; [apply (tab_rd2 _ _ _ _ _ Hb); auto|]. rewrite Hg by auto.
    destruct (runs_wrF h0 h1 mc q1 j (g j k) (upd q1 j (g j k)) He1 HO1) as (h2 & R2 & HO2 & He2 & Eh & Ef); [destruct HP1; apply zset_ok; lia|].
    eapply g_runs; [exact R2|]. exists (upd q1 j (g j k)). split; [eapply Tab_other; eauto|]. split; auto. apply (part_upd _ _ _ (fun t => g t k)); auto.
  - intros _ h' (q' & HT' & HO' & HP'). exists hd, d, q'. do 5 (split; auto). intros i' Hi'. specialize (HP i' Hi'). replace (i' <? 0) with false by lia. exact HP.
Qed.
Lemma MI_MJ k h : 0 <= k -> MI k r h -> MJ (k + 1) h.
Proof.
  intros Hk (hd & d & q & HT & HO & HA & L & [Lq _] & HP). exists hd, d, q. do 5 (split; auto). intros i' Hi'. specialize (HP i' Hi').
  replace (i' <? r) with true in HP by lia. cbn [orb] in HP. replace (0 <? k + 1) with true by lia. exact HP.
Qed.
End Mul.
Lemma m2_Multiply_HA h a b r n c f g : HTab h a r n f -> HTab h b n c g ->
  returns (let! nCols := h2_cols b in
      let! nSum := h2_cols a in
      let! outData := makeS (h2_rows a) in
      let! mCol := makeF nSum in
      let! _ := mfor 0 nCols (fun col (_ : unit) =>
        let! _ := mfor 0 nSum (fun mRow (_ : unit) =>
          let! x := rd2 b mRow col in wrF mCol mRow x) tt in
        mfor 0 (h2_rows a) (fun row (_ : unit) =>
          let! sum := mfor 0 nSum (fun i sum =>
            let! x := rd2 a row i in
            let! y := rdF mCol i in
            ret (sum + x * y)%f) fzero in
          let! o := rdS outData row in
          let! _ := (if isnil o then let! r := makeF nCols in wrS outData row r else ret tt) in
          wr2 outData row col sum) tt) tt in
      ret outData) h (fun h' o => HTab h' o r c (fun i j => fsum n (fun k => (f i k * g k j)%f))).
Proof.
  intros Ha Hb. destruct (tab_src _ _ _ _ _ Ha) as (Er & Hr & Hn & Ec & Sa). destruct (tab_src _ _ _ _ _ Hb) as (_ & _ & Hc & Ec' & _).
  set (P := fun i j => fsum n (fun k => (f i k * g k j)%f)). apply (goes_returns _ _ (fun o h' => HTab h' o r c P)); [|auto]. rewrite Er.
  eapply g_step; [apply (Ec' h (Ext_refl _))|]. eapply g_step; [apply (Ec h (Ext_refl _))|].
  apply g_bind. eapply g_imp; [apply (g_makeS_nil h h r _ (Ext_refl _) (make_ok _ r ltac:(lia)))|]. intros o h1 (hd & HT & HN).
  rewrite len_repeat in HN by lia.
  destruct (runs_makeF h h1 n _ (tb_e _ _ _ _ _ HT) (make_ok _ n ltac:(lia))) as (mc & h2 & R1 & HO & He2 & Ea & Ef & Eh).
  destruct (Tab_newF h h1 o hd _ n _ HT (make_ok _ n ltac:(lia))) as (mc' & h2' & R1' & HL). unfold runs in R1, R1'. rewrite R1 in R1'. injection R1' as <- <-.
  eapply g_step; [exact R1|]. pose proof HL as [HT2 HO2 HLn].
  assert (J0 : MJ h o mc r n c P 0 h2).
  { exists hd, (repeat [] (Z.to_nat r)), (repeat fzero (Z.to_nat n)). split; [auto|split; [auto|split]].
    - intros i s Hs. left. apply HLn in Hs. lia.
    - split; [apply len_repeat; lia|split; [apply len_repeat; lia|]]. intros i' Hi'. cbn. apply HN. auto. }
  apply g_bind. eapply g_imp; [apply (g_loop (fun k (_ : unit) => MJ h o mc r n c P k) c _ tt h2); [lia|exact J0|]|].
  - intros k [] h3 Hk HJ. apply g_bind. eapply g_imp; [eapply (MJ_fill h o mc r n c g P b c g k h3); auto; lia|]. intros [] h4 HI.
    eapply g_imp; [apply (g_loop (fun i (_ : unit) => MI h o mc r n c g P k i) r _ tt h4); [lia|exact HI|]|].
    + intros i [] h5 Hi HI5. pose proof (MI_e _ _ _ _ _ _ _ _ _ _ _ HI5) as He5. eapply g_step with (a := P i k) (h1 := h5).
      * apply (g_sum n _ (fun t => (f i t * g t k)%f)); [lia|]. intros t s Ht. unfold mbind. rewrite (tab_rd2 _ _ _ _ _ Ha) by auto.
        destruct HI5 as (hd5 & d5 & q5 & _ & HO5 & _ & _ & [Lq Hq] & _). rewrite <- Hq by auto. rewrite (runs_rdF h5 mc q5 t (nthZ q5 t)); [reflexivity|eapply Own_VRep; eauto|apply zget_ok; lia].
      * eapply MI_row; eauto.
    + intros [] h5 HI5. apply (MI_MJ h o mc r n c g P); auto; lia.
  - intros [] h3 (hd3 & d3 & q3 & HT3 & _ & _ & L3 & _ & HP3). apply g_ret. eapply TabE_HTab; [lia|lia|exists hd3; exact HT3|].
    replace (0 <? c) with true in HP3 by lia. split; [split; auto; intros i Hi; apply (HP3 i Hi)|]. intros i j Hi Hj. apply (HP3 i Hi); auto.
Qed.
Lemma ok_step {A B} (m : M A) (f : A -> M B) h x R : m h = (Ok x, h) -> returns (f x) h R -> returns (mbind m f) h R.
Proof. intros E (y & h' & E' & H). exists y, h'. unfold mbind. rewrite E. auto. Qed.
Lemma m2_Multiply h a m r n c f g : HTab h a r n f -> HMatIs h m n c g ->
  returns (h2_Multiply a m) h (fun h' o => HTab h' o r c (fun i j => fsum n (fun k => (f i k * g k j)%f))).
Proof.
  intros Ha Hm. unfold h2_Multiply. eapply ok_step; [eapply (ckMul_ok h (HA a) m r n c f g); eauto|]. destruct m as [b|s|b]; cbv zeta.
  - apply m2_Multiply_HA; auto.
  - apply (m2_Multiply_At h a (HD s)); auto.
  - apply (m2_Multiply_At h a (HB b)); auto.
Qed.
End HeapArithMain.

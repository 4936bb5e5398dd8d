(** The QR decomposition, for arbitrary scalar operations: closed forms of the
    loops as functions of tables. *)
From Coq Require Import ZArith List Lia Bool.
From Verif Require Import Base BaseLemmas Wpe Scalar Vector VecSpec VectorFacts Matrix MatSpec MatFacts Array2D BlockM Diagonal RealMatrixM Array2DFacts MatrixOps MatHist MatProps BlockLoops BlockFacts RealMat2 RealMat3 TabTac FSum CholFacts LUFacts2 QR.
Import ListNotations.
Open Scope Z_scope.

Ltac rp := unfold rowpart, colpart, vecpart, tset; zbq; subst; auto.

Section QRFacts.
Context {O : Ops}.

(** ** The decomposition *)
Section Step.
Variable m : Z.
Definition hh_norm (x : Z -> F) (k : Z) : F := fsqrt (fadds fzero k m (fun r => x r * x r)%f).
Definition hh_a (x : Z -> F) (k : Z) : F := if fgt (x k) fzero then (hh_norm x k * fneg fone)%f else hh_norm x k.
Definition hh_v (x : Z -> F) (k r : Z) : F := if feq (hh_a x k) fzero then x r else if r =? k then (x k - hh_a x k)%f else x r.
Definition hh_alpha (x z : Z -> F) (k : Z) : F := (fsubl fzero k m (fun r => z r * hh_v x k r) / (hh_a x k * hh_v x k k))%f.
Definition hh_M (M : Z -> Z -> F) (k j r : Z) : F :=
  if feq (hh_a (M k) k) fzero then M j r else
  if j =? k then hh_v (M k) k r else
  if (k <? j) && (k <=? r) then (M j r - hh_alpha (M k) (M j) k * hh_v (M k) k r)%f else M j r.
Definition hh_D (M : Z -> Z -> F) (D : Z -> F) (k i : Z) : F := if i =? k then hh_a (M k) k else D i.
Definition hh_step (k : Z) (s : (Z -> Z -> F) * (Z -> F)) : (Z -> Z -> F) * (Z -> F) := (hh_M (fst s) k, hh_D (fst s) (snd s) k).
Definition hh_iter (A : Z -> Z -> F) (k : Z) : (Z -> Z -> F) * (Z -> F) := accum hh_step (Z.to_nat k) ((fun j r => A r j), fun _ => fzero).
End Step.

Lemma qr_reflect_ok m n p qrt M rD D k : RTab qrt n m M -> VTab rD p D -> 0 <= k < n -> k < m -> k < p ->
  wp (qr_reflect k (qrt, rD)) (fun s => RTab (fst s) n m (hh_M m M k) /\ VTab (snd s) p (hh_D m M D k)).
Proof.
  intros H HD Hk Hkm Hkp. unfold qr_reflect. vrow row Hrow. rewrite (VTab_len _ _ _ Hrow).
  rewrite (for_adds (fun r => M k r * M k r)%f) by (try lia; intros; vget; auto). cbn [bind]. vget. fold (hh_norm m (M k) k).
  match goal with |- context [if fgt ?a ?b then _ else _] => change (if fgt a b then (hh_norm m (M k) k * fneg fone)%f else hh_norm m (M k) k) with (hh_a m (M k) k) end.
  vput rD1 HD1. assert (HD2 : VTab rD1 p (hh_D m M D k)) by (eapply VTab_ext; [exact HD1|]; intros; unfold hh_D; cbn beta; zb; subst; auto).
  clear HD1. destruct (feq (hh_a m (M k) k) fzero) eqn:Ea.
  - apply wp_ok. cbn [fst snd]. split; auto. eapply RTab_ext; [exact H|]. intros. unfold hh_M. rewrite Ea. auto.
  - tput q1 H1. apply wp_bind. rewrite (RTab_len _ _ _ _ H1).
    assert (Ev : forall r, hh_v m (M k) k r = if r =? k then (M k k - hh_a m (M k) k)%f else M k r) by (intros; unfold hh_v; rewrite Ea; auto).
    apply (wp_for (fun c q => RTab q n m (fun j r => if j =? k then hh_v m (M k) k r else
      if (k <? j) && (j <? c) && (k <=? r) then (M j r - hh_alpha m (M k) (M j) k * hh_v m (M k) k r)%f else M j r))); [lia| | |].
    + eapply RTab_ext; [exact H1|]. intros j r Hj Hr. cbn beta. rewrite Ev. rp.
    + intros col q Hc Hq. vrow rc Hrc. rewrite (VTab_len _ _ _ Hrc).
      rewrite (for_subl (fun r => M col r * hh_v m (M k) k r)%f) by (try lia; intros; repeat tget; cbn beta; zbq; auto).
      cbn [bind]. tget. rewrite Z.eqb_refl. fold (hh_alpha m (M k) (M col) k).
      apply (wp_rowloop (fun r => M col r - hh_alpha m (M k) (M col) k * hh_v m (M k) k r)%f q n m _ col k m _ _ Hq); try lia.
      * intros r q' Hr Hq'. repeat tget. unfold rowpart. f_equal. f_equal; [zbq; auto|]. f_equal; zbq; auto.
      * intros q' Hq'. eapply RTab_ext; [exact Hq'|]. intros j r Hj Hr. cbn beta. rp.
    + intros q Hq. apply wp_ok. cbn [fst snd]. split; auto. eapply RTab_ext; [exact Hq|]. intros j r Hj Hr. unfold hh_M. rewrite Ea. cbn beta. zbq; auto.
Qed.

(** A matrix whose transpose can be computed (general matrices; over the reals
    also diagonal ones). *)
Definition transposes (mt : RealMatrix) (m n : Z) (A : Z -> Z -> F) : Prop :=
  MatIs mt m n A /\ exists t, m_Transpose mt = Ok t /\ library t /\ MatIs t n m (fun i j => A j i).
Lemma transposes_general mt m n A : general mt -> MatIs mt m n A -> transposes mt m n A.
Proof.
  intros Hg H. split; auto. destruct (m_Transpose_ok mt m n A Hg H) as (t & E & Hgt & Ht). exists t. split; auto. split; auto. apply gen_lib; auto.
Qed.

Definition qr_done (m n : Z) (A : Z -> Z -> F) (d : QRD) : Prop :=
  RTab (qr_qrt d) n m (fst (hh_iter m A (Z.min m n))) /\ VTab (qr_rDiag d) (Z.min m n) (snd (hh_iter m A (Z.min m n))).
Lemma qr_new_spec mt m n A thr : transposes mt m n A -> 1 <= m -> 1 <= n ->
  wp (NewQRDecompositionWithThreshold mt thr) (fun d => qr_done m n A d /\
    qr_cachedQ d = None /\ qr_cachedQT d = None /\ qr_cachedR d = None /\ qr_cachedH d = None /\ qr_threshold d = thr).
Proof.
  intros (Hm & t & Et & Hlt & Ht) H1 H2. unfold NewQRDecompositionWithThreshold.
  rewrite (MatIs_cols _ _ _ _ Hm), (MatIs_rows _ _ _ _ Hm), Et. cbn [bind]. apply wp_bind.
  eapply wp_conseq; [apply (m_Data_ok t n m _ Hlt Ht)|]. cbn beta. intros qrt Hq.
  destruct (make_VTab (Z.min m n) ltac:(lia)) as (rD & -> & HD). cbn [bind]. vrow row Hrow. rewrite (VTab_len _ _ _ Hrow), (RTab_len _ _ _ _ Hq), (Z.min_comm n m).
  apply wp_bind. apply (wp_for (fun k s => RTab (fst s) n m (fst (hh_iter m A k)) /\ VTab (snd s) (Z.min m n) (snd (hh_iter m A k)))); [lia| | |].
  - split; auto.
  - intros k [q rD1] Hk [Hq1 HD1]. eapply wp_conseq; [apply (qr_reflect_ok m n (Z.min m n) q _ rD1 _ k Hq1 HD1); lia|]. cbn beta.
    intros s [Hs1 Hs2]. unfold hh_iter. rewrite accum_S by lia. split; auto.
  - intros [q rD1] [Hq1 HD1]. apply wp_ok. cbn. repeat split; auto; apply Hq1 || apply HD1.
Qed.

(** ** Accessors *)
Section Tabs.
Variables m n : Z.
Variable M : Z -> Z -> F.
Variable D : Z -> F.
Definition tabR (i j : Z) : F := if i <? Z.min m n then (if i =? j then D i else if i <? j then M j i else fzero) else fzero.
(** The rows of QT before the step [k] of the descending loop. *)
Definition qt_alpha (k : Z) (q : Z -> F) : F := (fsubl fzero k m (fun r => q r * M k r) / (D k * M k k))%f.
Definition qt_unit (T : Z -> Z -> F) (k i j : Z) : F := if (i =? k) && (j =? k) then fone else T i j.
Definition qt_step (k : Z) (T : Z -> Z -> F) (i j : Z) : F :=
  if feq (M k k) fzero then qt_unit T k i j else
  if (k <=? i) && (k <=? j) then (qt_unit T k i j + fneg (qt_alpha k (qt_unit T k i)) * M k j)%f else T i j.
Definition qt_init (i j : Z) : F := if (i =? j) && (n <=? i) then fone else fzero.
(** After the steps p-1, ..., k. *)
Definition qt_iter (k : Z) : Z -> Z -> F := accum (fun t T => qt_step (Z.min m n - 1 - t) T) (Z.to_nat (Z.min m n - k)) qt_init.
Definition tabQT : Z -> Z -> F := qt_iter 0.
Definition tabH (i j : Z) : F := if j <=? i then (M j i / fneg (D j))%f else fzero.

Lemma qt_iter_S k : 0 <= k < Z.min m n -> qt_iter k = qt_step k (qt_iter (k + 1)).
Proof.
  intros Hk. unfold qt_iter. replace (Z.min m n - k) with (Z.min m n - (k + 1) + 1) by lia. rewrite accum_S by lia. f_equal. lia.
Qed.
Definition tcache (c : option RealMatrix) (a b : Z) (f : Z -> Z -> F) : Prop := match c with None => True | Some x => general x /\ MatIs x a b f end.
Definition qr_ok (thr : F) (d : QRD) : Prop :=
  RTab (qr_qrt d) n m M /\ VTab (qr_rDiag d) (Z.min m n) D /\ qr_threshold d = thr /\
  tcache (qr_cachedQ d) m m (fun i j => tabQT j i) /\ tcache (qr_cachedQT d) m m tabQT /\ tcache (qr_cachedR d) m n tabR /\ tcache (qr_cachedH d) m n tabH.
End Tabs.
Arguments tcache : simpl never.

Ltac qrok := refine (conj _ (conj _ (conj _ (conj _ (conj _ (conj _ _)))))); auto.

Lemma tcache_some c a b f m : tcache (Some m) a b f -> c = Some m -> general m /\ MatIs m a b f. Proof. intros H _. exact H. Qed.

Lemma qr_R_ok m n M D thr d : 1 <= m -> 1 <= n -> qr_ok m n M D thr d ->
  wp (qr_R d) (fun r => general (fst r) /\ MatIs (fst r) m n (tabR m n M D) /\ qr_ok m n M D thr (snd r)).
Proof.
  intros Hm Hn (HT & HD & Ht & CQ & CQT & CR & CH). unfold qr_R. destruct (qr_cachedR d) as [r|] eqn:Ec.
  - apply wp_ok. cbn [fst snd]. destruct CR as [G1 G2]. refine (conj G1 (conj G2 _)). unfold qr_ok. rewrite Ec. qrok. split; auto.
  - vrow row Hrow. rewrite (VTab_len _ _ _ Hrow), (RTab_len _ _ _ _ HT). apply wp_bind.
    eapply wp_conseq; [apply (make2_spec m n); lia|]. cbn beta. intros ra Hra. apply wp_bind.
    apply (wp_for_down (fun k ra => RTab ra m n (fun i j => if k <=? i then tabR m n M D i j else fzero))); [lia| | |].
    + eapply RTab_ext; [exact Hra|]. intros i j Hi Hj. cbn beta. unfold tabR. zbq; auto.
    + intros k ra1 Hk H1. vget. tput ra2 H2.
      apply (wp_rowloop (fun j => M j k) ra2 m n _ k (k + 1) n _ _ H2); try lia.
      * intros j ra' Hj H'. tget. auto.
      * intros ra' H'. eapply RTab_ext; [exact H'|]. intros i j Hi Hj. cbn beta. unfold tabR. rp; congruence.
    + intros ra1 H1. assert (H2 : RTab ra1 m n (tabR m n M D)) by (eapply RTab_ext; [exact H1|]; intros; cbn beta; zbq; auto).
      destruct (FromSlices_RTab ra1 m n _ ltac:(lia) ltac:(lia) H2) as (r & -> & Hg & Hr). cbn [orpanic bind]. apply wp_ok. cbn [fst snd].
      refine (conj Hg (conj Hr _)). unfold qr_ok. cbn. qrok. split; auto.
Qed.

Lemma qr_QT_ok m n M D thr d : 1 <= m -> 1 <= n -> qr_ok m n M D thr d ->
  wp (qr_QT d) (fun r => general (fst r) /\ MatIs (fst r) m m (tabQT m n M D) /\ qr_ok m n M D thr (snd r)).
Proof.
  intros Hm Hn (HT & HD & Ht & CQ & CQT & CR & CH). unfold qr_QT. destruct (qr_cachedQT d) as [r|] eqn:Ec.
  - apply wp_ok. cbn [fst snd]. destruct CQT as [G1 G2]. refine (conj G1 (conj G2 _)). unfold qr_ok. rewrite Ec. qrok. split; auto.
  - vrow row Hrow. rewrite (VTab_len _ _ _ Hrow), (RTab_len _ _ _ _ HT). apply wp_bind.
    eapply wp_conseq; [apply (make2_spec m m); lia|]. cbn beta. intros qt Hqt. apply wp_bind.
    apply (wp_for_down (fun k qt => RTab qt m m (fun i j => if (i =? j) && (k <=? i) then fone else fzero))); [lia| | |].
    { eapply RTab_ext; [exact Hqt|]. intros i j Hi Hj. cbn beta. zbq; auto. }
    { intros k q1 Hk H1. destruct (RTab_set q1 m m _ k k fone H1) as (q2 & -> & H2); [lia|lia|]. apply wp_ok.
      eapply RTab_ext; [exact H2|]. intros i j Hi Hj. cbn beta. unfold tset. zbq; auto. }
    intros q1 H1. apply wp_bind.
    apply (wp_for_down (fun k qt => RTab qt m m (qt_iter m n M D k))); [lia| | |].
    + replace (Z.min m n - 1 + 1) with (Z.min m n) by lia. unfold qt_iter. rewrite Z.sub_diag. cbn [Z.to_nat accum].
      eapply RTab_ext; [exact H1|]. intros i j Hi Hj. cbn beta. unfold qt_init. zbq; auto.
    + intros k q2 Hk H2. vrow vk Hvk. tput q3 H3. vget.
      assert (H4 : RTab q3 m m (qt_unit (qt_iter m n M D (k + 1)) k)) by exact H3. clear H3.
      rewrite qt_iter_S by lia. remember (qt_unit (qt_iter m n M D (k + 1)) k) as T eqn:ET.
      unfold qt_step. rewrite <- ET. destruct (feq (M k k) fzero) eqn:E0.
      { apply wp_ok. exact H4. }
      apply (wp_for (fun c q => RTab q m m (fun i j => if (k <=? i) && (i <? c) && (k <=? j) then (T i j + fneg (qt_alpha m M D k (T i)) * M k j)%f else T i j))); [lia| | |].
      * eapply RTab_ext; [exact H4|]. intros i j Hi Hj. cbn beta. zbq; auto.
      * intros c q Hc Hq. rewrite (for_subl (fun r => T c r * M k r)%f) by (try lia; intros; tget; vget; cbn beta; zbq; auto).
        cbn [bind]. repeat vget. fold (qt_alpha m M D k (T c)).
        apply (wp_rowloop (fun j => T c j + fneg (qt_alpha m M D k (T c)) * M k j)%f q m m _ c k m _ _ Hq); try lia.
        -- intros r q' Hr Hq'. tget. vget. f_equal. f_equal. unfold rowpart. zbq; auto.
        -- intros q' Hq'. eapply RTab_ext; [exact Hq'|]. intros i j Hi Hj. cbn beta. rp.
      * intros q Hq. eapply RTab_ext; [exact Hq|]. intros i j Hi Hj. cbn beta. rewrite ET. unfold qt_unit. zbq; subst; auto.
    + intros q2 H2. fold (tabQT m n M D) in H2.
      destruct (FromSlices_RTab q2 m m _ ltac:(lia) ltac:(lia) H2) as (r & -> & Hg & Hr). cbn [orpanic bind]. apply wp_ok. cbn [fst snd].
      refine (conj Hg (conj Hr _)). unfold qr_ok. cbn. qrok. split; auto.
Qed.
Lemma qr_Q_ok m n M D thr d : 1 <= m -> 1 <= n -> qr_ok m n M D thr d ->
  wp (qr_Q d) (fun r => general (fst r) /\ MatIs (fst r) m m (fun i j => tabQT m n M D j i) /\ qr_ok m n M D thr (snd r)).
Proof.
  intros Hm Hn H. unfold qr_Q. destruct (qr_cachedQ d) as [r|] eqn:Ec.
  - destruct H as (HT & HD & Ht & CQ & CQT & CR & CH). rewrite Ec in CQ.
    apply wp_ok. cbn [fst snd]. destruct CQ as [G1 G2]. refine (conj G1 (conj G2 _)). unfold qr_ok. rewrite Ec. qrok. split; auto.
  - apply wp_bind. eapply wp_conseq; [apply (qr_QT_ok m n M D thr d Hm Hn H)|]. cbn beta. intros [t d1] (Hg & Ht & H1). cbn [fst snd] in *.
    destruct (m_Transpose_ok t m m _ Hg Ht) as (r & -> & Hgr & Hr). cbn [bind]. apply wp_ok. cbn [fst snd].
    refine (conj Hgr (conj Hr _)). destruct H1 as (HT & HD & Hth & CQ & CQT & CR & CH). unfold qr_ok. cbn. qrok. split; auto.
Qed.
Lemma qr_H_ok m n M D thr d : 1 <= m -> 1 <= n -> qr_ok m n M D thr d ->
  wp (qr_H d) (fun r => general (fst r) /\ MatIs (fst r) m n (tabH M D) /\ qr_ok m n M D thr (snd r)).
Proof.
  intros Hm Hn (HT & HD & Ht & CQ & CQT & CR & CH). unfold qr_H. destruct (qr_cachedH d) as [r|] eqn:Ec.
  - apply wp_ok. cbn [fst snd]. destruct CH as [G1 G2]. refine (conj G1 (conj G2 _)). unfold qr_ok. rewrite Ec. qrok. split; auto.
  - vrow row Hrow. rewrite (VTab_len _ _ _ Hrow), (RTab_len _ _ _ _ HT). rewrite make_ok by lia. cbn [bind]. apply wp_bind.
    apply (wp_for (fun k (ha : mat) => len ha = m /\ (forall i, 0 <= i < k -> VTab (nthZ ha i) n (tabH M D i)))); [lia| | |].
    + split; [apply len_repeat; lia|intros; lia].
    + intros i ha Hi [Hl Hr]. destruct (make_VTab n ltac:(lia)) as (r0 & -> & Hr0). cbn [bind]. rewrite zset_ok by lia. cbn [bind].
      apply (wp_for (fun j (ha : mat) => len ha = m /\ (forall p, 0 <= p < i -> VTab (nthZ ha p) n (tabH M D p)) /\
        VTab (nthZ ha i) n (fun q => if q <? j then tabH M D i q else fzero))); [lia| | |].
      * rewrite len_upd. split; [auto|]. split.
        -- intros p Hp. rewrite nthZ_upd_ne by lia. auto.
        -- rewrite nthZ_upd_eq by lia. eapply VTab_ext; [exact Hr0|]. intros. cbn beta. zbq; auto.
      * intros j ha1 Hj (Hl1 & Hp1 & Hi1). tget. vget. unfold mset. rewrite zget_ok by lia. cbn [bind].
        destruct (VTab_set _ _ _ j (M j i / fneg (D j))%f Hi1) as (l2 & -> & H2); [lia|]. cbn [bind]. rewrite zset_ok by lia. apply wp_ok.
        rewrite len_upd. split; [auto|]. split.
        -- intros p Hp. rewrite nthZ_upd_ne by lia. auto.
        -- rewrite nthZ_upd_eq by lia. eapply VTab_ext; [exact H2|]. intros q Hq. cbn beta. unfold tabH. zbq; subst; auto.
      * intros ha1 (Hl1 & Hp1 & Hi1). split; [auto|]. intros p Hp. destruct (Z.eq_dec p i) as [->|]; [|apply Hp1; lia].
        eapply VTab_ext; [exact Hi1|]. intros q Hq. cbn beta. unfold tabH. zbq; auto.
    + intros ha [Hl Hr]. assert (H2 : RTab ha m n (tabH M D)).
      { split; [split; [auto|]|]; intros; apply Hr; auto. }
      destruct (FromSlices_RTab ha m n _ ltac:(lia) ltac:(lia) H2) as (r & -> & Hg & Hr'). cbn [orpanic bind]. apply wp_ok. cbn [fst snd].
      refine (conj Hg (conj Hr' _)). unfold qr_ok. cbn. qrok. split; auto.
Qed.

(** ** The solver *)
Lemma checkSingular_ok l p D thr raise : VTab l p D -> 0 <= p ->
  ((forall i, 0 <= i < p -> fle (fabs (D i)) thr = false) /\ checkSingular l thr raise = Ok false) \/
  ((exists i, 0 <= i < p /\ fle (fabs (D i)) thr = true) /\ checkSingular l thr raise = if raise then Panic ESingular else Ok true).
Proof.
  intros H Hp. unfold checkSingular. rewrite (VTab_len _ _ _ H).
  assert (G : forall k : nat, Z.of_nat k <= p ->
    let body := (fun i sing => let* d := zget l i in if fle (fabs d) thr then (if raise then Panic ESingular else Ok (true, true)) else Ok (false, sing)) in
    ((forall i, p - Z.of_nat k <= i < p -> fle (fabs (D i)) thr = false) /\ for_brk (p - Z.of_nat k) p body false = Ok (false, false)) \/
    ((exists i, p - Z.of_nat k <= i < p /\ fle (fabs (D i)) thr = true) /\ for_brk (p - Z.of_nat k) p body false = if raise then Panic ESingular else Ok (true, true))).
  { induction k as [|k IH]; intros Hk body.
    - left. split; [intros; lia|]. rewrite for_brk_nil by lia. auto.
    - rewrite for_brk_step by lia. unfold body at 1 3. vget. destruct (fle (fabs (D (p - Z.of_nat (Datatypes.S k)))) thr) eqn:E.
      + right. split; [exists (p - Z.of_nat (Datatypes.S k)); split; [lia|auto]|]. destruct raise; auto.
      + cbn [bind fst snd]. replace (p - Z.of_nat (Datatypes.S k) + 1) with (p - Z.of_nat k) by lia.
        destruct (IH ltac:(lia)) as [[I1 I2]|[(i & Hi & He) I2]]; unfold body; rewrite I2.
        * left. split; [|auto]. intros i Hi. destruct (Z.eq_dec i (p - Z.of_nat (Datatypes.S k))) as [->|]; auto. apply I1. lia.
        * right. split; [exists i; split; [lia|auto]|auto]. }
  specialize (G (Z.to_nat p) ltac:(lia)). rewrite Z2Nat.id in G by lia. rewrite Z.sub_diag in G. cbv zeta in G.
  destruct G as [[G1 ->]|[G1 ->]]; [left|right]; split; auto. destruct raise; auto.
Qed.

Section Solve.
Variables m n : Z.
Variable M : Z -> Z -> F.
Variable D : Z -> F.
(** SolveVector: the right-hand side after the reflections 0..k-1. *)
Definition sv_dot (k : Z) (y : Z -> F) : F := (fadds fzero k m (fun r => y r * M k r) / (D k * M k k))%f.
Definition sv_step (k : Z) (y : Z -> F) (i : Z) : F := if k <=? i then (y i + sv_dot k y * M k i)%f else y i.
Definition sv_y (b : Z -> F) : Z -> F := accum sv_step (Z.to_nat (Z.min m n)) b.
(** The answer [x] to the right-hand side [b]. *)
Definition sv_sol (b x : Z -> F) : Prop :=
  (forall i, 0 <= i < Z.min m n -> x i = (fsubd (sv_y b i) (i + 1) (Z.min m n) (fun t => x t * M t i) / D i)%f) /\
  (forall i, Z.min m n <= i < n -> x i = fzero).
(** SolveMatrix, one column. *)
Definition sm_dot (k : Z) (y : Z -> F) : F := (fadds fzero k m (fun r => M k r * y r) * (fone / (D k * M k k)))%f.
Definition sm_step (k : Z) (y : Z -> F) (i : Z) : F := if k <=? i then (y i + sm_dot k y * M k i)%f else y i.
Definition sm_y (b : Z -> F) : Z -> F := accum sm_step (Z.to_nat (Z.min m n)) b.
Definition sm_sol (b x : Z -> F) : Prop :=
  (forall i, 0 <= i < Z.min m n -> x i = (fsubd (sm_y b i) (i + 1) (Z.min m n) (fun t => x t * M t i) * (fone / D i))%f) /\
  (forall i, Z.min m n <= i < n -> x i = fzero).
End Solve.

Lemma qrs_SolveVector_ok m n M D thr d v b : 1 <= m -> 1 <= n -> qr_ok m n M D thr d -> VecIs v m b ->
  (forall i, 0 <= i < Z.min m n -> fle (fabs (D i)) thr = false) ->
  wp (qrs_SolveVector d v) (fun r => exists x, VecIs r n x /\ sv_sol m n M D b x).
Proof.
  intros Hm Hn (HT & HD & Ht & _) Hv Hs. unfold qrs_SolveVector. vrow row Hrow. rewrite (VTab_len _ _ _ Hrow), (RTab_len _ _ _ _ HT).
  assert (Hdim : v_Dimension v = m) by apply Hv. rewrite Hdim, Z.eqb_refl. cbn [negb].
  destruct (checkSingular_ok _ _ _ thr true HD ltac:(lia)) as [[_ E]|[(i & Hi & He) _]]; [|rewrite Hs in He by lia; discriminate].
  rewrite Ht, E. cbn [bind]. clear E. destruct (make_VTab n ltac:(lia)) as (x0 & -> & Hx0). cbn [bind].
  assert (Hy : VTab (arv_ToArray (v_data v)) m b) by (apply VecIs_VTab; auto).
  remember (arv_ToArray (v_data v)) as y0 eqn:Ey0. clear Ey0. apply wp_bind.
  apply (wp_for (fun k y => VTab y m (accum (sv_step m M D) (Z.to_nat k) b))); [lia|exact Hy| |].
  { intros k y Hk H1. rewrite accum_S by lia. remember (accum (sv_step m M D) (Z.to_nat k) b) as Y eqn:EY. clear EY.
    vrow vk Hvk. rewrite (for_adds (fun r => Y r * M k r)%f) by (try lia; intros; repeat vget; auto). cbn [bind]. repeat vget.
    fold (sv_dot m M D k Y). apply (wp_vecloop (fun i => Y i + sv_dot m M D k Y * M k i)%f y m Y k m _ _ H1); try lia.
    - intros r y' Hr Hy'. repeat vget. f_equal. f_equal. unfold vecpart. zbq; auto.
    - intros y' Hy'. eapply VTab_ext; [exact Hy'|]. intros i Hi. cbn beta. unfold sv_step. rp. }
  intros y Hy1. fold (sv_y m n M D b) in Hy1. apply wp_bind. rewrite (VTab_len _ _ _ HD).
  set (p := Z.min m n) in *.
  apply (wp_for_down (fun k s => exists x z, VTab (fst s) n x /\ VTab (snd s) m z /\
    (forall i, k <= i < p -> x i = (fsubd (sv_y m n M D b i) (i + 1) p (fun t => x t * M t i) / D i)%f) /\
    (forall i, 0 <= i < k -> x i = fzero) /\ (forall i, p <= i < n -> x i = fzero) /\
    (forall i, 0 <= i < k -> z i = fsubd (sv_y m n M D b i) k p (fun t => x t * M t i)%f))); [lia| | |].
  - exists (fun _ => fzero), (sv_y m n M D b). cbn [fst snd]. split; [auto|]. split; [auto|]. split; [intros; lia|]. split; [auto|]. split; [auto|].
    intros i Hi. rewrite fsubd_nil by lia. auto.
  - intros k [x1 z1] Hk (x & z & Hx & Hz & I1 & I2 & I3 & I4). cbn [fst snd] in Hx, Hz. repeat vget. vput z2 Hz2. vget. rewrite Z.eqb_refl.
    vrow vk Hvk. vput x2 Hx2. apply wp_bind.
    apply (wp_vecloop (fun i => z i - (z k / D k) * M k i)%f z2 m _ 0 k _ _ Hz2); try lia.
    + intros i z' Hi Hz'. repeat vget. f_equal. f_equal. unfold vecpart. zbq; auto.
    + intros z3 Hz3. apply wp_ok. cbn [fst snd]. eexists. eexists. split; [exact Hx2|]. split; [exact Hz3|]. cbn beta.
      assert (Ek : (z k / D k)%f = (fsubd (sv_y m n M D b k) (k + 1) p (fun t => x t * M t k) / D k)%f) by (rewrite I4 by lia; auto).
      split; [|split; [|split]].
      * intros i Hi. destruct (Z.eqb_spec i k) as [->|].
        -- rewrite Ek. f_equal. apply fsubd_ext. intros t Htt. zbq. auto.
        -- rewrite (I1 i) by lia. f_equal. apply fsubd_ext. intros t Htt. zbq. auto.
      * intros i Hi. zbq; auto. apply I2; lia.
      * intros i Hi. zbq; auto.
      * intros i Hi. unfold vecpart. rewrite (fsubd_S _ k) by lia. zbq. rewrite (I4 i) by lia. f_equal.
        apply fsubd_ext. intros t Htt. zbq. auto.
  - intros [x1 z1] (x & z & Hx & Hz & I1 & I2 & I3 & I4). apply wp_ok. cbn [fst snd] in *. exists x. split; [apply VTab_VecIs; auto|]. split; auto.
Qed.
End QRFacts.

(** The rank-revealing QR decomposition, for arbitrary scalar operations. *)
From Coq Require Import ZArith List Lia Bool.
From Verif Require Import Base BaseLemmas Wpe Scalar Vector VecSpec VectorFacts Matrix MatSpec MatFacts Array2D BlockM Diagonal RealMatrixM Array2DFacts MatrixOps MatHist MatProps BlockLoops BlockFacts RealMat2 RealMat3 TabTac FSum CholFacts LUSpec LUFacts LUFacts2 QR QRFacts QRFacts2.
Import ListNotations.
Open Scope Z_scope.

Section QRFacts3.
Context {O : Ops}.

Definition swp (k ix i : Z) : Z := if i =? k then ix else if i =? ix then k else i.
Lemma swp_range n k ix i : 0 <= k < n -> 0 <= ix < n -> 0 <= i < n -> 0 <= swp k ix i < n.
Proof. intros. unfold swp. zbq; lia. Qed.
Lemma swp_swp k ix i : swp k ix (swp k ix i) = i.
Proof. unfold swp. destruct (Z.eqb_spec i k); [destruct (Z.eqb_spec ix k); [lia|rewrite Z.eqb_refl; lia]|]. destruct (Z.eqb_spec i ix); [rewrite Z.eqb_refl; lia|]. destruct (Z.eqb_spec i k); [lia|]. destruct (Z.eqb_spec i ix); lia. Qed.
Lemma permutes_swp n p k ix : permutes n p -> 0 <= k < n -> 0 <= ix < n -> permutes n (fun i => p (swp k ix i)).
Proof.
  intros (P1 & P2 & P3) Hk Hix. split; [|split].
  - intros i Hi. apply P1, swp_range; auto.
  - intros i j Hi Hj E. apply P2 in E; try (apply swp_range; auto). rewrite <- (swp_swp k ix i), E. apply swp_swp.
  - intros q Hq. destruct (P3 q Hq) as (i & Hi & E). exists (swp k ix i). rewrite swp_swp. split; auto. apply swp_range; auto.
Qed.
Lemma permutes_ext n p q : permutes n p -> (forall i, 0 <= i < n -> q i = p i) -> permutes n q.
Proof.
  intros (P1 & P2 & P3) H. split; [|split].
  - intros i Hi. rewrite H by auto. auto.
  - intros i j Hi Hj. rewrite !H by auto. auto.
  - intros k Hk. destruct (P3 k Hk) as (i & Hi & E). exists i. rewrite H by auto. auto.
Qed.
Lemma permutes_id n : permutes n (fun i => i).
Proof. split; [auto|]. split; [auto|]. intros k Hk. exists k. auto. Qed.

(** The pivot choice. *)
Definition rr_l2 (m : Z) (M : Z -> Z -> F) (k i : Z) : F := fadds fzero k m (fun r => M i r * M i r)%f.
Definition rr_pick (m n : Z) (M : Z -> Z -> F) (k : Z) : F * Z :=
  accum (fun t s => if fgt (rr_l2 m M k (k + t)) (fst s) then (rr_l2 m M k (k + t), k + t) else s) (Z.to_nat (n - k)) (fzero, k).

Lemma rr_best_ok m n qrt M k : RTab qrt n m M -> 0 <= k < n -> k < m ->
  rr_best k qrt = Ok (rr_pick m n M k) /\ k <= snd (rr_pick m n M k) < n.
Proof.
  intros H Hk Hkm. unfold rr_best. rewrite (RTab_len _ _ _ _ H).
  enough (W : wp (for_ k n (fun i '(mx, ix) => let* row := zget qrt i in
    let* l2 := for_ k (len row) (fun j acc => let* x := mget qrt i j in let* x' := mget qrt i j in Ok (acc + x * x')%f) fzero in
    Ok (if fgt l2 mx then (l2, i) else (mx, ix))) (fzero, k)) (fun r => r = rr_pick m n M k /\ k <= snd r < n)).
  { destruct W as (r & E & -> & Hr). split; auto. }
  apply (wp_for (fun i s => s = accum (fun t s => if fgt (rr_l2 m M k (k + t)) (fst s) then (rr_l2 m M k (k + t), k + t) else s) (Z.to_nat (i - k)) (fzero, k) /\ k <= snd s < n)); [lia| | |].
  - rewrite Z.sub_diag. cbn [Z.to_nat accum snd]. split; [auto|lia].
  - intros i [mx ix] Hi [E Hix]. vrow row Hrow. rewrite (VTab_len _ _ _ Hrow).
    rewrite (for_adds (fun r => M i r * M i r)%f) by (try lia; intros; repeat tget; auto). cbn [bind]. fold (rr_l2 m M k i). apply wp_ok.
    replace (i + 1 - k) with (i - k + 1) by lia. rewrite accum_S by lia. rewrite <- E. replace (k + (i - k)) with i by lia. cbn [fst].
    destruct (fgt (rr_l2 m M k i) mx); cbn [snd] in *; split; auto; lia.
  - intros s [E Hs]. split; auto.
Qed.
Lemma rr_reflect_ok m n p qrt M rD D pv k : RTab qrt n m M -> VTab rD p D -> len pv = n -> 0 <= k < n -> k < m -> k < p ->
  let ix := snd (rr_pick m n M k) in let M1 := fun j r => M (swp k ix j) r in
  wp (rr_reflect k (qrt, rD, pv)) (fun s => RTab (fst (fst s)) n m (hh_M m M1 k) /\ VTab (snd (fst s)) p (hh_D m M1 D k) /\
    len (snd s) = n /\ forall i, 0 <= i < n -> nthZ (snd s) i = nthZ pv (swp k ix i)).
Proof.
  intros H HD Hl Hk Hkm Hkp. destruct (rr_best_ok m n qrt M k H Hk Hkm) as [E Hix]. unfold rr_reflect. rewrite E. cbv zeta.
  destruct (rr_pick m n M k) as [mx ix]. cbn [snd] in *. cbn [bind].
  assert (W : wp (if negb (ix =? k) then
    let* a := zget qrt ix in let* b := zget qrt k in let* qrt := zset qrt k a in let* qrt := zset qrt ix b in
    let* x := zget pv ix in let* y := zget pv k in let* p := zset pv k x in let* p := zset p ix y in Ok (qrt, p) else Ok (qrt, pv))
    (fun s => RTab (fst s) n m (fun j r => M (swp k ix j) r) /\ len (snd s) = n /\ forall i, 0 <= i < n -> nthZ (snd s) i = nthZ pv (swp k ix i))).
  { destruct (Z.eqb_spec ix k) as [->|Hne]; cbn [negb].
    - apply wp_ok. cbn [fst snd]. split; [|split; [auto|]].
      + eapply RTab_ext; [exact H|]. intros. cbn beta. unfold swp. zbq; subst; auto.
      + intros. unfold swp. zbq; subst; auto.
    - destruct (RTab_row _ _ _ _ ix H ltac:(lia)) as (ra & -> & Hla & Hra). destruct (RTab_row _ _ _ _ k H ltac:(lia)) as (rb & -> & Hlb & Hrb). cbn [bind].
      destruct (RTab_setrow _ _ _ _ k ra _ H ltac:(lia) Hla Hra) as (q1 & -> & H1). cbn [bind].
      destruct (RTab_setrow _ _ _ _ ix rb _ H1 ltac:(lia) Hlb Hrb) as (q2 & -> & H2). cbn [bind].
      rewrite !zget_ok by lia. cbn [bind]. rewrite zset_ok by lia. cbn [bind]. rewrite zset_ok by (rewrite len_upd; lia). cbn [bind]. apply wp_ok. cbn [fst snd].
      split; [|split].
      + eapply RTab_ext; [exact H2|]. intros i j Hi Hj. cbn beta. unfold swp. zbq; subst; auto.
      + rewrite !len_upd. auto.
      + intros i Hi. rewrite nthZ_upd by (rewrite ?len_upd; lia). unfold swp. destruct (Z.eqb_spec ix i) as [->|].
        * zbq; subst; auto.
        * rewrite nthZ_upd by lia. zbq; subst; auto. }
  apply wp_bind. eapply wp_conseq; [exact W|]. cbn beta. intros [q1 p1] (H1 & Hl1 & Hp1). cbn [fst snd] in *. apply wp_bind.
  eapply wp_conseq; [apply (qr_reflect_ok m n p q1 _ rD D k H1 HD); lia|]. cbn beta. intros [q2 rD2] [H2 HD2]. apply wp_ok. cbn [fst snd] in *. auto.
Qed.

(** The iteration: table, diagonal and column order. *)
Definition rr_step (m n k : Z) (s : (Z -> Z -> F) * (Z -> F) * (Z -> Z)) : (Z -> Z -> F) * (Z -> F) * (Z -> Z) :=
  let '(M, D, q) := s in
  let ix := snd (rr_pick m n M k) in let M1 := fun j r => M (swp k ix j) r in
  (hh_M m M1 k, hh_D m M1 D k, fun i => q (swp k ix i)).
Definition rr_iter (m n : Z) (A : Z -> Z -> F) (k : Z) : (Z -> Z -> F) * (Z -> F) * (Z -> Z) :=
  accum (rr_step m n) (Z.to_nat k) ((fun j r => A r j), (fun _ => fzero), fun i => i).

Definition rr_done (m n : Z) (A : Z -> Z -> F) (d : RRQRD) : Prop :=
  let s := rr_iter m n A (Z.min m n) in
  RTab (qr_qrt (rr_qr d)) n m (fst (fst s)) /\ VTab (qr_rDiag (rr_qr d)) (Z.min m n) (snd (fst s)) /\
  len (rr_p d) = n /\ (forall i, 0 <= i < n -> nthZ (rr_p d) i = snd s i).
Lemma pick_range m n M k : 0 <= k < n -> k <= snd (rr_pick m n M k) < n.
Proof.
  intros Hk. unfold rr_pick. enough (G : forall t, 0 <= t <= n - k -> k <= snd (accum (fun t s => if fgt (rr_l2 m M k (k + t)) (fst s) then (rr_l2 m M k (k + t), k + t) else s) (Z.to_nat t) (fzero, k)) < n) by (apply G; lia).
  intros t [Ht Htn]. revert Htn. pattern t. apply natlike_ind; auto.
  - cbn [Z.to_nat accum snd]. lia.
  - intros x Hx IH Hxn. change (Z.succ x) with (x + 1) in *. rewrite accum_S by lia. destruct (fgt _ _); [cbn [snd]; lia|apply IH; lia].
Qed.
Lemma rr_iter_perm m n A k : 0 <= k <= n -> permutes n (snd (rr_iter m n A k)).
Proof.
  intros [Hk Hkn]. revert Hkn. pattern k. apply natlike_ind; auto.
  - intros _. apply permutes_id.
  - intros t Ht IH Htn. change (Z.succ t) with (t + 1) in *. unfold rr_iter. rewrite accum_S by lia. specialize (IH ltac:(lia)). fold (rr_iter m n A t).
    destruct (rr_iter m n A t) as [[M D] q]. cbn [rr_step snd] in *. apply permutes_swp; auto; [lia|]. pose proof (pick_range m n M t ltac:(lia)). lia.
Qed.
Lemma rr_new_spec mt m n A thr : transposes mt m n A -> 1 <= m -> 1 <= n ->
  wp (NewRRQRDecompositionWithThreshold mt thr) (fun d => rr_done m n A d /\ rr_cachedP d = None /\
    qr_cachedQ (rr_qr d) = None /\ qr_cachedQT (rr_qr d) = None /\ qr_cachedR (rr_qr d) = None /\ qr_cachedH (rr_qr d) = None /\ qr_threshold (rr_qr d) = thr).
Proof.
  intros (Hm & t & Et & Hlt & Ht) H1 H2. unfold NewRRQRDecompositionWithThreshold.
  rewrite (MatIs_cols _ _ _ _ Hm), (MatIs_rows _ _ _ _ Hm), Et. cbn [bind]. apply wp_bind.
  eapply wp_conseq; [apply (m_Data_ok t n m _ Hlt Ht)|]. cbn beta. intros qrt Hq.
  destruct (make_VTab (Z.min m n) ltac:(lia)) as (rD & -> & HD). cbn [bind]. rewrite (RTab_len _ _ _ _ Hq). rewrite make_ok by lia. cbn [bind].
  rewrite len_repeat by lia. apply wp_bind.
  apply (wp_for (fun k p => len p = n /\ forall i, 0 <= i < k -> nthZ p i = i)); [lia|split; [apply len_repeat; lia|intros; lia]| |].
  { intros i p Hi [Hl Hp]. rewrite zset_ok by lia. apply wp_ok. rewrite len_upd. split; auto. intros j Hj. rewrite nthZ_upd by lia. zbq; auto. apply Hp; lia. }
  intros p0 [Hl0 Hp0]. vrow row Hrow. rewrite (VTab_len _ _ _ Hrow), (Z.min_comm n m).
  apply wp_bind. apply (wp_for (fun k s => RTab (fst (fst s)) n m (fst (fst (rr_iter m n A k))) /\ VTab (snd (fst s)) (Z.min m n) (snd (fst (rr_iter m n A k))) /\
    len (snd s) = n /\ (forall i, 0 <= i < n -> nthZ (snd s) i = snd (rr_iter m n A k) i))); [lia| | |].
  - cbn [fst snd]. split; [auto|]. split; [auto|]. split; auto.
  - intros k [[q rD1] p1] Hk (Hq1 & HD1 & Hl1 & Hp1). cbn [fst snd] in *.
    eapply wp_conseq; [apply (rr_reflect_ok m n (Z.min m n) q _ rD1 _ p1 k Hq1 HD1 Hl1); lia|]. cbn beta.
    intros s (Hs1 & Hs2 & Hs3 & Hs4). unfold rr_iter. rewrite accum_S by lia. fold (rr_iter m n A k). destruct (rr_iter m n A k) as [[M D] qq]. cbn [rr_step fst snd] in *.
    split; [auto|]. split; [auto|]. split; [auto|]. intros i Hi. rewrite Hs4 by auto. apply Hp1. apply swp_range; auto; [lia|]. pose proof (pick_range m n M k ltac:(lia)). lia.
  - intros [[q rD1] p1] (Hq1 & HD1 & Hl1 & Hp1). apply wp_ok. unfold rr_done. cbn. auto 10.
Qed.

(** Accessors *)
Definition tabPt (q : Z -> Z) (i j : Z) : F := if i =? q j then fone else fzero.
Definition rr_ok (m n : Z) (M : Z -> Z -> F) (D : Z -> F) (q : Z -> Z) (thr : F) (d : RRQRD) : Prop :=
  qr_ok m n M D thr (rr_qr d) /\ len (rr_p d) = n /\ (forall i, 0 <= i < n -> nthZ (rr_p d) i = q i) /\ permutes n q /\ tcache (rr_cachedP d) n n (tabPt q).

Lemma rr_lift_ok m n M D q thr d f (Q : RealMatrix -> Prop) : rr_ok m n M D q thr d ->
  wp (f (rr_qr d)) (fun r => Q (fst r) /\ qr_ok m n M D thr (snd r)) ->
  wp (rr_lift f d) (fun r => Q (fst r) /\ rr_ok m n M D q thr (snd r)).
Proof.
  intros (H1 & H2 & H3 & H4 & H5) W. unfold rr_lift. apply wp_bind. eapply wp_conseq; [exact W|]. cbn beta. intros [r d1] [HQ Hd]. apply wp_ok. cbn [fst snd] in *.
  split; auto. unfold rr_ok. cbn [rr_qr rr_p rr_cachedP]. auto.
Qed.
Lemma rr_P_ok m n M D q thr d : 1 <= n -> rr_ok m n M D q thr d ->
  wp (rr_P d) (fun r => (general (fst r) /\ MatIs (fst r) n n (tabPt q)) /\ rr_ok m n M D q thr (snd r)).
Proof.
  intros Hn (H1 & H2 & H3 & H4 & H5). unfold rr_P. destruct (rr_cachedP d) as [c|] eqn:Ec.
  - apply wp_ok. cbn [fst snd]. split; [auto|]. unfold rr_ok. rewrite Ec. auto.
  - rewrite H2. destruct (new_zero n n Hn Hn) as (_ & _ & m0 & E & Hg & H). rewrite E. cbn [orpanic bind]. apply wp_bind.
    pose proof H4 as (P1 & P2 & P3).
    apply (wp_for (fun k x => general x /\ MatIs x n n (fun i j => if j <? k then tabPt q i j else fzero))); try lia.
    + split; auto. eapply MatIs_ext; [exact H|]. intros. cbn beta. zbq; auto.
    + intros i x Hi [Hgx Hx]. rewrite zget_ok by lia. cbn [bind]. rewrite H3 by lia. pose proof (P1 i Hi).
      eapply wp_setentry; eauto; try lia. intros x2 Hg2 Hx2. split; auto.
      eapply MatIs_ext; [exact Hx2|]. intros a b Ha Hb. cbn beta. unfold tset, tabPt. destruct (Z.ltb_spec b (i+1)), (Z.ltb_spec b i), (Z.eqb_spec b i), (Z.eqb_spec a (q b)), (Z.eqb_spec a (q i)); cbn [andb]; subst; auto; try lia; try (exfalso; congruence).
    + intros x [Hgx Hx]. apply wp_ok. cbn [fst snd].
      assert (HL : MatIs x n n (tabPt q)) by (eapply MatIs_ext; [exact Hx|]; intros; cbn beta; zbq; auto).
      split; [auto|]. unfold rr_ok. cbn [rr_qr rr_p rr_cachedP]. split; [auto|]. split; [auto|]. split; [auto|]. split; [auto|]. split; auto.
Qed.

(** Rank always lies between 1 and min(m,n). *)
Lemma MatFrob_total x r c f : library x -> MatIs x r c f -> 1 <= r -> 1 <= c -> exists v, MatFrobeniusNorm x = Ok v.
Proof.
  intros Hl H Hr Hc. unfold MatFrobeniusNorm. rewrite (m_Walk_ok OptimizedOrder x r c f frobVisitor fzero Hl H). unfold read_result.
  assert (G : forall l s, exists v, visits frobVisitor l f s = Ok v).
  { induction l as [|[i j] l IH]; intros s; cbn [visits frobVisitor mv_visit bind]; [eauto|]. apply IH. }
  match goal with |- context [visits frobVisitor ?l f ?s] => destruct (G l s) as (v & ->) end. cbn [bind]. eauto.
Qed.
Lemma rr_Rank_ok m n M D q thr d drop : 1 <= m -> 1 <= n -> rr_ok m n M D q thr d ->
  wp (rr_Rank d drop) (fun r => 1 <= fst r <= Z.min m n /\ rr_ok m n M D q thr (snd r)).
Proof.
  intros Hm Hn Hok. unfold rr_Rank. apply wp_bind.
  eapply wp_conseq; [apply (rr_lift_ok m n M D q thr d qr_R (fun r => general r /\ MatIs r m n (tabR m n M D)) Hok)|].
  { eapply wp_conseq; [apply (qr_R_ok m n M D thr (rr_qr d) Hm Hn (proj1 Hok))|]. cbn beta. intros r (A1 & A2 & A3). auto. }
  cbn beta. intros [r d1] [[Hg Hr] Hd1]. cbn [fst snd] in *. rewrite (MatIs_rows _ _ _ _ Hr), (MatIs_cols _ _ _ _ Hr). cbn [bind].
  destruct (MatFrob_total r m n _ (gen_lib _ Hg) Hr Hm Hn) as (v & ->). cbn [bind]. apply wp_bind.
  apply (wp_for_brk (fun k s => fst s = k /\ 1 <= k <= Z.min m n) (fun s => 1 <= fst s <= Z.min m n)); [lia|cbn; lia| | |].
  - intros k [rk ln] Hk [E Hkm]. cbn [fst] in *. subst rk.
    destruct (m_SubMatrix_ok r m n _ k (m - 1) k (n - 1) Hg Hr) as (s & -> & Hgs & Hs); try lia. cbn [bind].
    destruct (MatFrob_total s _ _ _ (gen_lib _ Hgs) Hs ltac:(lia) ltac:(lia)) as (v1 & ->). cbn [bind].
    destruct (feq v1 fzero || _); apply wp_ok; cbn [fst snd]; lia.
  - intros [rk ln] [E H]. cbn [fst] in *. apply wp_ok. cbn [fst snd]. split; [lia|auto].
  - intros [rk ln] H. cbn [fst] in *. apply wp_ok. cbn [fst snd]. auto.
Qed.
End QRFacts3.

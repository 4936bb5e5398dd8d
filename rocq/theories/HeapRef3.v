(** The Hessenberg, tridiagonal and bidiagonal transforms on the heap and on
    values. *)
From Coq Require Import ZArith List Lia Bool.
From Verif Require Import Base BaseLemmas Scalar Vector Matrix MatSpec MatFacts RealMatrixM MatrixOps.
From Verif Require Import Heap HeapSpec HeapFacts HeapSim HeapDec HeapRefSpec HeapRef HeapRef2.
From Verif Require Import Hess Tridiag Bidiag.
Import ListNotations.
Open Scope Z_scope.

Section Ref3.
Context {O : Ops}.

Lemma sim_end_bind {A B D} (m : M A) (v : res B) h (P : heap -> A -> B -> Prop) (g : B -> D) (Q : heap -> A -> D -> Prop) :
  sim m v h P -> (forall h' a b, P h' a b -> Q h' a (g b)) -> sim m (bind v (fun b => Ok (g b))) h Q.
Proof. unfold sim. destruct (m h) as [[a|e|e] h'], v as [b|e'|e']; cbn [bind]; auto. Qed.
Lemma Str_len h o hd d X r c : Str h o hd d X r c -> sl_len o = r.
Proof. intros HS. rewrite (sr_o _ _ _ _ _ _ _ HS). reflexivity. Qed.
Lemma s_run {A B C} (m : M A) (f : A -> M B) (v : res C) h x Q : m h = (Ok x, h) -> sim (f x) v h Q -> sim (mbind m f) v h Q.
Proof. unfold sim, mbind. intros ->. auto. Qed.
(** ** Hessenberg *)
Definition HSI (o : slice) (hd : list slice) (z : slice) (n : Z) (h : heap) (_ : unit) (b : mat * vec) : Prop :=
  Str h o hd (fst b) [(z, snd b)] n n /\ len (snd b) = n.
Lemma ref_hsstep h o hd z n m b : HSI o hd z n h tt b -> 1 <= m < n ->
  sim (hhs_step n o z m tt) (hs_step n m b) h (HSI o hd z n).
Proof.
  intros [HS L] Hm. destruct b as [d q]. cbn [fst snd] in *. unfold hhs_step, hs_step. eapply sim_acc; [intros i a Hi; st; st; apply sim_ret; auto|]. intros sc.
  destruct (fulp1 sc fzero); [apply sim_ret; split; auto|].
  eapply (sim_bind _ _ _ (fun h' a b => Str h' o hd d [(z, fst b)] n n /\ len (fst b) = n /\ a = snd b)).
  { apply (sim_down (fun h' a b => Str h' o hd d [(z, fst b)] n n /\ len (fst b) = n /\ a = snd b)); [auto|].
    intros i h1 a [q1 a'] Hi (H1 & L1 & E). cbn [fst snd] in *. subst a'. st. st. eapply (s_wrX _ _ _ _ _ _ _ 0); [exact H1|reflexivity|lia|]. intros h2 q2 H2 L2 _.
    cbn [setx nth_error upd_nat] in H2. repeat st. apply sim_ret. cbn. split; [auto|]. split; [lia|auto]. }
  intros h1 a [q1 a'] (H1 & L1 & E). cbn [fst snd] in *. subst a'. cbv zeta. repeat (cbv zeta; st).
  eapply (s_modX _ _ _ _ _ _ _ 0); [exact H1|reflexivity|lia|eassumption|reflexivity|]. intros h2 q2 H2 L2 _. cbn [setx nth_error upd_nat] in H2. rewrite L1 in L2. clear dependent q1.
  eapply (sim_bind _ _ _ (fun h' (_ : unit) d' => Str h' o hd d' [(z, q2)] n n)).
  { apply (sim_loop (fun h' (_ : unit) d' => Str h' o hd d' [(z, q2)] n n)); [exact H2|]. intros j h3 [] d3 Hj H3.
    eapply sim_accd; [intros i f Hi; repeat st; apply sim_ret; auto|]. intros f.
    apply (sim_loop (fun h' (_ : unit) d' => Str h' o hd d' [(z, q2)] n n)); [exact H3|]. intros i h4 [] d4 Hi H4. repeat st. eapply s_wr2_end; [exact H4|lia|lia|auto]. }
  intros h3 [] d3 H3. eapply (sim_bind _ _ _ (fun h' (_ : unit) d' => Str h' o hd d' [(z, q2)] n n)).
  { apply (sim_loop (fun h' (_ : unit) d' => Str h' o hd d' [(z, q2)] n n)); [exact H3|]. intros j h4 [] d4 Hj H4.
    eapply sim_accd; [intros i f Hi; repeat st; apply sim_ret; auto|]. intros f.
    apply (sim_loop (fun h' (_ : unit) d' => Str h' o hd d' [(z, q2)] n n)); [exact H4|]. intros i h5 [] d5 Hi H5. repeat st. eapply s_wr2_end; [exact H5|lia|lia|auto]. }
  intros h4 [] d4 H4. repeat st.
  eapply (s_modX _ _ _ _ _ _ _ 0); [exact H4|reflexivity|lia|eassumption|reflexivity|]. intros h5 q5 H5 L5 _. cbn [setx nth_error upd_nat] in H5.
  eapply (sim_end_bind _ _ _ (fun h' (_ : unit) d' => Str h' o hd d' [(z, q5)] n n)); [eapply s_wr2_end; [exact H5|lia|lia|auto]|].
  intros h6 [] d6 H6. split; cbn; [auto|lia].
Qed.
Lemma ref_Hessenberg h x r c f m : HMatIs h x r c f -> library m -> MatIs m r c f ->
  sim (h_NewHessenberg x) (NewHessenbergTransformer m) h (fun h' a b => MRep h' (hhs_hv a) (hs_hv b) /\ VRep h' (hhs_ort a) (hs_ort b)).
Proof.
  intros HX Lm Hm. unfold h_NewHessenberg, NewHessenbergTransformer. eapply front_square; eauto. destruct (Z.eqb_spec c r) as [->|N]; cbn [negb].
  - rewrite (proj1 (HMat_dims _ _ _ _ _ HX)). pose proof Hm as (_ & -> & _). pose proof (HMat_pos _ _ _ _ _ HX) as [Hr _]. eapply front_data; eauto. intros o h1 hd d HS.
    eapply s_make; [exact HS|lia|]. intros s h2 q H2 L2 _. cbn [app] in H2. cbv zeta. rewrite (Str_len _ _ _ _ _ _ _ H2), (proj1 (sr_r _ _ _ _ _ _ _ H2)).
    eapply sim_bind.
    + apply (sim_loop (HSI o hd s r)); [split; auto|]. intros i h3 [] b3 Hi H3. apply ref_hsstep; [auto|lia].
    + intros h3 [] [d3 q3] [H3 L3]. apply sim_ret. cbn in *. split; [eapply Str_MRep; eauto|]. apply Who_VRep. eapply (sr_x _ _ _ _ _ _ _ H3 0%nat). reflexivity.
  - destruct Hm as (_ & _ & E & _). rewrite E. reflexivity.
Qed.

(** ** Tridiagonal *)
Definition TDI (o : slice) (hd : list slice) (mn sec z : slice) (n : Z) (h : heap) (_ : unit) (b : mat * vec * vec * vec) : Prop :=
  let '(d, qm, qs, qz) := b in Str h o hd d [(mn, qm); (sec, qs); (z, qz)] n n /\ len qm = n /\ len qs = n - 1 /\ len qz = n.
Lemma ref_tdstep h o hd mn sec z n k b : TDI o hd mn sec z n h tt b -> 0 <= k < n - 1 ->
  sim (htd_step n o mn sec z k tt) (td_step n k b) h (TDI o hd mn sec z n).
Proof.
  destruct b as [[[d qm] qs] qz]. intros (HS & Lm & Ls & Lz) Hk. unfold htd_step, td_step. repeat (cbv zeta; st).
  eapply (s_wrX _ _ _ _ _ _ _ 0); [exact HS|reflexivity|lia|]. intros h1 qm1 H1 Lm1 _. cbn [setx nth_error upd_nat] in H1. rewrite Lm in Lm1. clear dependent qm.
  eapply sim_acc; [intros i a Hi; repeat st; apply sim_ret; auto|]. intros xn. repeat (cbv zeta; st).
  match goal with |- context [wrF sec k ?e] => set (a := e) end.
  eapply (s_wrX _ _ _ _ _ _ _ 1); [exact H1|reflexivity|lia|]. intros h2 qs2 H2 Ls2 _. cbn [setx nth_error upd_nat] in H2. rewrite Ls in Ls2. clear dependent qs.
  destruct (feq a fzero); [apply sim_ret; cbn; auto|]. repeat st.
  eapply s_modF; [exact H2|eassumption|lia|eassumption|reflexivity|]. intros h3 d3 H3 _. repeat (cbv zeta; st). unfold td_product. rewrite bind_assoc.
  match goal with |- context [(fneg fone / ?e)%f] => set (beta := (fneg fone / e)%f) end.
  eapply (sim_bind _ _ _ (fun h' (_ : unit) qz' => Str h' o hd d3 [(mn, qm1); (sec, qs2); (z, qz')] n n /\ len qz' = n)).
  { apply (sim_loop (fun h' (_ : unit) qz' => Str h' o hd d3 [(mn, qm1); (sec, qs2); (z, qz')] n n /\ len qz' = n)); [auto|]. intros i h4 [] q4 Hi [H4 L4].
    eapply (s_wrX_end _ _ _ _ _ _ _ 2); [exact H4|reflexivity|lia|]. intros h5 q5 H5 L5. cbn [setx nth_error upd_nat] in H5. split; [auto|lia]. }
  intros h4 [] q4 [H4 L4].
  eapply (sim_bind _ _ _ (fun h' (_ : unit) qz' => Str h' o hd d3 [(mn, qm1); (sec, qs2); (z, qz')] n n /\ len qz' = n)).
  { apply (sim_loop (fun h' (_ : unit) qz' => Str h' o hd d3 [(mn, qm1); (sec, qs2); (z, qz')] n n /\ len qz' = n)); [auto|]. intros i h5 [] q5 Hi [H5 L5]. repeat st.
    eapply (sim_bind _ _ _ (fun h' a b => Str h' o hd d3 [(mn, qm1); (sec, qs2); (z, snd b)] n n /\ len (snd b) = n /\ a = fst b)).
    { apply (sim_loop (fun h' a b => Str h' o hd d3 [(mn, qm1); (sec, qs2); (z, snd b)] n n /\ len (snd b) = n /\ a = fst b)); [auto|]. intros j h6 a6 [a6' q6] Hj (H6 & L6 & E6). cbn [fst snd] in *. subst a6'.
      repeat st. eapply (s_modX _ _ _ _ _ _ _ 2); [exact H6|reflexivity|lia|eassumption|reflexivity|]. intros h7 q7 H7 L7 _. cbn [setx nth_error upd_nat] in H7. apply sim_ret. cbn. split; [auto|]. split; [lia|auto]. }
    intros h6 a6 [a6' q6] (H6 & L6 & E6). cbn [fst snd] in *. subst a6'. repeat st.
    eapply (s_modX_end _ _ _ _ _ _ _ 2); [exact H6|reflexivity|lia|eassumption|reflexivity|]. intros h7 q7 H7 L7. cbn [setx nth_error upd_nat] in H7. split; [auto|lia]. }
  intros h5 [] q5 [H5 L5]. eapply sim_acc; [intros i g Hi; repeat st; apply sim_ret; auto|]. intros g. cbv zeta.
  eapply (sim_bind _ _ _ (fun h' (_ : unit) qz' => Str h' o hd d3 [(mn, qm1); (sec, qs2); (z, qz')] n n /\ len qz' = n)).
  { apply (sim_loop (fun h' (_ : unit) qz' => Str h' o hd d3 [(mn, qm1); (sec, qs2); (z, qz')] n n /\ len qz' = n)); [auto|]. intros i h6 [] q6 Hi [H6 L6]. repeat st.
    eapply (s_modX_end _ _ _ _ _ _ _ 2); [exact H6|reflexivity|lia|eassumption|reflexivity|]. intros h7 q7 H7 L7. cbn [setx nth_error upd_nat] in H7. split; [auto|lia]. }
  intros h6 [] q6 [H6 L6]. unfold td_update.
  eapply (sim_end_bind _ _ _ (fun h' (_ : unit) d' => Str h' o hd d' [(mn, qm1); (sec, qs2); (z, q6)] n n)).
  { apply (sim_loop (fun h' (_ : unit) d' => Str h' o hd d' [(mn, qm1); (sec, qs2); (z, q6)] n n)); [exact H6|]. intros i h7 [] d7 Hi H7. st.
    apply (sim_loop (fun h' (_ : unit) d' => Str h' o hd d' [(mn, qm1); (sec, qs2); (z, q6)] n n)); [exact H7|]. intros j h8 [] d8 Hj H8. repeat st.
    eapply s_modF_end; [exact H8|eassumption|lia|eassumption|reflexivity|]. auto. }
  intros h7 [] d7 H7. cbn. auto.
Qed.
Lemma ref_TriDiagonal h x r c f m : HMatIs h x r c f -> library m -> MatIs m r c f ->
  sim (h_NewTriDiagonal x) (NewTriDiagonalTransformer m) h (fun h' a b => MRep h' (htd_hv a) (td_hv b) /\ VRep h' (htd_main a) (td_main b) /\ VRep h' (htd_sec a) (td_sec b)).
Proof.
  intros HX Lm Hm. unfold h_NewTriDiagonal, NewTriDiagonalTransformer. eapply front_square; eauto. destruct (Z.eqb_spec c r) as [->|N]; cbn [negb].
  - rewrite (proj1 (HMat_dims _ _ _ _ _ HX)). pose proof Hm as (_ & -> & _). pose proof (HMat_pos _ _ _ _ _ HX) as [Hr _]. eapply front_data; eauto. intros o h1 hd d HS.
    eapply s_make; [exact HS|lia|]. intros s h2 q H2 L2 _. cbn [app] in H2. eapply s_make; [exact H2|lia|]. intros s3 h3 q3 H3 L3 _. cbn [app] in H3. cbv zeta.
    rewrite (Str_len _ _ _ _ _ _ _ H3), (proj1 (sr_r _ _ _ _ _ _ _ H3)). eapply s_make; [exact H3|lia|]. intros s4 h4 q4 H4 L4 _. cbn [app] in H4.
    eapply sim_bind.
    + apply (sim_loop (TDI o hd s s3 s4 r)); [cbn; auto|]. intros i h5 [] b5 Hi H5. apply ref_tdstep; [auto|lia].
    + intros h5 [] [[[d5 qm] qs] qz] (H5 & A & B & C). repeat st.
      eapply (s_wrX _ _ _ _ _ _ _ 0); [exact H5|reflexivity|lia|]. intros h6 q6 H6 L6 _. cbn [setx nth_error upd_nat] in H6. apply sim_ret. cbn. split; [eapply Str_MRep; eauto|].
      split; apply Who_VRep; [eapply (sr_x _ _ _ _ _ _ _ H6 0%nat); reflexivity|eapply (sr_x _ _ _ _ _ _ _ H6 1%nat); reflexivity].
  - destruct Hm as (_ & _ & E & _). rewrite E. reflexivity.
Qed.

(** ** Bidiagonal *)
Definition XI (o : slice) (hd : list slice) (X : list (slice * list F)) (r c : Z) (h : heap) (_ : unit) (d : mat) : Prop := Str h o hd d X r c.
Lemma ref_columns h o hd d X r c k lo a v0 : Str h o hd d X r c -> 0 <= k < c -> 0 <= lo < r ->
  (forall h' d', Str h' o hd d' X r c -> exists x, v0 h' = (Ok x, h') /\ mget d' lo k = Ok x) ->
  sim (hbd_columns o k lo r (k + 1) c a v0) (for_ (k + 1) c (fun j hv =>
    let* alpha := for_ lo r (fun i alpha =>
      let* x := mget hv i j in let* v := mget hv i k in Ok (alpha - x * v)%f) fzero in
    let* v := mget hv lo k in
    let alpha := (alpha / (a * v))%f in
    for_ lo r (fun i hv =>
      let* x := mget hv i j in let* v := mget hv i k in mset hv i j (x - alpha * v)%f) hv) d) h (XI o hd X r c).
Proof.
  intros HS Hk Hl Hv. unfold hbd_columns. apply (sim_loop (XI o hd X r c)); [exact HS|]. intros j h1 [] d1 Hj H1. red in H1.
  eapply sim_acc; [intros i al Hi; repeat st; apply sim_ret; auto|]. intros al. destruct (Hv h1 d1 H1) as (x & E1 & E2). rewrite E2. cbn [bind].
  eapply s_run; [exact E1|]. cbv zeta.
  apply (sim_loop (XI o hd X r c)); [exact H1|]. intros i h2 [] d2 Hi H2. red in H2. repeat st. eapply s_modF_end; [exact H2|eassumption|lia|eassumption|reflexivity|]. auto.
Qed.
Lemma ref_rows h o hd d X r c i0 j0 s a v0 : Str h o hd d X r c -> zget hd i0 = Ok s -> 0 <= i0 < r -> 0 <= j0 < c ->
  (forall h' d', Str h' o hd d' X r c -> exists x, v0 h' = (Ok x, h') /\ mget d' i0 j0 = Ok x) ->
  sim (hbd_rows o s j0 c (i0 + 1) r a v0) (for_ (i0 + 1) r (fun i hv =>
    let* beta := for_ j0 c (fun j beta =>
      let* x := mget hv i j in let* v := mget hv i0 j in Ok (beta - x * v)%f) fzero in
    let* v := mget hv i0 j0 in
    let beta := (beta / (a * v))%f in
    for_ j0 c (fun j hv =>
      let* x := mget hv i j in let* v := mget hv i0 j in mset hv i j (x - beta * v)%f) hv) d) h (XI o hd X r c).
Proof.
  intros HS Hs Hi0 Hj0 Hv. unfold hbd_rows. apply (sim_loop (XI o hd X r c)); [exact HS|]. intros i h1 [] d1 Hi H1. red in H1. st.
  eapply sim_acc; [intros j al Hj; repeat st; apply sim_ret; auto|]. intros al. destruct (Hv h1 d1 H1) as (x & E1 & E2). rewrite E2. cbn [bind].
  eapply s_run; [exact E1|]. cbv zeta.
  apply (sim_loop (XI o hd X r c)); [exact H1|]. intros j h2 [] d2 Hj H2. red in H2. repeat st. eapply s_modF_end; [exact H2|eassumption|lia|eassumption|reflexivity|]. auto.
Qed.
Lemma v0_rd2 h' o hd d' X r c i j : Str h' o hd d' X r c -> 0 <= i < r -> 0 <= j < c -> exists x, rd2 o i j h' = (Ok x, h') /\ mget d' i j = Ok x.
Proof.
  intros HS Hi Hj. destruct (Str_row _ _ _ _ _ _ _ _ HS Hi) as (s & E & Es). destruct (Str_get _ _ _ _ _ _ _ i j HS Hi Hj) as (x & Ex). exists x. split; [|exact Ex].
  unfold rd2, mbind. rewrite E. eapply Str_rd; eauto.
Qed.
Lemma v0_rdF h' o hd d' X r c i j s : Str h' o hd d' X r c -> zget hd i = Ok s -> 0 <= i < r -> 0 <= j < c -> exists x, rdF s j h' = (Ok x, h') /\ mget d' i j = Ok x.
Proof. intros HS Hs Hi Hj. destruct (Str_get _ _ _ _ _ _ _ i j HS Hi Hj) as (x & Ex). exists x. split; [|exact Ex]. eapply Str_rd; eauto. Qed.

Definition BDI (o : slice) (hd : list slice) (mn sec : slice) (r c : Z) (h : heap) (_ : unit) (b : mat * vec * vec) : Prop :=
  let '(d, qm, qs) := b in Str h o hd d [(mn, qm); (sec, qs)] r c /\ len qm = Z.min r c /\ len qs = Z.min r c - 1.
Lemma ref_bdupper h o hd mn sec r c k b : BDI o hd mn sec r c h tt b -> 0 <= k < c -> c <= r ->
  sim (hbd_upper o mn sec r c k tt) (let '(hv, mn, sec) := b in
    let* (hv, mn) := bd_col r c k k k (hv, mn) in
    if k <? c - 1 then let* (hv, sec) := bd_row r c k (k + 1) k (hv, sec) in Ok (hv, mn, sec)
    else Ok (hv, mn, sec)) h (BDI o hd mn sec r c).
Proof.
  destruct b as [[d qm] qs]. intros (HS & Lm & Ls) Hk Hrc. unfold hbd_upper, bd_col. rewrite bind_assoc.
  eapply sim_acc; [intros i a Hi; repeat st; apply sim_ret; auto|]. intros xn. repeat (cbv zeta; st). change (if fgt x fzero then fneg (fsqrt xn) else fsqrt xn) with (hbd_norm x xn). set (a := hbd_norm x xn).
  repeat (cbv zeta; st). eapply (s_wrX _ _ _ _ _ _ _ 0); [exact HS|reflexivity|lia|]. intros h1 qm1 H1 Lm1 _. cbn [setx nth_error upd_nat] in H1. rewrite Lm in Lm1. clear dependent qm.
  eapply (sim_bind _ _ _ (fun h' (_ : unit) b => Str h' o hd (fst b) [(mn, snd b); (sec, qs)] r c /\ snd b = qm1)).
  { destruct (feq a fzero); [apply sim_ret; auto|]. repeat st. eapply s_modF; [exact H1|eassumption|lia|eassumption|reflexivity|]. intros h2 d2 H2 _.
    eapply (sim_end_bind _ _ _ (XI o hd [(mn, qm1); (sec, qs)] r c)).
    - apply (ref_columns _ _ _ _ _ _ _ k k a _ H2 ltac:(lia) ltac:(lia)). intros h' d' H'. eapply v0_rd2; eauto; lia.
    - intros h' [] d' H'. auto. }
  intros h2 [] [d2 qm2] [H2 E2]. cbn [fst snd] in *. subst qm2. destruct (Z.ltb_spec k (c - 1)); [|apply sim_ret; cbn; auto].
  unfold bd_row. rewrite bind_assoc. eapply sim_acc; [intros i a' Hi; repeat st; apply sim_ret; auto|]. intros xn2. repeat (cbv zeta; st).
  match goal with |- context [if fgt ?y fzero then fneg (fsqrt xn2) else fsqrt xn2] => change (if fgt y fzero then fneg (fsqrt xn2) else fsqrt xn2) with (hbd_norm y xn2); set (b := hbd_norm y xn2) end.
  repeat (cbv zeta; st). eapply (s_wrX _ _ _ _ _ _ _ 1); [exact H2|reflexivity|lia|]. intros h3 qs3 H3 Ls3 _. cbn [setx nth_error upd_nat] in H3. rewrite Ls in Ls3. clear dependent qs.
  destruct (feq b fzero); [apply sim_ret; cbn; auto|]. repeat st.
  eapply s_modF; [exact H3|eassumption|lia|eassumption|reflexivity|]. intros h4 d4 H4 _. repeat st.
  eapply (sim_end_bind _ _ _ (XI o hd [(mn, qm1); (sec, qs3)] r c)).
  - eapply (ref_rows _ _ _ _ _ _ _ k (k + 1)); [exact H4|eassumption|lia|lia|]. intros h' d' H'. eapply v0_rdF; eauto; lia.
  - intros h' [] d' H'. cbn. auto.
Qed.
Lemma ref_bdlower h o hd mn sec r c k b : BDI o hd mn sec r c h tt b -> 0 <= k < r -> r <= c ->
  sim (hbd_lower o mn sec r c k tt) (let '(hv, mn, sec) := b in
    let* (hv, mn) := bd_row r c k k k (hv, mn) in
    if k <? r - 1 then let* (hv, sec) := bd_col r c (k + 1) k k (hv, sec) in Ok (hv, mn, sec)
    else Ok (hv, mn, sec)) h (BDI o hd mn sec r c).
Proof.
  destruct b as [[d qm] qs]. intros (HS & Lm & Ls) Hk Hrc. unfold hbd_lower, bd_row. st. rewrite bind_assoc.
  eapply sim_acc; [intros i a Hi; repeat st; apply sim_ret; auto|]. intros xn. repeat (cbv zeta; st).
  change (if fgt x fzero then fneg (fsqrt xn) else fsqrt xn) with (hbd_norm x xn). set (a := hbd_norm x xn).
  repeat (cbv zeta; st). eapply (s_wrX _ _ _ _ _ _ _ 0); [exact HS|reflexivity|lia|]. intros h1 qm1 H1 Lm1 _. cbn [setx nth_error upd_nat] in H1. rewrite Lm in Lm1. clear dependent qm.
  eapply (sim_bind _ _ _ (fun h' (_ : unit) b => Str h' o hd (fst b) [(mn, snd b); (sec, qs)] r c /\ snd b = qm1)).
  { destruct (feq a fzero); [apply sim_ret; auto|]. repeat st. eapply s_modF; [exact H1|eassumption|lia|eassumption|reflexivity|]. intros h2 d2 H2 _.
    eapply (sim_end_bind _ _ _ (XI o hd [(mn, qm1); (sec, qs)] r c)).
    - eapply (ref_rows _ _ _ _ _ _ _ k k); [exact H2|eassumption|lia|lia|]. intros h' d' H'. eapply v0_rd2; eauto; lia.
    - intros h' [] d' H'. auto. }
  intros h2 [] [d2 qm2] [H2 E2]. cbn [fst snd] in *. subst qm2. destruct (Z.ltb_spec k (r - 1)); [|apply sim_ret; cbn; auto].
  unfold bd_col. st. rewrite bind_assoc. eapply sim_acc; [intros i a' Hi; repeat st; apply sim_ret; auto|]. intros xn2. repeat (cbv zeta; st).
  match goal with |- context [if fgt ?y fzero then fneg (fsqrt xn2) else fsqrt xn2] => change (if fgt y fzero then fneg (fsqrt xn2) else fsqrt xn2) with (hbd_norm y xn2); set (b := hbd_norm y xn2) end.
  repeat (cbv zeta; st). eapply (s_wrX _ _ _ _ _ _ _ 1); [exact H2|reflexivity|lia|]. intros h3 qs3 H3 Ls3 _. cbn [setx nth_error upd_nat] in H3. rewrite Ls in Ls3. clear dependent qs.
  destruct (feq b fzero); [apply sim_ret; cbn; auto|]. repeat st.
  eapply s_modF; [exact H3|eassumption|lia|eassumption|reflexivity|]. intros h4 d4 H4 _. repeat st.
  eapply (sim_end_bind _ _ _ (XI o hd [(mn, qm1); (sec, qs3)] r c)).
  - apply (ref_columns _ _ _ _ _ _ _ k (k + 1) b _ H4 ltac:(lia) ltac:(lia)). intros h' d' H'. eapply v0_rdF; eauto; lia.
  - intros h' [] d' H'. cbn. auto.
Qed.
Lemma Str_collen h o hd d X r c i s : Str h o hd d X r c -> zget hd i = Ok s -> sl_len s = c /\ exists q, zget d i = Ok q /\ len q = c.
Proof.
  intros HS Hs. pose proof (zget_range _ _ _ Hs) as Hi. destruct (sr_r _ _ _ _ _ _ _ HS) as [A B]. pose proof (sr_l _ _ _ _ _ _ _ HS) as El. destruct (zget_some d i ltac:(lia)) as (q & Eq).
  assert (L : len q = c). { rewrite zget_ok in Eq by lia. injection Eq as <-. apply B. lia. }
  split; [|eauto]. destruct (sr_d _ _ _ _ _ _ _ HS _ _ _ Hs Eq) as [W _]. rewrite W. cbn. exact L.
Qed.
Lemma ref_BiDiagonal h x r c f m : HMatIs h x r c f -> library m -> MatIs m r c f ->
  sim (h_NewBiDiagonal x) (NewBiDiagonalTransformer m) h (fun h' a b => MRep h' (htd_hv a) (bd_hv b) /\ VRep h' (htd_main a) (bd_main b) /\ VRep h' (htd_sec a) (bd_sec b)).
Proof.
  intros HX Lm Hm. unfold h_NewBiDiagonal, NewBiDiagonalTransformer. rewrite (proj1 (HMat_dims _ _ _ _ _ HX)). pose proof Hm as (_ & -> & _). pose proof (HMat_pos _ _ _ _ _ HX) as [Hr Hc].
  eapply front_cols; eauto. cbv zeta. eapply front_data; eauto. intros o h1 hd d HS.
  eapply s_make; [exact HS|lia|]. intros s h2 q H2 L2 _. cbn [app] in H2. eapply s_make; [exact H2|lia|]. intros s3 h3 q3 H3 L3 _. cbn [app] in H3. st.
  destruct (Str_collen _ _ _ _ _ _ _ _ _ H3 Hs) as (E1 & q0 & E2 & E3). rewrite (Str_len _ _ _ _ _ _ _ H3), E1.
  eapply (sim_bind _ _ _ (BDI o hd s s3 r c)).
  - destruct (Z.leb_spec c r).
    + unfold bd_upper. rewrite E2. cbn [bind]. rewrite (proj1 (sr_r _ _ _ _ _ _ _ H3)), E3. apply (sim_loop (BDI o hd s s3 r c)); [cbn; auto|].
      intros k h4 [] b4 Hk H4. apply (ref_bdupper _ _ _ _ _ _ _ k _ H4); lia.
    + unfold bd_lower. rewrite E2. cbn [bind]. rewrite (proj1 (sr_r _ _ _ _ _ _ _ H3)), E3. apply (sim_loop (BDI o hd s s3 r c)); [cbn; auto|].
      intros k h4 [] b4 Hk H4. apply (ref_bdlower _ _ _ _ _ _ _ k _ H4); lia.
  - intros h4 [] [[d4 qm] qs] (H4 & A & B). apply sim_ret. cbn. split; [eapply Str_MRep; eauto|].
    split; apply Who_VRep; [eapply (sr_x _ _ _ _ _ _ _ H4 0%nat); reflexivity|eapply (sr_x _ _ _ _ _ _ _ H4 1%nat); reflexivity].
Qed.
End Ref3.

(** The singular value decomposition, for arbitrary scalar operations: the turns
    of the iteration and the constructor. *)
From Coq Require Import ZArith QArith List Lia Bool.
From Verif Require Import Base BaseLemmas Wpe Scalar Vector VecSpec VectorFacts Matrix MatSpec MatFacts Array2D BlockM Diagonal RealMatrixM Array2DFacts MatrixOps MatHist MatProps BlockFacts RealMat2 RealMat3 TabTac FSum CholFacts LUFacts2 QRFacts Hess Tridiag Schur Eigen HessSpec TridiagFacts BidiagFacts EigenFacts SchurFacts DiagFacts SVD SVDSpec SVDFacts SVDFacts2.
Import ListNotations.
Open Scope Z_scope.

(** The loop either runs out of fuel or ends in a state with the invariant. *)
Definition okfuel {A} (m : res A) (Q : A -> Prop) : Prop := match m with Ok a => Q a | Panic e => e = EFuel | Err _ => False end.
Lemma okfuel_bind {A B} (m : res A) (f : A -> res B) Q : wp m (fun a => okfuel (f a) Q) -> okfuel (bind m f) Q.
Proof. intros (a & -> & H). exact H. Qed.
Lemma okfuel_bind2 {A B} (m : res A) (f : A -> res B) P Q : okfuel m P -> (forall a, P a -> okfuel (f a) Q) -> okfuel (bind m f) Q.
Proof. destruct m; cbn; auto; contradiction. Qed.
Lemma wp_okfuel {A} (m : res A) (Q : A -> Prop) : wp m Q -> okfuel m Q.
Proof. intros (a & -> & H). exact H. Qed.
Lemma while_okfuel {S} (I : S -> Prop) cond body fuel : forall s, I s ->
  (forall s, I s -> cond s = true -> wp (body s) I) -> okfuel (while_ fuel cond body s) (fun s' => I s' /\ cond s' = false).
Proof.
  induction fuel as [|f IH]; intros s Hs Hb; [reflexivity|]. cbn [while_]. destruct (cond s) eqn:Ec; [|cbn; auto].
  apply okfuel_bind. eapply wp_conseq; [apply Hb; auto|]. intros s' Hs'. apply IH; auto.
Qed.

(** The same, with what holds when the fuel has run out. *)
Definition okfu {A} (m : res A) (Q : A -> Prop) (X : Prop) : Prop := match m with Ok a => Q a | Panic e => e = EFuel /\ X | Err _ => False end.
Lemma okfu_bind {A B} (m : res A) (f : A -> res B) Q X : wp m (fun a => okfu (f a) Q X) -> okfu (bind m f) Q X.
Proof. intros (a & -> & H). exact H. Qed.
Lemma okfu_bind2 {A B} (m : res A) (f : A -> res B) P Q X : okfu m P X -> (forall a, P a -> okfu (f a) Q X) -> okfu (bind m f) Q X.
Proof. destruct m; cbn; auto; contradiction. Qed.
Lemma while_okfu {S} (I : nat -> S -> Prop) cond body fuel : forall k s, I k s ->
  (forall k s, I k s -> cond s = true -> wp (body s) (I (Datatypes.S k))) -> okfu (while_ fuel cond body s) (fun s' => (exists k, I k s') /\ cond s' = false) (exists s', I (k + fuel)%nat s').
Proof.
  induction fuel as [|f IH]; intros k s Hs Hb; [cbn; split; auto; exists s; rewrite Nat.add_0_r; auto|]. cbn [while_]. destruct (cond s) eqn:Ec; [|cbn; eauto].
  apply okfu_bind. eapply wp_conseq; [apply (Hb k); auto|]. intros s' Hs'. rewrite <- Nat.add_succ_comm. apply IH; auto.
Qed.

Section SVDFacts3.
Context {O : Ops}.

Record sv_t := mkT { t_S : Z -> F; t_E : Z -> F; t_U : Z -> Z -> F; t_V : Z -> Z -> F; t_p : Z }.
Definition SVT (m n : Z) (x : sv_t) (st : vec * vec * mat * mat * Z) : Prop :=
  let '(s, e, U, V, p) := st in VTab s n (t_S x) /\ VTab e n (t_E x) /\ RTab U m n (t_U x) /\ RTab V n n (t_V x) /\ p = t_p x.
Definition zeroE (k : Z) (E : Z -> F) : Z -> F := if 0 <=? k then vset E k fzero else E.
Definition of_it (x : it_st) (p : Z) : sv_t := mkT (it_S x) (it_E x) (it_U x) (it_V x) p.
Definition scanned (p : Z) (S E : Z -> F) (k : Z) : Prop :=
  -1 <= k <= p - 2 /\ (forall j, k < j <= p - 2 -> fgt (fabs (E j)) (thrE S j) = true) /\ (0 <= k -> fgt (fabs (E k)) (thrE S k) = false).

(** One turn. *)
Inductive svR (m n : Z) : sv_t -> sv_t -> Prop :=
| svR4 S E U V p q : scanned p S E (p - 2) -> let k := p - 1 in let S1 := vset S k (posS S k) in
    k <= q <= n - 1 -> (forall i, k < i <= q -> fge (S1 k) (S1 i) = false) -> (q < n - 1 -> fge (S1 k) (S1 (q + 1)) = true) ->
    svR m n (mkT S E U V p) (mkT (fun i => S1 (cyc k q i)) (zeroE (p - 2) E) (fun i j => U i (cyc k q j)) (fun i j => posV S k V i (cyc k q j)) (p - 1))
| svR3 S E U V p k : scanned p S E k -> k < p - 2 -> (forall j, k < j <= p - 1 -> fle (fabs (S j)) (tolS p k (zeroE k E) j) = false) ->
    svR m n (mkT S E U V p) (of_it (c3_fin m p (k + 1) S (zeroE k E) U V) p)
| svR1 S E U V p k : scanned p S E k -> k < p - 2 -> fle (fabs (S (p - 1))) (tolS p k (zeroE k E) (p - 1)) = true ->
    svR m n (mkT S E U V p) (of_it (c1_fin p (k + 1) (vset S (p - 1) fzero) (zeroE k E) U V) p)
| svR2 S E U V p k ks : scanned p S E k -> k < p - 2 -> k < ks < p - 1 -> fle (fabs (S ks)) (tolS p k (zeroE k E) ks) = true ->
    svR m n (mkT S E U V p) (of_it (c2_fin p (ks + 1) (vset S ks fzero) (zeroE k E) U V) p).
Inductive svRs (m n : Z) : sv_t -> sv_t -> Prop :=
| svRs_nil x : svRs m n x x
| svRs_step x y z : svRs m n x y -> 1 <= t_p y <= n -> svR m n y z -> svRs m n x z.

(** The same with the number of turns. *)
Inductive svRk (m n : Z) (x : sv_t) : nat -> sv_t -> Prop :=
| svRk_nil : svRk m n x 0 x
| svRk_step k y z : svRk m n x k y -> 1 <= t_p y <= n -> svR m n y z -> svRk m n x (Datatypes.S k) z.
Lemma svRk_svRs m n x k y : svRk m n x k y -> svRs m n x y.
Proof. induction 1; econstructor; eauto. Qed.

Lemma sv_turn_ok m n x st : SVT m n x st -> 1 <= t_p x <= n -> n <= m -> wp (sv_turn m n st) (fun st' => exists x', SVT m n x' st' /\ svR m n x x').
Proof.
  destruct st as [[[[s e] U] V] p]. destruct x as [S E G H p0]. cbn [t_p]. intros (Hs & He & HU & HV & Ep) Hp Hn. cbn in Ep, Hs, He, HU, HV. subst p0. unfold sv_turn.
  apply wp_bind. eapply wp_conseq; [apply (sv_scanE_ok n p s e S E Hs He Hp)|]. intros [e1 k] (Hk & Hj & H0 & H1). 
  assert (Sc : scanned p S E k) by (split; [auto|split; auto]; intros K; apply (H0 K)).
  assert (He1 : VTab e1 n (zeroE k E)). { unfold zeroE. destruct (Z.leb_spec 0 k); [apply (H0 H2)|apply H1; lia]. }
  clear H0 H1. destruct (Z.eqb_spec k (p - 2)).
  - subst k. apply wp_bind. replace (p - 2 + 1) with (p - 1) by lia. eapply wp_conseq; [apply (sv_case4_ok m n (p - 1) s U V S G H Hs HU HV); lia|].
    cbn beta zeta. intros [[s2 U2] V2] (q & Hq & Hq1 & Hq2 & Hs2 & HU2 & HV2). apply wp_ok. eexists. split; [|eapply (svR4 m n S E G H p q); eauto].
    cbn. auto.
  - apply wp_bind. eapply wp_conseq; [apply (sv_scanS_ok n p k s e1 S _ Hs He1 Hp); lia|]. intros [s1 ks] (Hks & Hnot & H0 & H1).
    destruct (Z.eqb_spec ks k).
    + subst ks. apply wp_bind. specialize (H1 eq_refl). eapply wp_conseq; [apply (sv_case3_ok m n p (k + 1) s1 e1 U V S _ G H H1 He1 HU HV); lia|].
      cbn beta zeta. intros [[[s2 e2] U2] V2] (Hs2 & He2 & HU2 & HV2). apply wp_ok. eexists. split; [|apply (svR3 m n S E G H p k); auto; lia]. cbn. auto.
    + destruct (H0 ltac:(lia)) as [Hle Hs1]. clear H0 H1. destruct (Z.eqb_spec ks (p - 1)).
      * subst ks. apply wp_bind. eapply wp_conseq; [apply (sv_case1_ok n p (k + 1) s1 e1 V _ _ H G Hs1 He1 HV); lia|].
        cbn beta zeta. intros [[s2 e2] V2] (Hs2 & He2 & HV2). apply wp_ok. eexists. split; [|apply (svR1 m n S E G H p k); auto; lia]. cbn. split; [auto|]. split; [auto|].
        split; [|auto]. assert (EU : forall c x, it_U (c1_iter p (k + 1) c x) = it_U x).
        { intros c. unfold c1_iter. generalize (Z.to_nat c). intros w. induction w; intros x; cbn; auto. rewrite <- (IHw x). unfold c1_step. destruct (negb _); reflexivity. }
        unfold c1_fin. rewrite EU. exact HU.
      * apply wp_bind. eapply wp_conseq; [apply (sv_case2_ok m n p (ks + 1) s1 e1 U _ _ G H Hs1 He1 HU); lia|].
        cbn beta zeta. intros [[s2 e2] U2] (Hs2 & He2 & HU2). apply wp_ok. eexists. split; [|apply (svR2 m n S E G H p k ks); auto; lia]. cbn. split; [auto|]. split; [auto|]. split; [auto|].
        split; [|auto]. assert (EV : forall c x, it_V (c2_iter (ks + 1) c x) = it_V x).
        { intros c. unfold c2_iter. generalize (Z.to_nat c). intros w. induction w; intros x; cbn; auto. }
        unfold c2_fin. rewrite EV. exact HV.
Qed.
Lemma svR_p m n x y : svR m n x y -> 1 <= t_p x <= n -> 0 <= t_p y <= n.
Proof. destruct 1; cbn; lia. Qed.
Lemma svRs_p m n x y : svRs m n x y -> 0 <= t_p x <= n -> 0 <= t_p y <= n.
Proof. induction 1; auto. intros. eapply svR_p; eauto. Qed.

(** ** The start of the iteration *)
Section Start.
Variables m n : Z.
Definition s_nct : Z := Z.min (m - 1) n.
Definition s_nrt : Z := Z.max 0 (n - 2).
Definition sr_iter (A : Z -> Z -> F) (k : Z) : sr_st :=
  accum (sr_step m n s_nct s_nrt) (Z.to_nat k) (mkSR A (fun _ => fzero) (fun _ => fzero) (fun _ _ => fzero) (fun _ _ => fzero)).
Definition sr_fin (A : Z -> Z -> F) : sr_st := sr_iter A s_nct.
Definition bd_S (x : sr_st) (i : Z) : F := if (s_nct <? n) && (i =? s_nct) then sr_A x s_nct s_nct else sr_S x i.
Definition bd_E (x : sr_st) (i : Z) : F := if i =? n - 1 then fzero else if (s_nrt + 1 <? n) && (i =? s_nrt) then sr_A x s_nrt (n - 1) else sr_e x i.
Definition sv0 (A : Z -> Z -> F) : sv_t :=
  let x := sr_fin A in
  mkT (bd_S x) (bd_E x) (gu_iter m s_nct (bd_S x) (sr_U x) 0) (gv_iter n s_nrt (bd_E x) (sr_V x) 0) n.
End Start.

Definition wide (r c : Z) (A : Z -> Z -> F) : Z -> Z -> F := if r <? c then flip A else A.
(** The decomposition holds these tables. *)
Definition sv_tabU (r c : Z) (x : sv_t) : Z -> Z -> F := if r <? c then t_V x else t_U x.
Definition sv_tabV (r c : Z) (x : sv_t) : Z -> Z -> F := if r <? c then t_U x else t_V x.
Definition sv_made (r c : Z) (x : sv_t) (d : SvD) : Prop :=
  let m := Z.max r c in let n := Z.min r c in
  VTab (sv_s d) n (t_S x) /\ sv_m d = m /\ sv_n d = n /\ sv_transposed d = (r <? c) /\
  (general (sv_cachedU d) /\ MatIs (sv_cachedU d) r n (sv_tabU r c x)) /\
  (general (sv_cachedV d) /\ MatIs (sv_cachedV d) c n (sv_tabV r c x)) /\
  sv_cachedUt d = None /\ sv_cachedVt d = None /\ sv_cachedS d = None /\
  sv_tol d = fmax (flit (inject_Z m) * t_S x 0 * eps_svd)%f (fsqrt doubleeps).

Lemma lib_wide x r c A : library x -> MatIs x r c A -> r <> c -> general x.
Proof. intros Hl H Hne. destruct x; cbn in *; auto. apply MatIs_DIs in H. destruct H as [H _]. contradiction. Qed.

Lemma sv_data x r c A : library x -> MatIs x r c A -> 1 <= r -> 1 <= c ->
  wp (if r <? c then let* t := m_Transpose x in m_Data t else m_Data x) (fun d => RTab d (Z.max r c) (Z.min r c) (wide r c A)).
Proof.
  intros Hl H Hr Hc. unfold wide. destruct (Z.ltb_spec r c).
  - rewrite Z.max_r, Z.min_l by lia. pose proof (lib_wide x r c A Hl H ltac:(lia)) as Hg. destruct (m_Transpose_ok x r c A Hg H) as (t & -> & Hg' & Ht). cbn [bind].
    apply m_Data_ok; auto. destruct t; cbn in *; auto.
  - rewrite Z.max_l, Z.min_r by lia. apply m_Data_ok; auto.
Qed.

Lemma sv_new_run fuel x r c A : library x -> MatIs x r c A -> 1 <= r -> 1 <= c ->
  okfu (NewSingularValueDecomposition fuel x) (fun d => exists y, svRs (Z.max r c) (Z.min r c) (sv0 (Z.max r c) (Z.min r c) (wide r c A)) y /\ t_p y = 0 /\ sv_made r c y d)
    (exists y, svRk (Z.max r c) (Z.min r c) (sv0 (Z.max r c) (Z.min r c) (wide r c A)) fuel y).
Proof.
  intros Hl Hx Hr Hc. unfold NewSingularValueDecomposition. rewrite (MatIs_rows _ _ _ _ Hx), (MatIs_cols _ _ _ _ Hx). cbn [bind].
  apply okfu_bind. eapply wp_conseq; [apply (sv_data x r c A Hl Hx Hr Hc)|]. intros a Ha. set (m := Z.max r c) in *. set (n := Z.min r c) in *.
  assert (Hn : 1 <= n <= m) by lia. set (A0 := wide r c A) in *.
  destruct (make_VTab n ltac:(lia)) as (s & Es & Hs). rewrite Es. cbn [bind].
  destruct (make2_spec m n ltac:(lia) ltac:(lia)) as (U & -> & HU). cbn [bind]. destruct (make2_spec n n ltac:(lia) ltac:(lia)) as (V & -> & HV). cbn [bind].
  destruct (make_VTab m ltac:(lia)) as (w & Ew & Hw). rewrite Ew. cbn [bind].
  replace (Z.max (Z.min (m - 1) n) (Z.max 0 (n - 2))) with (s_nct m n) by (unfold s_nct; lia). fold (s_nct m n) (s_nrt n).
  apply okfu_bind. apply (wp_for (fun k st => SRT m n (sr_iter m n A0 k) st)).
  { unfold s_nct. lia. }
  { cbn. split; [auto|]. split; [auto|]. split; [auto|]. split; [eauto|]. auto. }
  { intros k st Hk K. unfold sr_iter. rewrite accum_S by lia. fold (sr_iter m n A0 k). apply sv_reduce_ok; auto; unfold s_nct, s_nrt in *; lia. }
  intros [[[[[a1 s1] e1] w1] U1] V1] (Ha1 & Hs1 & He1 & _ & HU1 & HV1). fold (sr_fin m n A0) in *.
  apply okfu_bind. eapply wp_conseq; [apply (sv_final_ok m n (s_nct m n) (s_nrt n) a1 _ s1 _ e1 _ Ha1 Hs1 He1); try lia; unfold s_nct, s_nrt; lia|]. cbn beta.
  intros [s2 e2] (Hs2 & He2). cbn [fst snd] in *. fold (bd_S m n (sr_fin m n A0)) in Hs2. fold (bd_E n (sr_fin m n A0)) in He2.
  apply okfu_bind. eapply wp_conseq; [apply (sv_genU_ok m n (s_nct m n) s2 _ U1 _ HU1 Hs2); unfold s_nct; lia|]. cbn beta. intros U2 HU2.
  apply okfu_bind. eapply wp_conseq; [apply (sv_genV_ok n (s_nrt n) e2 _ V1 _ HV1 He2); unfold s_nrt; lia|]. cbn beta. intros V2 HV2.
  eapply okfu_bind2.
  { match goal with |- okfu ?w ?Q ?X => enough (W : okfu w Q (exists st, (fun k st => exists y, svRk m n (sv0 m n A0) k y /\ SVT m n y st) (0 + fuel)%nat st)) end.
    { revert W. match goal with |- okfu ?w _ _ -> _ => destruct w end; cbn; auto. intros [W1 (st & y & W2 & _)]. split; eauto. }
    apply (while_okfu (fun k st => exists y, svRk m n (sv0 m n A0) k y /\ SVT m n y st)).
    - exists (sv0 m n A0). split; [constructor|]. cbn. auto.
    - intros kk [[[[s3 e3] U3] V3] p3] (y & Hy & Ty) Hc'. cbn [snd] in Hc'. apply Z.ltb_lt in Hc'. pose proof (svRs_p m n _ _ (svRk_svRs _ _ _ _ _ Hy)) as Hp. cbn [t_p sv0] in Hp. specialize (Hp ltac:(lia)).
      pose proof Ty as (_ & _ & _ & _ & Ep). eapply wp_conseq; [apply (sv_turn_ok m n y _ Ty); lia|]. intros st' (y' & Ty' & R). exists y'. split; auto. eapply svRk_step; eauto. lia. }
  intros [[[[s3 e3] U3] V3] p3] ((kk & y & Hy0 & Ty) & Hc'). pose proof (svRk_svRs _ _ _ _ _ Hy0) as Hy. cbn [snd] in Hc'. apply Z.ltb_ge in Hc'.
  pose proof (svRs_p m n _ _ Hy) as Hp. cbn [t_p sv0] in Hp. specialize (Hp ltac:(lia)). destruct Ty as (Hs3 & He3 & HU3 & HV3 & Ep). vget.
  destruct (FromSlices_RTab U3 m n _ ltac:(lia) ltac:(lia) HU3) as (u & Eu & Gu & Mu). destruct (FromSlices_RTab V3 n n _ ltac:(lia) ltac:(lia) HV3) as (v & Ev & Gv & Mv).
  rewrite Eu, Ev. cbn [bind]. destruct (Z.ltb_spec r c); cbn [negb bind okfu].
  - exists y. split; [exact Hy|]. split; [lia|]. unfold sv_made, sv_tabU, sv_tabV. cbn. replace (r <? c) with true by (symmetry; apply Z.ltb_lt; lia).
    fold m n. replace m with c in * by lia. replace n with r in * by lia. repeat (split; [auto|]). auto.
  - exists y. split; [exact Hy|]. split; [lia|]. unfold sv_made, sv_tabU, sv_tabV. cbn. replace (r <? c) with false by (symmetry; apply Z.ltb_ge; lia).
    fold m n. replace m with r in * by lia. replace n with c in * by lia. repeat (split; [auto|]). auto.
Qed.
Lemma sv_new_ok fuel x r c A : library x -> MatIs x r c A -> 1 <= r -> 1 <= c ->
  okfuel (NewSingularValueDecomposition fuel x) (fun d => exists y, svRs (Z.max r c) (Z.min r c) (sv0 (Z.max r c) (Z.min r c) (wide r c A)) y /\ t_p y = 0 /\ sv_made r c y d).
Proof. intros Hl Hx Hr Hc. pose proof (sv_new_run fuel x r c A Hl Hx Hr Hc) as W. destruct (NewSingularValueDecomposition fuel x); cbn in *; tauto. Qed.
Lemma sv_new_more fuel fuel' x d : NewSingularValueDecomposition fuel x = Ok d -> (fuel <= fuel')%nat -> NewSingularValueDecomposition fuel' x = Ok d.
Proof.
  unfold NewSingularValueDecomposition. intros H Hle. destruct (m_cols x) as [c|?|?]; cbn [bind] in *; try discriminate.
  repeat match type of H with
  | bind (while_ _ _ _ _) _ = Ok _ => fail 1
  | (let '_ := ?y in _) = _ => destruct y
  | bind ?y _ = Ok _ => destruct y as [?|?|?] eqn:?; cbn [bind] in H |- *; try discriminate
  end.
  match type of H with bind ?w _ = _ => assert (N : w <> Panic EFuel) by (intros N; rewrite N in H; discriminate) end.
  rewrite (while_more _ _ fuel fuel' Hle _ N). exact H.
Qed.
End SVDFacts3.

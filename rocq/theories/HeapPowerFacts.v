(** Power on memory: what it changes, and its result. *)
From Coq Require Import ZArith List Lia Bool Reals.
From Verif Require Import Base BaseLemmas Scalar Vector Matrix VecSpec MatSpec MatFacts DiagSpec RealOps RSum BlockMul RealMatrixM RealMat RealMat2.
From Verif Require Import Heap HeapSpec HeapFacts HeapIndep HeapSim HeapSim2 HeapSim3 HeapSim4 HeapMain HeapProps HeapDec HeapRefSpec HeapRef2 HeapRef4 HeapRef6 HeapRef8 HeapRef9
  HeapSolve HeapDecFacts HeapSolveFacts HeapArith HeapArithSpec HeapArithFacts HeapArithMain HeapArithProps
  HeapBlkArith HeapBlkArithSpec HeapBlkArithFacts HeapBlkArithMain HeapBlkArithProps HeapExpr HeapExprSpec HeapExprFacts HeapPower HeapPowerSpec.
Import ListNotations.
Open Scope Z_scope.

(** ** The positions of the ones *)
Fixpoint posns (bs : list bool) : list Z :=
  match bs with [] => [] | b :: bs => (if b then [len bs] else []) ++ posns bs end.
Lemma posns_snoc bs b : posns (bs ++ [b]) = map (fun x => x + 1) (posns bs) ++ (if b then [0] else []).
Proof.
  induction bs as [|c bs IH]; cbn [posns app map]; [destruct b; reflexivity|]. rewrite IH, map_app, app_assoc. f_equal. f_equal.
  destruct c; auto. cbn [map]. f_equal. rewrite len_app. reflexivity.
Qed.
Lemma posns_ones q : posns (pos_bits q) = map Z.of_nat (ones q).
Proof.
  assert (S1 : forall l, map (fun x => x + 1) (map Z.of_nat l) = map Z.of_nat (map S l)) by (intros l; rewrite !map_map; apply map_ext; intros; lia).
  induction q; cbn [pos_bits ones]; rewrite ?posns_snoc, ?IHq, ?S1, ?map_app, ?app_nil_r; reflexivity.
Qed.
Lemma ones_bound q : forall i, In i (ones q) -> Z.of_nat i < len (pos_bits q).
Proof.
  induction q; cbn [ones pos_bits]; intros i Hi; rewrite ?len_app.
  - apply in_app_or in Hi. destruct Hi as [Hi|[<-|[]]]; [apply in_map_iff in Hi; destruct Hi as (j & <- & Hj); apply IHq in Hj; change (len [true]) with 1; lia|].
    pose proof (len_nonneg (pos_bits q)). change (len [true]) with 1. lia.
  - apply in_map_iff in Hi. destruct Hi as (j & <- & Hj). apply IHq in Hj. change (len [false]) with 1. lia.
  - destruct Hi as [<-|[]]. reflexivity.
Qed.

Section AnyOps.
Context {O : Ops}.
(** ** Loops *)
Lemma ret_up {T} (Inv : Z -> T -> heap -> Prop) (B : Z -> T -> M T) : forall n lo s h, Inv lo s h ->
  (forall i s h, lo <= i < lo + Z.of_nat n -> Inv i s h -> returns (B i s) h (fun h' s' => Inv (i + 1) s' h')) ->
  returns (mup n lo B s) h (fun h' s' => Inv (lo + Z.of_nat n) s' h').
Proof.
  induction n as [|n IH]; intros lo s h H0 HB.
  - exists s, h. split; [reflexivity|]. replace (lo + Z.of_nat 0) with lo by lia. auto.
  - destruct (HB lo s h ltac:(lia) H0) as (s1 & h1 & E1 & H1). destruct (IH (lo + 1) s1 h1 H1) as (s2 & h2 & E2 & H2); [intros; apply HB; auto; lia|].
    exists s2, h2. cbn [mup]. unfold mbind. rewrite E1, E2. split; auto. replace (lo + Z.of_nat (S n)) with (lo + 1 + Z.of_nat n) by lia. auto.
Qed.
Lemma ret_for {T} (Inv : Z -> T -> heap -> Prop) (B : Z -> T -> M T) lo hi s h : lo <= hi -> Inv lo s h ->
  (forall i s h, lo <= i < hi -> Inv i s h -> returns (B i s) h (fun h' s' => Inv (i + 1) s' h')) ->
  returns (mfor lo hi B s) h (fun h' s' => Inv hi s' h').
Proof.
  intros Hl H0 HB. pose proof (ret_up Inv B (Z.to_nat (hi - lo)) lo s h H0) as G. replace (lo + Z.of_nat (Z.to_nat (hi - lo))) with hi in G by lia. auto.
Qed.
Lemma keeps_up_inv {T} h0 (P : heap -> T -> Prop) (B : Z -> T -> M T) : (forall h h' s, hle h h' -> P h s -> P h' s) ->
  (forall hm i s, P hm s -> keeps h0 hm (B i s) P) -> forall n hm i s, P hm s -> keeps h0 hm (mup n i B s) P.
Proof.
  intros HP HB. induction n as [|n IH]; intros hm i s H; cbn [mup].
  - apply keeps_ret. intros h' Hl. eauto.
  - eapply keeps_bind; [apply HB; eauto|]. intros s1 h1 Hl H1. apply IH. auto.
Qed.
Lemma ret_step {A B} (m : M A) (f : A -> M B) h a h1 Q : m h = (Ok a, h1) -> returns (f a) h1 Q -> returns (mbind m f) h Q.
Proof. intros E (b & h2 & E2 & H). exists b, h2. unfold mbind. rewrite E. auto. Qed.
Lemma ret_bind {A B} (m : M A) (f : A -> M B) h R Q : returns m h R -> (forall a h1, R h1 a -> returns (f a) h1 Q) -> returns (mbind m f) h Q.
Proof. intros (a & h1 & E & H) K. eapply ret_step; eauto. Qed.

(** ** Only new storage is written, and the result is new *)
Lemma isnewM_mono h0 h h' x : hle h h' -> isnewM h0 h x -> isnewM h0 h' x.
Proof. intros Hl. destruct x; cbn [isnewM]; [apply isnewS_mono|apply isnewF_mono|apply isnewB_mono]; auto. Qed.
Lemma knA h0 hm (m : M slice) : keeps h0 hm m (isnewS h0) -> keeps h0 hm (let! o := m in ret (HA o)) (isnewM h0).
Proof. intros H. eapply keeps_bind; [exact H|]. intros. apply keeps_ret. intros h' Hl. cbn. eapply isnewS_mono; eauto. Qed.
Lemma knD h0 hm (m : M slice) : keeps h0 hm m (isnewF h0) -> keeps h0 hm (let! o := m in ret (HD o)) (isnewM h0).
Proof. intros H. eapply keeps_bind; [exact H|]. intros. apply keeps_ret. intros h' Hl. cbn. eapply isnewF_mono; eauto. Qed.
Lemma knB h0 hm (m : M HBlk) : keeps h0 hm m (isnewB h0) -> keeps h0 hm (let! o := m in ret (HB o)) (isnewM h0).
Proof. intros H. eapply keeps_bind; [exact H|]. intros. apply keeps_ret. intros h' Hl. cbn. eapply isnewB_mono; eauto. Qed.
Lemma kn_Copy h0 hm x : keeps h0 hm (hm_Copy x) (isnewM h0).
Proof. destruct x; cbn [hm_Copy]; [apply knA, k2_Copy|apply knD, kd_Copy|apply knB, kb_Copy]. Qed.
Lemma kn_Multiply h0 hm x y : keeps h0 hm (hm_Multiply x y) (isnewM h0).
Proof. destruct x; cbn [hm_Multiply]; [apply knA, ka_Multiply|apply kad_Multiply|apply knB, kc_Multiply]. Qed.
Lemma kn_Power h0 hm x p : keeps h0 hm (h_Power x p) (isnewM h0).
Proof.
  unfold h_Power. destruct (p <? 0); [apply keeps_panic|]. eapply keeps_bind; [apply km_IsSquare|]. intros sq h1 _ _.
  destruct (negb sq); [apply keeps_panic|]. destruct (p =? 0); [apply keeps_mpan, k_Identity|]. destruct (p =? 1); [apply kn_Copy|]. cbv zeta.
  eapply keeps_bind with (P := any).
  { apply keeps_for. intros i [nz mx] h2 _. eapply keeps_bind; [apply keeps_pure|]. intros [] h3 _ _; apply keeps_ret; exact (fun _ _ => I). }
  intros st h2 _ _. eapply keeps_bind; [apply keeps_pure|]. intros rs h3 _ _. eapply keeps_bind; [apply kn_Copy|]. intros r0 h4 _ _.
  eapply keeps_bind; [apply keeps_pure|]. intros rs1 h5 _ _. eapply keeps_bind with (P := any).
  { apply keeps_for. intros i s h6 _. eapply keeps_bind; [apply keeps_pure|]. intros [y|] h7 _ _; [|apply keeps_panic].
    eapply keeps_bind; [apply kn_Multiply|]. intros. apply keeps_pure. }
  intros rs2 h6 _ _. eapply keeps_bind; [apply kn_Copy|]. intros y h7 _ Hy.
  apply (keeps_up_inv h0 (fun h s => isnewM h0 h s)); [intros; eapply isnewM_mono; eauto| |exact Hy].
  intros h8 i s _. eapply keeps_bind; [apply keeps_pure|]. intros j h9 _ _. eapply keeps_bind; [apply keeps_pure|]. intros [z|] h10 _ _; [apply kn_Multiply|apply keeps_panic].
Qed.
Lemma power_separate x p : separate (h_Power x p) hm_obj.
Proof. apply sepM. intros. apply kn_Power. Qed.

(** ** The result *)
Lemma c_Copy h x r c f : HMatIs h x r c f -> made (hm_Copy x) h (kind_of x) r c f.
Proof.
  intros Hx. destruct x as [a|d|b]; cbn [hm_Copy kind_of].
  - apply made_A. apply m2_Copy; auto.
  - apply made_D. destruct (HDiag _ _ _ _ _ Hx) as (<- & Hn & u & HV & Hf). destruct (HVecIs_elim _ _ _ _ HV) as (l & HL & HT).
    unfold hd_Copy. apply (goes_returns _ _ (fun o h' => HMatIs h' (HD o) r r f)); [|auto].
    eapply g_imp; [apply (g_appendF h h d l (Ext_refl _) HL)|]. intros o h1 HO. cbv beta in HO. split; auto. split; auto. exists u. split; auto. eapply OwnE_HVec; [exact HO|auto].
  - apply made_B. apply mb_Copy; auto.
Qed.
#[local] Instance dflt_o : Default (option HMat) := None.
#[local] Instance dflt_b : Default bool := false.
#[local] Instance dflt_Zp : Default Z := 0.
Lemma skipn_step {A} `{Default A} (l : list A) i : 0 <= i < len l -> skipn (Z.to_nat i) l = nthZ l i :: skipn (Z.to_nat (i + 1)) l.
Proof.
  intros Hi. unfold nthZ, len in *. replace (Z.to_nat (i + 1)) with (S (Z.to_nat i)) by lia. assert (Hn : (Z.to_nat i < length l)%nat) by lia. generalize (Z.to_nat i) Hn. clear.
  intros n. revert n. induction l as [|x l IH]; intros n Hn; [cbn in Hn; lia|]. destruct n; [reflexivity|]. cbn [skipn nth]. apply IH. cbn in Hn. lia.
Qed.
Lemma bits_run h q : mfor 0 (len (pos_bits q)) (fun i '(nonZeroPositions, maxI) =>
    let! bit := pure (zget (pos_bits q) i) in
    if (bit : bool) then
      let pos := len (pos_bits q) - i - 1 in
      ret (nonZeroPositions ++ [pos], if maxI =? -1 then pos else maxI)
    else ret (nonZeroPositions, maxI)) ([], -1) h = (Ok (map Z.of_nat (ones q), len (pos_bits q) - 1), h).
Proof.
  destruct (pos_bits_head q) as (bs & E). set (L := len (pos_bits q)).
  assert (HL : 1 <= L) by (unfold L; rewrite E, len_cons; pose proof (len_nonneg bs); lia).
  edestruct (ret_for (fun i (s : list Z * Z) h' => h' = h /\ fst s ++ posns (skipn (Z.to_nat i) (pos_bits q)) = posns (pos_bits q) /\ snd s = if i =? 0 then -1 else L - 1)) as ((nz & mx) & h' & R & -> & A & B);
    [| | |rewrite R; f_equal; f_equal; cbn [fst snd] in *].
  - lia.
  - split; [reflexivity|]. split; reflexivity.
  - intros i [nz mx] h' Hi (-> & A & B). cbn [fst snd] in *. assert (H0 : i = 0 -> nthZ (pos_bits q) i = true) by (intros ->; rewrite E; reflexivity).
    rewrite (skipn_step (pos_bits q) i) in A by auto. cbn [posns] in A. eapply ret_step; [unfold pure; rewrite zget_ok by auto; reflexivity|].
    assert (LS : len (skipn (Z.to_nat (i + 1)) (pos_bits q)) = L - i - 1) by (unfold L, len in *; rewrite skipn_length; lia). rewrite LS in A.
    destruct (Z.eqb_spec (i + 1) 0); [lia|]. destruct (nthZ (pos_bits q) i) eqn:Eb.
    + eexists _, h. split; [reflexivity|]. split; auto. cbn [fst snd]. split; [rewrite <- A, <- app_assoc; reflexivity|].
      destruct (Z.eqb_spec i 0) as [->|]; [subst mx; cbn; lia|]. subst mx. destruct (Z.eqb_spec (L - 1) (-1)); lia.
    + eexists _, h. split; [reflexivity|]. split; auto. cbn [fst snd]. split; [exact A|]. destruct (Z.eqb_spec i 0) as [e|]; [discriminate (H0 e)|auto].
  - unfold L, len in A. rewrite Nat2Z.id, skipn_all, app_nil_r in A. rewrite A, posns_ones. destruct (Z.eqb_spec L 0); [lia|]. subst mx. reflexivity.
Qed.
(** Tags that follow the products. *)
Section Tags.
Context {T : Type} (mul : T -> T -> T) (base : T) (IsP : heap -> HMat -> T -> Prop).
Hypothesis IsP_ext : forall h h' y t, Ext h h' -> IsP h y t -> IsP h' y t.
Hypothesis IsP_mul : forall h y t z u, IsP h y t -> IsP h z u -> returns (hm_Multiply y z) h (fun h' o => IsP h' o (mul t u)).
Fixpoint sqt (i : nat) : T := match i with 0%nat => base | S i => mul (sqt i) (sqt i) end.
Lemma power_tags h x n p : hm_rows x = n -> hm_cols x h = (Ok n, h) -> (forall h1, Ext h h1 -> returns (hm_Copy x) h1 (fun h' o => IsP h' o base)) -> 2 <= p ->
  returns (h_Power x p) h (fun h' o => IsP h' o (fold_left (fun a i => mul a (sqt i)) (ones (Z.to_pos (p - 1))) base)).
Proof.
  intros D1 D2 HC Hp. unfold h_Power. destruct (Z.ltb_spec p 0); [lia|]. eapply ret_step; [unfold hm_IsSquare, mbind; rewrite D2; reflexivity|].
  rewrite D1, Z.eqb_refl. cbn [negb]. destruct (Z.eqb_spec p 0); [lia|]. destruct (Z.eqb_spec p 1); [lia|]. cbv zeta.
  destruct (p - 1) as [|q|q] eqn:Eq; [lia| |lia]. cbn [FormatInt2 Z.to_pos]. eapply ret_step; [apply bits_run|]. cbn [fst snd].
  destruct (pos_bits_head q) as (bs & E). set (L := len (pos_bits q)) in *.
  assert (HL : 1 <= L) by (unfold L; rewrite E, len_cons; pose proof (len_nonneg bs); lia).
  replace (L - 1 + 1) with L by lia. eapply ret_step; [unfold pure; rewrite make_ok by lia; reflexivity|].
  assert (Ex : forall m h1 y h2, keeps h1 h1 m (isnewM h1) -> m h1 = (Ok y, h2) -> Ext h1 h2) by (intros m h1 y h2 K R; exact (proj1 (K h1 (Ext_refl _) (hle_refl _) _ _ R))).
  destruct (HC h (Ext_refl _)) as (r0 & h1 & E1 & P1). pose proof (Ex _ _ _ _ (kn_Copy _ _ _) E1) as X1. eapply ret_step; [exact E1|].
  eapply ret_step; [unfold pure; rewrite zset_ok by (rewrite len_repeat; lia); reflexivity|].
  eapply ret_bind.
  { apply (ret_for (fun k (rs : list (option HMat)) h' => Ext h h' /\ len rs = L /\ forall i, 0 <= i < k -> exists ri, nthZ rs i = Some ri /\ IsP h' ri (sqt (Z.to_nat i)))); [lia| |].
    - split; [auto|]. split; [rewrite len_upd, len_repeat; lia|]. intros i Hi. replace i with 0 by lia. exists r0. rewrite nthZ_upd_eq by (rewrite len_repeat; lia). split; auto.
    - intros i rs h2 Hi (X2 & Lr & HR). eapply ret_step; [unfold pure; rewrite zget_ok by lia; reflexivity|]. destruct (HR (i - 1) ltac:(lia)) as (y & -> & Py).
      destruct (IsP_mul h2 y _ y _ Py Py) as (z & h3 & E3 & Pz). pose proof (Ex _ _ _ _ (kn_Multiply _ _ _ _) E3) as X3. eapply ret_step; [exact E3|].
      eexists _, h3. unfold pure. rewrite zset_ok by lia. split; [reflexivity|]. split; [eapply Ext_trans; eauto|]. split; [rewrite len_upd; auto|]. intros k Hk.
      destruct (Z.eq_dec k i) as [->|].
      + exists z. rewrite nthZ_upd_eq by lia. split; auto. replace (Z.to_nat i) with (S (Z.to_nat (i - 1))) by lia. exact Pz.
      + rewrite nthZ_upd_ne by lia. destruct (HR k ltac:(lia)) as (w & Ew & Pw). exists w. split; eauto. }
  intros rs h2 (X2 & Lr & HR). destruct (HC h2 X2) as (y & h3 & E3 & P3). pose proof (Ex _ _ _ _ (kn_Copy _ _ _) E3) as X3. eapply ret_step; [exact E3|].
  set (zs := map Z.of_nat (ones q)). assert (Lz : len zs = len (ones q)) by (unfold zs, len; rewrite map_length; reflexivity).
  pose proof (ret_for (fun k r h' => Ext h2 h' /\ IsP h' r (fold_left (fun a i => mul a (sqt i)) (firstn (Z.to_nat k) (ones q)) base))
    (fun k result => let! i := pure (zget zs k) in let! o := pure (zget rs i) in match o with None => mpanic ERuntime | Some ri => hm_Multiply result ri end) 0 (len zs) y h3) as G.
  destruct G as (r & h4 & E4 & _ & P4).
  - apply len_nonneg.
  - split; auto.
  - intros k r h4 Hk (X4 & P4). assert (Hin : In (nth (Z.to_nat k) (ones q) 0%nat) (ones q)) by (apply nth_In; unfold len in *; lia).
    assert (Ez : nthZ zs k = Z.of_nat (nth (Z.to_nat k) (ones q) 0%nat)) by (unfold nthZ, zs; change (@dflt Z dflt_Zp) with (Z.of_nat 0); apply map_nth).
    eapply ret_step; [unfold pure; rewrite zget_ok by auto; reflexivity|]. pose proof (ones_bound q _ Hin) as Hb. fold L in Hb. rewrite Ez.
    eapply ret_step; [unfold pure; rewrite zget_ok by lia; reflexivity|]. destruct (HR (Z.of_nat (nth (Z.to_nat k) (ones q) 0%nat)) ltac:(lia)) as (ri & -> & Pi). rewrite Nat2Z.id in Pi.
    destruct (IsP_mul h4 r _ ri _ P4 (IsP_ext _ _ _ _ X4 Pi)) as (z & h5 & E5 & Pz). pose proof (Ex _ _ _ _ (kn_Multiply _ _ _ _) E5) as X5.
    exists z, h5. split; [exact E5|]. split; [eapply Ext_trans; eauto|].
    replace (firstn (Z.to_nat (k + 1)) (ones q)) with (firstn (Z.to_nat k) (ones q) ++ [nth (Z.to_nat k) (ones q) 0%nat]); [rewrite fold_left_app; exact Pz|].
    symmetry. apply (@firstn_step nat 0%nat). rewrite <- Lz. auto.
  - exists r, h4. split; [exact E4|]. unfold len in P4. rewrite Nat2Z.id in P4. unfold zs in P4. rewrite map_length, firstn_all in P4. exact P4.
Qed.
End Tags.
Lemma kproduct_same k : kproduct k k = k.
Proof. destruct k; reflexivity. Qed.
Lemma power_any h x n f p : HMatIs h x n n f -> 2 <= p -> made (h_Power x p) h (kind_of x) n n (raised (kind_of x) n f p).
Proof.
  intros Hx Hp. destruct (HMat_dims _ _ _ _ _ Hx) as [D1 D2].
  pose proof (power_tags (fun a b => product (kind_of x) (kind_of x) n a b) f (fun h y t => kind_of y = kind_of x /\ HMatIs h y n n t)) as G.
  destruct (fun A B => G A B h x n p D1 D2) as (o & h' & E & K & H).
  { intros h1 h2 y t He [A B]. split; auto. eapply HMat_Ext; eauto. }
  { intros h1 y t z u [A B] [C D]. pose proof (c_Multiply h1 y z n n n t u B D) as K. rewrite A, C, kproduct_same in K. exact K. }
  { intros h1 He. apply (c_Copy h1 x n n f). eapply HMat_Ext; eauto. }
  { exact Hp. }
  exists o, h'. split; auto. split; auto.
  unfold raised. replace (fold_left (fun a i => product (kind_of x) (kind_of x) n a (squares (kind_of x) n f i)) (ones (Z.to_pos (p - 1))) f)
    with (fold_left (fun a i => product (kind_of x) (kind_of x) n a (sqt (fun a b => product (kind_of x) (kind_of x) n a b) f i)) (ones (Z.to_pos (p - 1))) f); [exact H|].
  assert (S1 : forall i, sqt (fun a b => product (kind_of x) (kind_of x) n a b) f i = squares (kind_of x) n f i) by (induction i as [|i IH]; [reflexivity|]; cbn [sqt squares]; rewrite IH; reflexivity).
  clear E K H. generalize f at 2 4. induction (ones (Z.to_pos (p - 1))) as [|i l IH]; intros g; cbn [fold_left]; [reflexivity|]. rewrite S1. apply IH.
Qed.
Lemma power_one h x n f : HMatIs h x n n f -> made (h_Power x 1) h (kind_of x) n n f.
Proof.
  intros Hx. destruct (HMat_dims _ _ _ _ _ Hx) as [D1 D2]. unfold h_Power. cbn [Z.ltb Z.compare Z.eqb Pos.eqb]. unfold made.
  eapply ret_step; [unfold hm_IsSquare, mbind; rewrite D2; reflexivity|]. rewrite D1, Z.eqb_refl. cbn [negb]. apply c_Copy; auto.
Qed.
Lemma identity_kind n h x h' : mpan (h_NewRealIdentityMatrix n) h = (Ok x, h') -> kind_of x = newkind n.
Proof.
  unfold mpan, h_NewRealIdentityMatrix, h_NewRealMatrixWithDimension, newkind, mbind. intros E. destruct (n * n <=? 4096).
  - destruct (h2_New n n h) as [[a|e|e] h1]; try discriminate. cbn in E. destruct (mfor _ _ _ _ h1) as [[u|e|e] h2]; try discriminate. injection E as <- _. reflexivity.
  - destruct (hb_New n n h) as [[a|e|e] h1]; try discriminate. cbn in E. destruct (mfor _ _ _ _ h1) as [[u|e|e] h2]; try discriminate. injection E as <- _. reflexivity.
Qed.
Lemma power_zero h x n f : HMatIs h x n n f -> made (h_Power x 0) h (newkind n) n n (fun i j => if i =? j then fone else fzero).
Proof.
  intros Hx. destruct (HMat_dims _ _ _ _ _ Hx) as [D1 D2]. destruct (HMat_pos _ _ _ _ _ Hx) as [Hn _]. unfold h_Power. cbn [Z.ltb Z.compare Z.eqb]. unfold made.
  eapply ret_step; [unfold hm_IsSquare, mbind; rewrite D2; reflexivity|]. rewrite D1, Z.eqb_refl. cbn [negb].
  pose proof (ref_identity h n) as S. destruct (identity_ok n Hn) as (m & Em & _ & Hm). unfold sim in S. rewrite Em in S. cbn [orpanic] in S.
  destruct (mpan (h_NewRealIdentityMatrix n) h) as [[y|e|e] h'] eqn:E; try contradiction. destruct S as (g & HX & HM & _). exists y, h'. split; auto. split; [eapply identity_kind; eauto|].
  apply (HMat_ext h' y n n g); auto. intros i j Hi Hj. pose proof (MatIs_At _ _ _ _ i j HM Hi Hj) as A. rewrite (MatIs_At _ _ _ _ i j Hm Hi Hj) in A. injection A as <-. reflexivity.
Qed.
Lemma power_refused h x r c f p : HMatIs h x r c f -> (p < 0 -> h_Power x p h = (Panic ENotPositive, h)) /\ (0 <= p -> r <> c -> h_Power x p h = (Panic ENonSquare, h)).
Proof.
  intros Hx. destruct (HMat_dims _ _ _ _ _ Hx) as [D1 D2]. unfold h_Power. split; intros Hp.
  - destruct (Z.ltb_spec p 0); [reflexivity|lia].
  - intros N. destruct (Z.ltb_spec p 0); [lia|]. unfold hm_IsSquare, mbind. rewrite D2, D1. cbn. destruct (Z.eqb_spec c r); [lia|reflexivity].
Qed.
Lemma power_entries h x n f : wfheap h -> HMatIs h x n n f ->
  fresh (h_Power x 0) hm_obj h (fun h' o => kind_of o = newkind n /\ HMatIs h' o n n (fun i j => if i =? j then fone else fzero)) /\
  fresh (h_Power x 1) hm_obj h (fun h' o => kind_of o = kind_of x /\ HMatIs h' o n n f) /\
  forall p, 2 <= p -> fresh (h_Power x p) hm_obj h (fun h' o => kind_of o = kind_of x /\ HMatIs h' o n n (raised (kind_of x) n f p)).
Proof.
  intros Hw Hx. split; [|split; [|intros p Hp]]; apply fresh_of; auto using power_separate; [eapply power_zero; eauto|apply power_one; auto|apply power_any; auto].
Qed.
End AnyOps.

(** ** Over the reals *)
#[local] Existing Instance ROps.
Lemma ones_sum q : fold_left (fun a i => a + 2 ^ Z.of_nat i) (ones q) 0 = Zpos q.
Proof.
  assert (A : forall l a, fold_left (fun a i => a + 2 ^ Z.of_nat i) l a = a + fold_left (fun a i => a + 2 ^ Z.of_nat i) l 0).
  { induction l as [|x l IH]; intros a; cbn [fold_left]; [lia|]. rewrite IH, (IH (0 + _)). lia. }
  assert (B : forall l, fold_left (fun a i => a + 2 ^ Z.of_nat i) (map S l) 0 = 2 * fold_left (fun a i => a + 2 ^ Z.of_nat i) l 0).
  { induction l as [|x l IH]; cbn [map fold_left]; [lia|]. rewrite A, (A l), IH. rewrite Nat2Z.inj_succ, Z.pow_succ_r by lia. lia. }
  induction q; cbn [ones]; [rewrite fold_left_app| |reflexivity]; rewrite B, IHq; reflexivity.
Qed.
Lemma product_Rs k n (f g : Z -> Z -> R) i j : 1 <= n -> 0 <= i < n -> 0 <= j < n -> (k = Diag -> forall a b, 0 <= a < n -> 0 <= b < n -> a <> b -> f a b = 0%R /\ g a b = 0%R) ->
  product k k n f g i j = mmul n f g i j.
Proof.
  intros Hn Hi Hj HD. unfold mmul. destruct k; cbn [product].
  - apply fsum_Rs.
  - rewrite <- (bsum_blocks (@sum4 ROps) (@sum_fours ROps)) by (intros; apply sum4_fours). apply (bsum_Rs (@sum4 ROps)); auto. intros; apply sum4_Rs; auto.
  - specialize (HD eq_refl). unfold diag_of. destruct (Z.eqb_spec i j) as [<-|N].
    + rewrite (Rs_pick 0 n i); auto. intros k Hk Hne. rewrite (proj1 (HD i k ltac:(auto) ltac:(auto) ltac:(auto))). apply Rmult_0_l.
    + rewrite (Rs_pick 0 n i); auto; [rewrite (proj2 (HD i j Hi Hj N)); symmetry; apply Rmult_0_r|].
      intros k Hk Hne. rewrite (proj1 (HD i k ltac:(auto) ltac:(auto) ltac:(auto))). apply Rmult_0_l.
Qed.
Lemma diag_zero h x n f : HMatIs h x n n f -> kind_of x = Diag -> forall a b, 0 <= a < n -> 0 <= b < n -> a <> b -> f a b = 0%R.
Proof.
  intros H K a b Ha Hb N. destruct x as [s|d|s]; try discriminate. destruct (HDiag _ _ _ _ _ H) as (_ & _ & u & _ & E). rewrite E by auto.
  unfold diag_of. destruct (Z.eqb_spec a b); [contradiction|reflexivity].
Qed.
Lemma power_tag h x n f p : HMatIs h x n n f -> 2 <= p -> made (h_Power x p) h (kind_of x) n n (mpow n f (Z.to_nat p)).
Proof.
  intros Hx Hp. destruct (HMat_dims _ _ _ _ _ Hx) as [D1 D2]. destruct (HMat_pos _ _ _ _ _ Hx) as [Hn _].
  pose proof (power_tags Z.add 1 (fun h y t => 0 <= t /\ kind_of y = kind_of x /\ HMatIs h y n n (mpow n f (Z.to_nat t)))) as G.
  destruct (fun A B => G A B h x n p D1 D2) as (o & h' & E & _ & H).
  - intros h1 h2 y t He (T & A & B). split; auto. split; auto. eapply HMat_Ext; eauto.
  - intros h1 y t z u (T & A & B) (U & C & D). pose proof (c_Multiply h1 y z n n n _ _ B D) as K. rewrite A, C, kproduct_same in K.
    destruct K as (o & h2 & E & KO & HO). exists o, h2. split; auto. split; [lia|]. split; auto. eapply HMat_ext; [|exact HO]. intros i j Hi Hj.
    rewrite product_Rs; auto; [rewrite Z2Nat.inj_add by auto; symmetry; apply mpow_add; auto|].
    intros KD a b Ha Hb N. split; [apply (diag_zero h1 y n _ B)|apply (diag_zero h1 z n _ D)]; auto; congruence.
  - intros h1 He. destruct (c_Copy h1 x n n f) as (o & h2 & E & KO & HO); [eapply HMat_Ext; eauto|]. exists o, h2. split; auto. split; [lia|]. split; auto.
    eapply HMat_ext; [|exact HO]. intros i j Hi Hj. symmetry. apply mpow_1; auto.
  - exact Hp.
  - exists o, h'. split; auto.
    assert (S1 : forall i, sqt Z.add 1 i = 2 ^ Z.of_nat i) by (induction i as [|i IH]; [reflexivity|]; cbn [sqt]; rewrite IH, Nat2Z.inj_succ, Z.pow_succ_r by lia; lia).
    assert (S2 : forall l a, fold_left (fun a i => a + sqt Z.add 1 i) l a = a + fold_left (fun a i => a + 2 ^ Z.of_nat i) l 0).
    { induction l as [|y l IH]; intros a; cbn [fold_left]; [lia|]. rewrite IH, S1. rewrite <- (Z.add_0_r (0 + 2 ^ Z.of_nat y)).
      assert (A : forall l a, fold_left (fun a i => a + 2 ^ Z.of_nat i) l a = a + fold_left (fun a i => a + 2 ^ Z.of_nat i) l 0).
      { clear. induction l as [|x l IH]; intros a; cbn [fold_left]; [lia|]. rewrite IH, (IH (0 + _)). lia. }
      rewrite (A l (0 + _ + 0)). lia. }
    rewrite S2, ones_sum in H. replace (1 + Z.pos (Z.to_pos (p - 1))) with p in H by (rewrite Z2Pos.id by lia; lia). exact H.
Qed.
Lemma power_real h x n f p : wfheap h -> HMatIs h x n n f -> 0 <= p ->
  fresh (h_Power x p) hm_obj h (fun h' o => HMatIs h' o n n (mpow n f (Z.to_nat p)) /\ kind_of o = if p =? 0 then newkind n else kind_of x).
Proof.
  intros Hw Hx Hp. apply fresh_of; auto using power_separate. destruct (Z.eq_dec p 0) as [->|].
  { destruct (power_zero h x n f Hx) as (o & h' & E & K & H). exists o, h'. split; auto. }
  destruct (Z.eqb_spec p 0); [lia|].
  destruct (Z.eq_dec p 1) as [->|].
  { destruct (power_one h x n f Hx) as (o & h' & E & K & H). exists o, h'. split; auto. split; auto. eapply HMat_ext; [|exact H]. intros i j Hi Hj. symmetry. apply mpow_1; auto. }
  destruct (power_tag h x n f p Hx ltac:(lia)) as (o & h' & E & K & H). exists o, h'. auto.
Qed.

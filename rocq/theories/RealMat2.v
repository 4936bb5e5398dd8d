(** Identity, integer powers and index-set sub-matrices. *)
From Coq Require Import ZArith List Lia Bool Reals Lra.
From Verif Require Import Base BaseLemmas Scalar Vector VecSpec VectorFacts Matrix Array2D BlockM Diagonal RealMatrixM MatSpec MatFacts Array2DFacts BlockFacts DiagFacts WalkFacts MatrixOps HistSpec MatHist MatProps DiagSpec DiagFacts2 DiagFacts3 DiagProps RealOps RSum RealMat.
Import ListNotations.
Open Scope Z_scope.

Section AnyOps.
Context {O : Ops}.
Lemma gives_wp x r c f : gives x r c f -> wp x (fun s => general s /\ MatIs s r c f).
Proof. intros (s & E & H). exists s. auto. Qed.
Lemma identity_ok n : 1 <= n -> gives (NewRealIdentityMatrix n) n n (diagonal (fun _ => fone)).
Proof.
  intros Hn. unfold NewRealIdentityMatrix. destruct (new_zero n n Hn Hn) as (_ & _ & m0 & E & Hg & H). rewrite E. cbn [bind].
  enough (W : wp (for_ 0 n (fun i m => m_SetEntry m i i fone) m0) (fun s => general s /\ MatIs s n n (diagonal (fun _ => fone)))).
  { destruct W as (s & E' & K). exists s. auto. }
  apply (wp_for (fun k s => general s /\ MatIs s n n (fun i j => if (i =? j) && (i <? k) then fone else fzero))); try lia.
  - split; auto. eapply MatIs_ext; [exact H|]. intros i j Hi Hj. destruct (Z.ltb_spec i 0); [lia|]. rewrite andb_false_r. auto.
  - intros i s Hi [Hgs Hs]. eapply wp_conseq; [apply gives_wp, (m_SetEntry_ok s n n _ i i fone Hgs Hs); auto|]. intros s' [Hg' H']. split; auto.
    eapply MatIs_ext; [exact H'|]. intros p q Hp Hq. unfold tset. zb; auto.
  - intros s [Hgs Hs]. split; auto. eapply MatIs_ext; [exact Hs|]. intros i j Hi Hj. unfold diagonal. destruct (Z.eqb_spec i j); auto.
    destruct (Z.ltb_spec i n); auto; lia.
Qed.
Lemma withdiag_ok v n g : 1 <= n -> VecIs (VArr v) n g -> gives (NewRealMatrixWithDiagonal v) n n (diagonal g).
Proof.
  intros Hn Hv. apply VecIs_VTab in Hv. destruct Hv as [Hl Hv]. unfold NewRealMatrixWithDiagonal. rewrite Hl.
  destruct (new_zero n n Hn Hn) as (_ & _ & m0 & E & Hg & H). rewrite E. cbn [bind].
  enough (W : wp (for_ 0 n (fun i m => let* x := zget v i in m_SetEntry m i i x) m0) (fun s => general s /\ MatIs s n n (diagonal g))).
  { destruct W as (s & E' & K). exists s. auto. }
  apply (wp_for (fun k s => general s /\ MatIs s n n (fun i j => if (i =? j) && (i <? k) then g i else fzero))); try lia.
  - split; auto. eapply MatIs_ext; [exact H|]. intros i j Hi Hj. destruct (Z.ltb_spec i 0); [lia|]. rewrite andb_false_r. auto.
  - intros i s Hi [Hgs Hs]. rewrite zget_ok by lia. cbn [bind].
    eapply wp_conseq; [apply gives_wp, (m_SetEntry_ok s n n _ i i _ Hgs Hs); auto|]. intros s' [Hg' H']. split; auto.
    eapply MatIs_ext; [exact H'|]. intros p q Hp Hq. unfold tset. zb; auto. subst. apply Hv. auto.
  - intros s [Hgs Hs]. split; auto. eapply MatIs_ext; [exact Hs|]. intros i j Hi Hj. unfold diagonal. destruct (Z.eqb_spec i j); auto.
    destruct (Z.ltb_spec i n); auto; lia.
Qed.
Lemma copy_lib m r c f : library m -> MatIs m r c f -> exists p, m_Copy m = Ok p /\ library p /\ MatIs p r c f.
Proof.
  intros Hl Hm. destruct m as [a|b|d|? ? ?]; try contradiction.
  - destruct (m_Copy_ok (MArr a) r c f I Hm) as (p & E & Hg & H). exists p. split; auto. split; auto. destruct p; auto.
  - destruct (m_Copy_ok (MBlk b) r c f I Hm) as (p & E & Hg & H). exists p. split; auto. split; auto. destruct p; auto.
  - exists (MDiag (mkDiag ([] ++ d_data d))). split; [reflexivity|]. split; [exact I|]. destruct d; auto.
Qed.
End AnyOps.

(** ** Powers *)
Definition val2 (bs : list bool) : Z := fold_left (fun v (b : bool) => 2 * v + (if b then 1 else 0)) bs 0.
Lemma val2_snoc bs b : val2 (bs ++ [b]) = 2 * val2 bs + (if b then 1 else 0).
Proof. unfold val2. rewrite fold_left_app. reflexivity. Qed.
Lemma val2_pos p : val2 (pos_bits p) = Zpos p.
Proof. induction p; cbn [pos_bits]; rewrite ?val2_snoc, ?IHp; auto. Qed.
Lemma pos_bits_head p : exists bs, pos_bits p = true :: bs.
Proof. induction p; cbn [pos_bits]; try destruct IHp as (bs & ->); eexists; reflexivity. Qed.
Definition sum2 (l : list Z) : Z := fold_right (fun x s => 2 ^ x + s) 0 l.
Lemma sum2_app l1 l2 : sum2 (l1 ++ l2) = sum2 l1 + sum2 l2.
Proof. induction l1; cbn [app sum2 fold_right] in *; unfold sum2 in *; lia. Qed.
#[local] Instance dflt_b : Default bool := false.
#[local] Instance dflt_Z : Default Z := 0.
Lemma firstn_step {A} `{Default A} (l : list A) i : 0 <= i < len l -> firstn (Z.to_nat (i + 1)) l = firstn (Z.to_nat i) l ++ [nthZ l i].
Proof.
  intros Hi. unfold nthZ, len in *. replace (Z.to_nat (i + 1)) with (S (Z.to_nat i)) by lia.
  assert (Hn : (Z.to_nat i < length l)%nat) by lia. generalize (Z.to_nat i) Hn. clear. intros n. revert n.
  induction l as [|x l IH]; intros n Hn; [cbn in Hn; lia|]. destruct n; [reflexivity|]. cbn [firstn app nth]. f_equal. apply IH. cbn in Hn. lia.
Qed.

Lemma bits_loop p : wp (for_ 0 (len (pos_bits p))
    (fun i '(nonZeroPositions, maxI) =>
      let* bit := zget (pos_bits p) i in
      if (bit : bool) then
        let pos := len (pos_bits p) - i - 1 in
        Ok (nonZeroPositions ++ [pos], if maxI =? -1 then pos else maxI)
      else Ok (nonZeroPositions, maxI)) ([], -1))
   (fun s => sum2 (fst s) = Zpos p /\ snd s = len (pos_bits p) - 1 /\ 0 <= snd s /\ forall x, In x (fst s) -> 0 <= x <= snd s).
Proof.
  destruct (pos_bits_head p) as (bs & E). pose proof (val2_pos p) as V.
  set (L := len (pos_bits p)). assert (HL : 1 <= L) by (unfold L; rewrite E, len_cons; pose proof (len_nonneg bs); lia).
  apply (wp_for (fun i s => sum2 (fst s) = val2 (firstn (Z.to_nat i) (pos_bits p)) * 2 ^ (L - i) /\
     snd s = (if i =? 0 then -1 else L - 1) /\ forall x, In x (fst s) -> 0 <= x <= L - 1)); try lia.
  - cbn [fst snd]. split; [reflexivity|]. split; [reflexivity|]. intros x [].
  - intros i [nz mx] Hi (H1 & H2 & H3). cbn [fst snd] in *. rewrite zget_ok by auto. cbn [bind].
    assert (H0 : i = 0 -> nthZ (pos_bits p) i = true) by (intros ->; rewrite E; reflexivity).
    rewrite (firstn_step (pos_bits p) i) by auto. rewrite val2_snoc.
    assert (P : 2 ^ (L - i) = 2 * 2 ^ (L - (i + 1))) by (replace (L - i) with (Z.succ (L - (i + 1))) by lia; apply Z.pow_succ_r; lia).
    destruct (Z.eqb_spec (i + 1) 0); [lia|].
    destruct (nthZ (pos_bits p) i) eqn:Eb; apply wp_ok; cbn [fst snd].
    + fold L. split; [|split].
      * rewrite sum2_app, H1, P. replace (L - i - 1) with (L - (i + 1)) by lia. cbn [sum2 fold_right]. lia.
      * subst mx. destruct (Z.eqb_spec i 0); [subst; cbn; lia|]. destruct (Z.eqb_spec (L - 1) (-1)); lia.
      * intros x Hx. apply in_app_or in Hx. destruct Hx as [Hx|[<-|[]]]; [auto|lia].
    + destruct (Z.eqb_spec i 0); [exfalso; specialize (H0 e); congruence|]. split; [|split; auto]. rewrite H1, P. lia.
  - intros [nz mx] (H1 & H2 & H3). cbn [fst snd] in *. rewrite Z.sub_diag, Z.mul_1_r in H1. unfold L, len in H1. rewrite Nat2Z.id, firstn_all, V in H1.
    destruct (Z.eqb_spec L 0); [lia|]. split; auto. split; auto. split; [lia|]. intros x Hx. subst mx. auto.
Qed.

#[local] Existing Instance ROps.
#[local] Instance dflt_m : Default (option RealMatrix) := None.
Lemma mpow_ext n A B p : meq n n A B -> meq n n (mpow n A p) (mpow n B p).
Proof. intros H. induction p; cbn [mpow]; [apply meq_refl|]. apply meq_mmul; auto. Qed.
Lemma mpow_1 n A : meq n n (mpow n A 1) A.
Proof. intros i j Hi Hj. cbn [mpow]. apply mmul_1_l; auto. Qed.
Definition isPow (m : RealMatrix) n f (k : Z) := library m /\ MatIs m n n (mpow n f (Z.to_nat k)).
Lemma isPow_mul m1 m2 n f k1 k2 : 1 <= n -> 0 <= k1 -> 0 <= k2 -> isPow m1 n f k1 -> isPow m2 n f k2 ->
  wp (m_Multiply m1 m2) (fun p => isPow p n f (k1 + k2)).
Proof.
  intros Hn H1 H2 [L1 M1] [L2 M2]. destruct (real_product _ _ _ _ _ _ _ L1 M1 M2 Hn Hn) as (p & E & Hl & H). exists p. split; auto. split; auto.
  eapply MatIs_ext; [exact H|]. intros i j Hi Hj. rewrite Z2Nat.inj_add by auto. symmetry. apply mpow_add; auto.
Qed.
Lemma isPow_1 m n f : library m -> MatIs m n n f -> isPow m n f 1.
Proof. intros Hl H. split; auto. eapply MatIs_ext; [exact H|]. intros i j Hi Hj. symmetry. apply mpow_1; auto. Qed.

Lemma power_ok m n f p : library m -> MatIs m n n f -> 1 <= n -> 0 <= p ->
  exists q, Power m p = Ok q /\ library q /\ MatIs q n n (mpow n f (Z.to_nat p)).
Proof.
  intros Hl Hm Hn Hp. enough (W : wp (Power m p) (fun q => isPow q n f p)) by (destruct W as (q & E & H); exists q; auto).
  unfold Power. destruct (Z.ltb_spec p 0); [lia|]. unfold IsSquare. rewrite (MatIs_cols _ _ _ _ Hm), (MatIs_rows _ _ _ _ Hm). cbn [bind].
  rewrite Z.eqb_refl. cbn [negb]. destruct (copy_lib m n n f Hl Hm) as (mc & Ec & Lc & Mc).
  destruct (Z.eqb_spec p 0) as [->|].
  { apply wp_orpanic. eapply wp_conseq; [apply gives_wp, identity_ok; auto|]. intros s [Hg Hs]. split; [destruct s; auto; contradiction|].
    eapply MatIs_ext; [exact Hs|]. intros i j Hi Hj. reflexivity. }
  destruct (Z.eqb_spec p 1) as [->|]. { rewrite Ec. apply wp_ok. apply isPow_1; auto. }
  destruct (p - 1) as [|q|q] eqn:Eq; [lia| |lia]. cbn [FormatInt2]. apply wp_bind.
  eapply wp_conseq; [apply bits_loop|]. intros [nz mx] (HS & HM & Hmx & Hin). cbn [fst snd] in *.
  rewrite make_ok by lia. cbn [bind]. rewrite Ec. cbn [bind]. rewrite zset_ok by (rewrite len_repeat; lia). cbn [bind].
  assert (Hpow : forall i, 0 <= i -> 1 <= 2 ^ i) by (intros i Hi; pose proof (Z.pow_pos_nonneg 2 i ltac:(lia) Hi); lia).
  apply wp_bind.
  apply (wp_for (fun k (rs : list (option RealMatrix)) => len rs = mx + 1 /\ forall i, 0 <= i < k -> exists ri, nthZ rs i = Some ri /\ isPow ri n f (2 ^ i))); try lia.
  { split; [rewrite len_upd, len_repeat; lia|]. intros i Hi. assert (i = 0) as -> by lia. exists mc.
    rewrite nthZ_upd_eq by (rewrite len_repeat; lia). split; auto. apply isPow_1; auto. }
  { intros i rs Hi [Hlen Hrs]. rewrite zget_ok by lia. cbn [bind]. destruct (Hrs (i - 1) ltac:(lia)) as (r1 & -> & P1).
    apply wp_bind. eapply wp_conseq; [apply (isPow_mul r1 r1 n f (2 ^ (i - 1)) (2 ^ (i - 1)) Hn ltac:(specialize (Hpow (i - 1)); lia) ltac:(specialize (Hpow (i - 1)); lia) P1 P1)|].
    intros sq Psq. rewrite zset_ok by lia. apply wp_ok. split; [rewrite len_upd; auto|]. intros k Hk.
    destruct (Z.eq_dec k i) as [->|].
    - exists sq. rewrite nthZ_upd_eq by lia. split; auto. replace (2 ^ i) with (2 ^ (i - 1) + 2 ^ (i - 1)); auto.
      pose proof (Z.pow_succ_r 2 (i - 1) ltac:(lia)) as K. replace (Z.succ (i - 1)) with i in K by lia. lia.
    - rewrite nthZ_upd_ne by lia. apply Hrs. lia. }
  intros rs [Hlen Hrs]. cbn [bind].
  apply (wp_for (fun k r => isPow r n f (1 + sum2 (firstn (Z.to_nat k) nz)))); try apply len_nonneg.
  - apply isPow_1; auto.
  - intros k r Hk Hr. rewrite zget_ok by auto. cbn [bind].
    assert (Hx : 0 <= nthZ nz k <= mx) by (apply Hin; unfold nthZ; apply nth_In; unfold len in Hk; lia).
    rewrite zget_ok by lia. cbn [bind]. destruct (Hrs (@nthZ Z dflt_Z nz k) ltac:(lia)) as (ri & -> & Pi).
    assert (Hs : 0 <= sum2 (firstn (Z.to_nat k) nz)).
    { generalize (firstn (Z.to_nat k) nz). intros l. induction l as [|x l IH]; cbn [sum2 fold_right]; [lia|]. unfold sum2 in *. pose proof (Z.pow_nonneg 2 x). lia. }
    eapply wp_conseq; [apply (isPow_mul r ri n f (1 + sum2 (firstn (Z.to_nat k) nz)) (2 ^ nthZ nz k) Hn ltac:(lia) ltac:(specialize (Hpow (nthZ nz k)); lia) Hr Pi)|].
    intros p' Pp. rewrite firstn_step by auto. rewrite sum2_app. cbn [sum2 fold_right]. rewrite Z.add_assoc, Z.add_0_r. exact Pp.
  - intros r Hr. unfold len in Hr. rewrite Nat2Z.id, firstn_all, HS in Hr. replace (1 + Z.pos q) with p in Hr by lia. exact Hr.
Qed.
Lemma power_bad {O : Ops} (m : RealMatrix) r c f p : library m -> MatIs m r c f -> (p < 0 \/ r <> c) -> panics (Power m p).
Proof.
  intros Hl Hm Hp. unfold Power, IsSquare. rewrite (MatIs_cols _ _ _ _ Hm), (MatIs_rows _ _ _ _ Hm). cbn [bind].
  destruct (Z.ltb_spec p 0); [eexists; reflexivity|]. destruct (Z.eqb_spec c r); [lia|]. eexists; reflexivity.
Qed.

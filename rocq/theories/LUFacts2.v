(** Accessors and solver of the LU decomposition, for arbitrary scalar operations. *)
From Coq Require Import ZArith List Lia Bool.
From Verif Require Import Base BaseLemmas Scalar Vector VecSpec VectorFacts Matrix MatSpec MatFacts Array2D BlockM Diagonal RealMatrixM Array2DFacts MatrixOps MatProps BlockFacts RealMat2 RealMat3 TabTac LU LUSpec LUFacts.
Import ListNotations.
Open Scope Z_scope.

Ltac luok := refine (conj _ (conj _ (conj _ (conj _ (conj _ (conj _ (conj _ (conj _ _)))))))); auto.

Section LUFacts2.
Context {O : Ops}.

Definition tabL (M : Z -> Z -> F) (i j : Z) : F := if j <? i then M i j else if i =? j then fone else fzero.
Definition tabU (M : Z -> Z -> F) (i j : Z) : F := if i <=? j then M i j else fzero.
Definition tabP (p : list Z) (i j : Z) : F := if j =? nthZ p i then fone else fzero.
Definition cacheOk (c : option RealMatrix) (n : Z) (f : Z -> Z -> F) : Prop := match c with None => True | Some m => general m /\ MatIs m n n f end.
(** A non-singular decomposition whose caches are empty or right. *)
Definition lu_ok (n : Z) (M : Z -> Z -> F) (p : list Z) (e : bool) (d : LUD) : Prop :=
  RTab (lu_lu d) n n M /\ lu_pivot d = p /\ len p = n /\ permutes n (nthZ p) /\ lu_even d = e /\ lu_singular d = false /\
  cacheOk (lu_cachedL d) n (tabL M) /\ cacheOk (lu_cachedU d) n (tabU M) /\ cacheOk (lu_cachedP d) n (tabP p).

Lemma lu_L_ok n M p e d : 1 <= n -> lu_ok n M p e d ->
  wp (lu_L d) (fun r => (exists m, fst r = Some m /\ general m /\ MatIs m n n (tabL M)) /\ lu_ok n M p e (snd r)).
Proof.
  intros Hn (HT & Hp & Hlp & Hpm & He & Hs & CL & CU & CP). unfold lu_L. rewrite Hp, Hs. destruct (lu_cachedL d) as [l|] eqn:El.
  - apply wp_ok. cbn [fst snd]. split; [eauto|]. unfold lu_ok. rewrite El. luok.
  - rewrite Hlp. destruct (new_zero n n Hn Hn) as (_ & _ & m0 & E & Hg & H). rewrite E. cbn [orpanic bind]. apply wp_bind.
    apply (wp_for (fun k m => general m /\ MatIs m n n (fun i j => if i <? k then tabL M i j else fzero))); try lia.
    + split; auto. eapply MatIs_ext; [exact H|]. intros. cbn beta. zb; auto.
    + intros i m Hi [Hgm Hm]. destruct (RTab_row _ _ _ _ i HT Hi) as (row & Er & Hlr & Hr). rewrite Er. cbn [bind]. apply wp_bind.
      apply (wp_setentry_row m n n _ i 0 i (M i) _ _ Hgm Hm); try lia.
      * intros j m' Hj. rewrite zget_ok by lia. cbn [bind]. rewrite Hr by lia. auto.
      * intros m' Hg' H'. eapply wp_setentry; eauto; try lia. intros m2 Hg2 H2. split; auto.
        eapply MatIs_ext; [exact H2|]. intros a b Ha Hb. cbn beta. unfold tset, tabL. zb; subst; auto; try congruence.
    + intros m [Hgm Hm]. apply wp_ok. cbn [fst snd].
      assert (HL : MatIs m n n (tabL M)) by (eapply MatIs_ext; [exact Hm|]; intros; cbn beta; zb; auto).
      split; [eauto|]. unfold lu_ok. cbn [lu_lu lu_pivot lu_even lu_singular lu_cachedL lu_cachedU lu_cachedP]. luok; cbn; auto.
Qed.
Lemma lu_U_ok n M p e d : 1 <= n -> lu_ok n M p e d ->
  wp (lu_U d) (fun r => (exists m, fst r = Some m /\ general m /\ MatIs m n n (tabU M)) /\ lu_ok n M p e (snd r)).
Proof.
  intros Hn (HT & Hp & Hlp & Hpm & He & Hs & CL & CU & CP). unfold lu_U. rewrite Hp, Hs. destruct (lu_cachedU d) as [l|] eqn:El.
  - apply wp_ok. cbn [fst snd]. split; [eauto|]. unfold lu_ok. rewrite El. luok.
  - rewrite Hlp. destruct (new_zero n n Hn Hn) as (_ & _ & m0 & E & Hg & H). rewrite E. cbn [orpanic bind]. apply wp_bind.
    apply (wp_for (fun k m => general m /\ MatIs m n n (fun i j => if i <? k then tabU M i j else fzero))); try lia.
    + split; auto. eapply MatIs_ext; [exact H|]. intros. cbn beta. zb; auto.
    + intros i m Hi [Hgm Hm]. destruct (RTab_row _ _ _ _ i HT Hi) as (row & Er & Hlr & Hr). rewrite Er. cbn [bind].
      apply (wp_setentry_row m n n _ i i n (M i) _ _ Hgm Hm); try lia.
      * intros j m' Hj. rewrite zget_ok by lia. cbn [bind]. rewrite Hr by lia. auto.
      * intros m2 Hg2 H2. split; auto.
        eapply MatIs_ext; [exact H2|]. intros a b Ha Hb. cbn beta. unfold tabU. zb; subst; auto; try congruence.
    + intros m [Hgm Hm]. apply wp_ok. cbn [fst snd].
      assert (HL : MatIs m n n (tabU M)) by (eapply MatIs_ext; [exact Hm|]; intros; cbn beta; zb; auto).
      split; [eauto|]. unfold lu_ok. cbn [lu_lu lu_pivot lu_even lu_singular lu_cachedL lu_cachedU lu_cachedP]. luok; cbn; auto.
Qed.
Lemma lu_P_ok n M p e d : 1 <= n -> lu_ok n M p e d ->
  wp (lu_P d) (fun r => (exists m, fst r = Some m /\ general m /\ MatIs m n n (tabP p)) /\ lu_ok n M p e (snd r)).
Proof.
  intros Hn (HT & Hp & Hlp & Hpm & He & Hs & CL & CU & CP). unfold lu_P. rewrite Hp, Hs. destruct (lu_cachedP d) as [l|] eqn:El.
  - apply wp_ok. cbn [fst snd]. split; [eauto|]. unfold lu_ok. rewrite El. luok.
  - rewrite Hlp. destruct (new_zero n n Hn Hn) as (_ & _ & m0 & E & Hg & H). rewrite E. cbn [orpanic bind]. apply wp_bind.
    apply (wp_for (fun k m => general m /\ MatIs m n n (fun i j => if i <? k then tabP p i j else fzero))); try lia.
    + split; auto. eapply MatIs_ext; [exact H|]. intros. cbn beta. zb; auto.
    + intros i m Hi [Hgm Hm]. rewrite zget_ok by lia. cbn [bind]. pose proof (proj1 Hpm i Hi).
      eapply wp_setentry; eauto; try lia. intros m2 Hg2 H2. split; auto.
      eapply MatIs_ext; [exact H2|]. intros a b Ha Hb. cbn beta. unfold tset, tabP. zb; subst; auto; try congruence.
    + intros m [Hgm Hm]. apply wp_ok. cbn [fst snd].
      assert (HL : MatIs m n n (tabP p)) by (eapply MatIs_ext; [exact Hm|]; intros; cbn beta; zb; auto).
      split; [eauto|]. unfold lu_ok. cbn [lu_lu lu_pivot lu_even lu_singular lu_cachedL lu_cachedU lu_cachedP]. luok; cbn; auto.
Qed.
Lemma lu_Det_ok n M p e d : 0 <= n -> lu_ok n M p e d ->
  lu_Determinant d = Ok (accum (fun i x => x * M i i)%f (Z.to_nat n) (if e then fone else fneg fone)).
Proof.
  intros Hn (HT & Hp & Hlp & Hpm & He & Hs & _). unfold lu_Determinant. rewrite Hs, Hp, Hlp, He. apply for_accum; auto.
  intros k x Hk. tget. auto.
Qed.

(** The answer of a solver: forward then backward substitution. *)
Definition lu_sol (n : Z) (M : Z -> Z -> F) (b x : Z -> F) : Prop := exists y,
  (forall i, 0 <= i < n -> y i = fsubs (b i) i (fun t => y t * M i t)%f) /\
  (forall i, 0 <= i < n -> x i = (fsubd (y i) (i + 1) n (fun t => x t * M i t) / M i i)%f).

Lemma lus_SolveVector_ok n M p e d v b : lu_ok n M p e d -> VecIs v n b ->
  wp (lus_SolveVector d v) (fun r => exists x, VecIs r n x /\ lu_sol n M (fun i => b (nthZ p i)) x).
Proof.
  intros (HT & Hp & Hlp & Hpm & He & Hs & _) Hv. unfold lus_SolveVector. rewrite Hs, Hp, Hlp, (proj1 Hv), Z.eqb_refl. cbn [negb].
  pose proof (len_nonneg p) as Hn. apply wp_bind. apply wp_make; [lia|]. apply wp_bind.
  apply (wp_fillv _ n (fun i => b (nthZ p i))); [lia|rewrite len_repeat; lia| |].
  { intros i l Hi _ _. rewrite zget_ok by lia. cbn [bind]. rewrite (proj1 (proj2 Hv)) by (apply Hpm; lia). auto. }
  intros bp Hbp. apply wp_bind.
  apply (wp_for (fun k l => exists y, VTab l n y /\
    (forall i, 0 <= i < n -> y i = fsubs (b (nthZ p i)) (Z.min i k) (fun t => y t * M i t)%f))); try lia.
  - eexists. split; [exact Hbp|]. intros i Hi. replace (Z.min i 0) with 0 by lia. auto.
  - intros k l Hk (y & Hl & Hy). vget.
    apply (wp_for (fun c l => exists y', VTab l n y' /\ (forall i, 0 <= i < n -> y' i = if (k <? i) && (i <? c) then (y i - y k * M i k)%f else y i))); try lia.
    + exists y. split; auto. intros. zb; auto.
    + intros c l1 Hc (y1 & Hl1 & Hy1). vget. tget. vput l2 Hl2. apply wp_ok. eexists. split; [exact Hl2|].
      intros i Hi. cbn beta. zb; subst; rewrite ?Hy1 by lia; zb; auto.
    + intros l1 (y1 & Hl1 & Hy1). exists y1. split; auto. intros i Hi. rewrite Hy1 by auto. zb.
      * replace (Z.min i (k + 1)) with (k + 1) by lia. rewrite fsubs_S by lia. rewrite (Hy1 k) by lia. zb. f_equal. rewrite Hy by auto.
        replace (Z.min i k) with k by lia. apply fsubs_ext. intros t Ht. rewrite Hy1 by lia. zb. auto.
      * replace (Z.min i (k + 1)) with i by lia. rewrite Hy at 1 by auto. replace (Z.min i k) with i by lia. apply fsubs_ext. intros t Ht. rewrite Hy1 by lia. zb; auto.
  - intros l (y & Hl & Hy). apply wp_bind.
    assert (Hy' : forall i, 0 <= i < n -> y i = fsubs (b (nthZ p i)) i (fun t => y t * M i t)%f).
    { intros i Hi. rewrite Hy at 1 by auto. replace (Z.min i n) with i by lia. auto. }
    clear Hy.
    apply (wp_for_down (fun k l => exists x, VTab l n x /\
      (forall i, k <= i < n -> 0 <= i -> x i = (fsubd (y i) (i + 1) n (fun t => x t * M i t) / M i i)%f) /\
      (forall i, 0 <= i < k -> x i = fsubd (y i) k n (fun t => x t * M i t)%f))); try lia.
    + exists y. split; auto. split; [intros; lia|]. intros i Hi. rewrite fsubd_nil by lia. auto.
    + intros k l1 Hk (x & Hl1 & Hx1 & Hx2). vget. tget. vput l2 Hl2. vget. zb.
      set (x2 := fun j => if j =? k then (x k / M k k)%f else x j) in *.
      apply (wp_for (fun c l => exists y', VTab l n y' /\ (forall i, 0 <= i < n -> y' i = if (i <? c) then (x2 i - x k / M k k * M i k)%f else x2 i))); try lia.
      * exists x2. split; auto. intros. zb; auto.
      * intros c l3 Hc (y1 & Hl3 & Hy1). vget. tget. vput l4 Hl4. apply wp_ok. eexists. split; [exact Hl4|].
        intros i Hi. cbn beta. zb; subst; rewrite ?Hy1 by lia; zb; auto.
      * intros l3 (x3 & Hl3 & Hx3). exists x3. split; auto. split.
        -- intros i Hi _. rewrite Hx3 by lia. zb. unfold x2 at 1. zb.
           ++ subst i. rewrite Hx2 by lia. f_equal. apply fsubd_ext. intros t Ht. rewrite Hx3 by lia. zb. unfold x2. zb; auto.
           ++ rewrite Hx1 by lia. f_equal. apply fsubd_ext. intros t Ht. rewrite Hx3 by lia. zb. unfold x2. zb; auto.
        -- intros i Hi. rewrite (fsubd_S _ k) by lia. rewrite (Hx3 i) by lia. zb. rewrite (Hx3 k) by lia. zb. unfold x2 at 2. zb. f_equal.
           unfold x2. zb. rewrite Hx2 by lia. apply fsubd_ext. intros t Ht. rewrite Hx3 by lia. zb. unfold x2. zb; auto.
    + intros l1 (x & Hl1 & Hx1 & Hx2). apply wp_ok. exists x. split; [apply VTab_VecIs; auto|]. exists y. split; auto.
      intros i Hi. apply Hx1; lia.
Qed.
Lemma lus_SolveVector_bad_dim d v n b : VecIs v n b -> n <> len (lu_pivot d) -> panics (lus_SolveVector d v).
Proof. intros Hv Hn. unfold lus_SolveVector. rewrite (proj1 Hv). destruct (Z.eqb_spec n (len (lu_pivot d))); [congruence|]. eexists; reflexivity. Qed.
Lemma lus_SolveVector_singular d v : lu_singular d = true -> panics (lus_SolveVector d v).
Proof. intros Hs. unfold lus_SolveVector. rewrite Hs. destruct (negb _); eexists; reflexivity. Qed.

(** Subtracting a multiple of one row from another. *)
Lemma row_axpy bp n k f i col x : RTab bp n k f -> 0 <= k -> 0 <= i < n -> 0 <= col < n -> i <> col ->
  wp (for_ 0 k (fun j bp => let* u := mget bp i j in let* y := mget bp col j in mset bp i j (u - y * x)%f) bp)
    (fun bp' => RTab bp' n k (fun p q => if p =? i then (f p q - f col q * x)%f else f p q)).
Proof.
  intros H Hk Hi Hc Hne.
  apply (wp_for (fun c bp => RTab bp n k (fun p q => if (p =? i) && (q <? c) then (f p q - f col q * x)%f else f p q))); try lia.
  - eapply RTab_ext; [exact H|]. intros. cbn beta. zb; auto.
  - intros j bp1 Hj H1. repeat tget. tput bp2 H2. apply wp_ok. eapply RTab_ext; [exact H2|]. intros p q Hp Hq. cbn beta. unfold tset. zb; subst; auto.
  - intros bp1 H1. eapply RTab_ext; [exact H1|]. intros. cbn beta. zb; auto.
Qed.
Lemma row_axpys lu m M bp k f col lo hi : RTab lu m m M -> RTab bp m k f -> 0 <= k -> 0 <= lo <= hi -> hi <= m -> 0 <= col < m -> ~ (lo <= col < hi) ->
  wp (for_ lo hi (fun i bp => let* luICol := mget lu i col in
      for_ 0 k (fun j bp => let* u := mget bp i j in let* y := mget bp col j in mset bp i j (u - y * luICol)%f) bp) bp)
    (fun bp' => RTab bp' m k (fun p q => if (lo <=? p) && (p <? hi) then (f p q - f col q * M p col)%f else f p q)).
Proof.
  intros HT H Hk Hlo Hhi Hc Hne.
  apply (wp_for (fun c bp => RTab bp m k (fun p q => if (lo <=? p) && (p <? c) then (f p q - f col q * M p col)%f else f p q))); try lia.
  - eapply RTab_ext; [exact H|]. intros. cbn beta. zb; auto.
  - intros i bp1 Hi H1. tget. eapply wp_conseq; [apply (row_axpy bp1 m k _ i col (M i col) H1); lia|]. cbn beta. intros bp2 H2.
    eapply RTab_ext; [exact H2|]. intros p q Hp Hq. cbn beta. zb; subst; auto.
  - auto.
Qed.
Lemma row_div bp n k f col x : RTab bp n k f -> 0 <= k -> 0 <= col < n ->
  wp (for_ 0 k (fun j bp => let* u := mget bp col j in mset bp col j (u / x)%f) bp)
    (fun bp' => RTab bp' n k (fun p q => if p =? col then (f p q / x)%f else f p q)).
Proof.
  intros H Hk Hc.
  apply (wp_for (fun c bp => RTab bp n k (fun p q => if (p =? col) && (q <? c) then (f p q / x)%f else f p q))); try lia.
  - eapply RTab_ext; [exact H|]. intros. cbn beta. zb; auto.
  - intros j bp1 Hj H1. repeat tget. tput bp2 H2. apply wp_ok. eapply RTab_ext; [exact H2|]. intros p q Hp Hq. cbn beta. unfold tset. zb; subst; auto.
  - intros bp1 H1. eapply RTab_ext; [exact H1|]. intros. cbn beta. zb; auto.
Qed.

Lemma lus_SolveMatrix_ok n M p e d b k B : 1 <= n -> 1 <= k -> lu_ok n M p e d -> MatIs b n k B ->
  wp (lus_SolveMatrix d b) (fun r => exists X, general r /\ MatIs r n k X /\
    forall c, 0 <= c < k -> lu_sol n M (fun i => B (nthZ p i) c) (fun i => X i c)).
Proof.
  intros Hn1 Hk1 (HT & Hp & Hlp & Hpm & He & Hs & _) Hb. unfold lus_SolveMatrix. rewrite Hs, Hp, Hlp, (MatIs_rows _ _ _ _ Hb), Z.eqb_refl. cbn [negb].
  rewrite (MatIs_cols _ _ _ _ Hb). cbn [bind].
  apply wp_bind. apply wp_make; [lia|]. apply wp_bind.
  apply (wp_build_rows _ n k (fun i j => B (nthZ p i) j)); [lia|rewrite len_repeat; lia| |].
  { intros i bp Hi Hl _. apply wp_bind. apply wp_make; [lia|]. rewrite zget_ok by lia. cbn [bind]. pose proof (proj1 Hpm i Hi) as Hpi. apply wp_bind.
    apply (wp_fillv _ k (fun j => B (nthZ p i) j)); [lia|rewrite len_repeat; lia| |].
    - intros j l Hj _ _. destruct Hb as (_ & _ & _ & Hb & _). rewrite Hb by lia. auto.
    - intros row Hrow. rewrite zset_ok by lia. apply wp_ok. exists row. auto. }
  intros bp Hbp. apply wp_bind.
  apply (wp_for (fun c l => exists y, RTab l n k y /\
    (forall i q, 0 <= i < n -> 0 <= q < k -> y i q = fsubs (B (nthZ p i) q) (Z.min i c) (fun t => y t q * M i t)%f))); try lia.
  - eexists. split; [exact Hbp|]. intros i q Hi Hq. replace (Z.min i 0) with 0 by lia. auto.
  - intros c l Hc (y & Hl & Hy). eapply wp_conseq; [apply (row_axpys _ _ _ l k y c (c + 1) n HT Hl); lia|]. cbn beta. intros l1 Hl1.
    set (y1 := fun p q => _) in Hl1. exists y1. split; auto.
    assert (Hy1 : forall i q, 0 <= i < n -> y1 i q = if c <? i then (y i q - y c q * M i c)%f else y i q) by (intros; unfold y1; zb; auto). clearbody y1.
    intros i q Hi Hq. rewrite Hy1 by auto. zb.
    + replace (Z.min i (c + 1)) with (c + 1) by lia. rewrite fsubs_S by lia. rewrite (Hy1 c) by lia. zb. f_equal. rewrite Hy by auto.
      replace (Z.min i c) with c by lia. apply fsubs_ext. intros t Ht. rewrite Hy1 by lia. zb. auto.
    + replace (Z.min i (c + 1)) with i by lia. rewrite Hy at 1 by auto. replace (Z.min i c) with i by lia. apply fsubs_ext. intros t Ht. rewrite Hy1 by lia. zb; auto.
  - intros l (y & Hl & Hy). apply wp_bind.
    assert (Hy' : forall i q, 0 <= i < n -> 0 <= q < k -> y i q = fsubs (B (nthZ p i) q) i (fun t => y t q * M i t)%f).
    { intros i q Hi Hq. rewrite Hy at 1 by auto. replace (Z.min i n) with i by lia. auto. }
    clear Hy.
    apply (wp_for_down (fun c l => exists x, RTab l n k x /\
      (forall i q, c <= i < n -> 0 <= i -> 0 <= q < k -> x i q = (fsubd (y i q) (i + 1) n (fun t => x t q * M i t) / M i i)%f) /\
      (forall i q, 0 <= i < c -> 0 <= q < k -> x i q = fsubd (y i q) c n (fun t => x t q * M i t)%f))); try lia.
    + exists y. split; auto. split; [intros; lia|]. intros i q Hi Hq. rewrite fsubd_nil by lia. auto.
    + intros c l1 Hc (x & Hl1 & Hx1 & Hx2). tget. apply wp_bind. eapply wp_conseq; [apply (row_div l1 n k x c (M c c) Hl1); lia|]. cbn beta. intros l2 Hl2.
      set (x2 := fun p q => _) in Hl2.
      eapply wp_conseq; [apply (row_axpys _ _ _ l2 k x2 c 0 c HT Hl2); lia|]. cbn beta. intros l3 Hl3. set (x3 := fun p q => _) in Hl3.
      assert (E2 : forall i q, x2 i q = if i =? c then (x i q / M c c)%f else x i q) by (intros; unfold x2; auto).
      assert (E3 : forall i q, 0 <= i < n -> x3 i q = if i <? c then (x2 i q - x2 c q * M i c)%f else x2 i q) by (intros; unfold x3; zb; auto).
      clearbody x2 x3. exists x3. split; auto. split.
      * intros i q Hi _ Hq. rewrite E3 by lia. zb. rewrite E2. zb.
        -- subst i. rewrite Hx2 by lia. f_equal. apply fsubd_ext. intros t Ht. rewrite E3, E2 by lia. zb. auto.
        -- rewrite Hx1 by lia. f_equal. apply fsubd_ext. intros t Ht. rewrite E3, E2 by lia. zb. auto.
      * intros i q Hi Hq. rewrite (fsubd_S _ c) by lia. rewrite (E3 i) by lia. zb. rewrite (E3 c) by lia. zb. f_equal.
        rewrite E2. zb. rewrite Hx2 by lia. apply fsubd_ext. intros t Ht. rewrite E3, E2 by lia. zb. auto.
    + intros l1 (x & Hl1 & Hx1 & Hx2). apply wp_bind. eapply wp_conseq; [apply (a2_copyIn_spec l1 n k x); auto|]. cbn beta. intros a Ha.
      apply wp_ok. exists x. split; [exact I|]. split; [exact Ha|]. intros c Hc. exists (fun i => y i c). split; auto.
      intros i Hi. apply Hx1; lia.
Qed.
Lemma lus_SolveMatrix_bad_dim d b n k B : MatIs b n k B -> n <> len (lu_pivot d) -> panics (lus_SolveMatrix d b).
Proof. intros Hv Hn. unfold lus_SolveMatrix. rewrite (MatIs_rows _ _ _ _ Hv). destruct (Z.eqb_spec n (len (lu_pivot d))); [congruence|]. eexists; reflexivity. Qed.
Lemma lus_SolveMatrix_singular d b : lu_singular d = true -> panics (lus_SolveMatrix d b).
Proof. intros Hs. unfold lus_SolveMatrix. rewrite Hs. destruct (negb _); eexists; reflexivity. Qed.
Lemma lus_Inverse_singular d : lu_singular d = true -> 1 <= len (lu_pivot d) -> panics (lus_Inverse d).
Proof.
  intros Hs Hl. unfold lus_Inverse. destruct (identity_ok (len (lu_pivot d)) Hl) as (m & E & _). rewrite E. cbn [orpanic bind].
  apply lus_SolveMatrix_singular. auto.
Qed.
Lemma lus_Inverse_ok n M p e d : 1 <= n -> lu_ok n M p e d ->
  wp (lus_Inverse d) (fun r => exists X, general r /\ MatIs r n n X /\
    forall c, 0 <= c < n -> lu_sol n M (fun i => if nthZ p i =? c then fone else fzero) (fun i => X i c)).
Proof.
  intros Hn Hd. pose proof Hd as (_ & Hp & Hlp & _). unfold lus_Inverse. rewrite Hp, Hlp. destruct (identity_ok n Hn) as (m & E & Hg & Hm). rewrite E. cbn [orpanic bind].
  exact (lus_SolveMatrix_ok n M p e d m n _ Hn Hn Hd Hm).
Qed.
End LUFacts2.

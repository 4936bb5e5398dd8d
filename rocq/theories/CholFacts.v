(** The Cholesky decomposition, for arbitrary scalar operations. *)
From Coq Require Import ZArith List Lia Bool.
From Verif Require Import Base BaseLemmas Wpe Scalar Vector VecSpec VectorFacts Matrix MatSpec MatFacts Array2D BlockM Diagonal RealMatrixM Array2DFacts MatrixOps MatHist MatProps BlockFacts RealMat2 RealMat3 TabTac Cholesky CholSpec LUFacts2.
Import ListNotations.
Open Scope Z_scope.

(** As [zb], leaving impossible cases out at once. *)
Ltac zbq := repeat (match goal with
  | |- context [?a =? ?b] => destruct (Z.eqb_spec a b)
  | |- context [?a <? ?b] => destruct (Z.ltb_spec a b)
  | |- context [?a <=? ?b] => destruct (Z.leb_spec a b)
  end; cbn [andb orb negb]; try (exfalso; lia)).

Section CholFacts.
Context {O : Ops}.

Definition upper (A : Z -> Z -> F) (i j : Z) : F := if j <? i then fzero else A i j.
Definition before (a b i j : Z) : Prop := a < i \/ (a = i /\ b < j).

Lemma ch_check_spec lT n A rel : RTab lT n n A -> 0 <= n ->
  wpe (ch_check n rel lT)
    (fun l => RTab l n n (upper A) /\ forall i j, 0 <= i < j -> j < n -> asym rel A i j = false)
    (fun e => exists i j, e = ENonSymmetric i j /\ 0 <= i < j /\ j < n /\ asym rel A i j = true /\
      forall a b, 0 <= a < b -> b < n -> before a b i j -> asym rel A a b = false).
Proof.
  intros H Hn. unfold ch_check.
  apply (wpe_for (fun k l => RTab l n n (fun i j => if (j <? i) && (j <? k) then fzero else A i j) /\
    forall i j, 0 <= i < j -> j < n -> i < k -> asym rel A i j = false)); auto.
  - split; [|intros; lia]. eapply RTab_ext; [exact H|]. intros. cbn beta. zb; auto.
  - intros i l Hi [Hl Ho].
    apply (wpe_for (fun k l => RTab l n n (fun p q => if (q <? p) && ((q <? i) || (q =? i) && (p <? k)) then fzero else A p q) /\
      forall a b, 0 <= a < b -> b < n -> before a b i k -> asym rel A a b = false)); [lia| | |].
    + split.
      * eapply RTab_ext; [exact Hl|]. intros. cbn beta. zb; auto.
      * intros a b Ha Hb [Hx|Hx]; [apply Ho; lia|lia].
    + intros j l1 Hj [Hl1 Ho1]. repeat tget. zb.
      match goal with |- context [if ?c then _ else _] => change c with (asym rel A i j) end.
      destruct (asym rel A i j) eqn:E.
      * apply wpe_err. exists i, j. split; [auto|]. split; [lia|]. split; [lia|]. split; [auto|]. exact Ho1.
      * tput l2 Hl2. apply wpe_ok. split.
        -- eapply RTab_ext; [exact Hl2|]. intros p q Hp Hq. cbn beta. unfold tset. zb; auto.
        -- intros a b Ha Hb [Hx|Hx]; [apply Ho1; unfold before; lia|].
           destruct Hx as [-> Hx]. destruct (Z.eq_dec b j) as [->|]; auto. apply Ho1; unfold before; lia.
    + intros l1 [Hl1 Ho1]. split.
      * eapply RTab_ext; [exact Hl1|]. intros p q Hp Hq. cbn beta. zb; auto.
      * intros a b Ha Hb Hx. apply Ho1; unfold before; lia.
  - intros l [Hl Ho]. split.
    + eapply RTab_ext; [exact Hl|]. intros. unfold upper. cbn beta. zb; auto.
    + intros. apply Ho; lia.
Qed.

(** One step, in closed form. *)
Lemma ch_step_spec lT n M pos i : RTab lT n n M -> 0 <= i < n ->
  wpe (ch_step n pos i lT)
    (fun l => fle (M i i) pos = false /\ let s := fsqrt (M i i) in let inv := (fone / s)%f in
      RTab l n n (fun r p => if r =? i then (if p =? i then s else if i <? p then (M i p * inv)%f else M i p) else
        if (i <? r) && (r <=? p) then (M r p - (M i r * inv) * (M i p * inv))%f else M r p))
    (fun e => e = ENonPosDef /\ fle (M i i) pos = true).
Proof.
  intros H Hi. unfold ch_step. tget. destruct (fle (M i i) pos) eqn:E; [cbn; auto|].
  tput l1 H1. tget. unfold tset at 1. rewrite !Z.eqb_refl. cbn [andb]. cbv zeta. set (s := fsqrt (M i i)) in *. set (inv := (fone / s)%f) in *.
  apply wpe_wp.
  apply (wp_for_down (fun q l => RTab l n n (fun r p => if r =? i then (if p =? i then s else if (i <? p) && (q <=? p) then (M i p * inv)%f else M i p) else
        if (i <? r) && (q <=? r) && (r <=? p) then (M r p - (M i r * inv) * (M i p * inv))%f else M r p))); [lia| | |].
  - eapply RTab_ext; [exact H1|]. intros r p Hr Hp. cbn beta. unfold tset. zbq; subst; auto.
  - intros q l Hq Hl. tget. tput l2 Hl2.
    apply (wp_for (fun k l => RTab l n n (fun r p => if r =? i then (if p =? i then s else if (i <? p) && (q <=? p) then (M i p * inv)%f else M i p) else
        if (i <? r) && ((q <? r) || (q =? r) && (p <? k)) && (r <=? p) then (M r p - (M i r * inv) * (M i p * inv))%f else M r p))); [lia| | |].
    + eapply RTab_ext; [exact Hl2|]. intros r p Hr Hp. cbn beta. unfold tset. zbq; subst; auto.
    + intros p l3 Hp Hl3. repeat tget. tput l4 Hl4. apply wp_ok. eapply RTab_ext; [exact Hl4|]. intros r k Hr Hk. cbn beta. unfold tset. zbq; subst; auto.
    + intros l3 Hl3. eapply RTab_ext; [exact Hl3|]. intros r p Hr Hp. cbn beta. zbq; subst; auto.
  - intros l Hl. split; [auto|]. eapply RTab_ext; [exact Hl|]. intros r p Hr Hp. cbn beta. zbq; subst; auto.
Qed.

(** The state before step [k]. *)
Definition ch_inv (n : Z) (A : Z -> Z -> F) (pos : F) (k : Z) (M : Z -> Z -> F) : Prop :=
  (forall i, 0 <= i < k -> exists x, x = fsubs (A i i) i (fun t => M t i * M t i)%f /\ fle x pos = false /\ M i i = fsqrt x) /\
  (forall i j, 0 <= i < k -> i < j < n -> M i j = (fsubs (A i j) i (fun t => M t i * M t j) * (fone / M i i))%f) /\
  (forall i j, k <= i <= j -> j < n -> M i j = fsubs (A i j) k (fun t => M t i * M t j)%f) /\
  (forall i j, 0 <= j < i -> i < n -> M i j = fzero).

Lemma ch_inv_step n A pos k M M' : ch_inv n A pos k M -> 0 <= k < n -> fle (M k k) pos = false ->
  (forall r p, 0 <= r < n -> 0 <= p < n -> M' r p = let s := fsqrt (M k k) in let inv := (fone / s)%f in
     if r =? k then (if p =? k then s else if k <? p then (M k p * inv)%f else M k p) else
        if (k <? r) && (r <=? p) then (M r p - (M k r * inv) * (M k p * inv))%f else M r p) ->
  ch_inv n A pos (k + 1) M'.
Proof.
  intros (I1 & I2 & I3 & I4) Hk Hp HM. cbv zeta in HM.
  assert (E1 : forall r p, 0 <= r < k -> 0 <= p < n -> M' r p = M r p) by (intros; rewrite HM by lia; zb; auto).
  assert (E2 : M' k k = fsqrt (M k k)) by (rewrite HM by lia; zb; auto).
  assert (E3 : forall p, k < p < n -> M' k p = (M k p * (fone / M' k k))%f) by (intros; rewrite E2; rewrite HM by lia; zb; auto).
  assert (E4 : forall r p, k < r <= p -> p < n -> M' r p = (M r p - M' k r * M' k p)%f) .
  { intros r p Hr Hq. rewrite (E3 r), (E3 p), E2, HM by lia. zbq; auto. }
  assert (E5 : forall r p, 0 <= p < r -> r < n -> M' r p = M r p) .
  { intros r p Hr Hq. rewrite HM by lia. zbq; subst; auto. }
  clear HM. split; [|split; [|split]].
  - intros i Hi. destruct (Z.eq_dec i k) as [->|].
    + exists (M k k). split; [|auto]. rewrite I3 by lia. apply fsubs_ext. intros t Ht. rewrite !E1 by lia. auto.
    + destruct (I1 i ltac:(lia)) as (x & Hx & Hf & HMi). exists x. rewrite E1 by lia. split; auto. rewrite Hx. apply fsubs_ext. intros t Ht. rewrite !E1 by lia. auto.
  - intros i j Hi Hj. destruct (Z.eq_dec i k) as [->|].
    + rewrite E3 by lia. f_equal. rewrite I3 by lia. apply fsubs_ext. intros t Ht. rewrite !E1 by lia. auto.
    + rewrite !E1, I2 by lia. f_equal. apply fsubs_ext. intros t Ht. rewrite !E1 by lia. auto.
  - intros i j Hi Hj. rewrite fsubs_S by lia. rewrite E4 by lia. f_equal. rewrite I3 by lia. apply fsubs_ext. intros t Ht. rewrite !E1 by lia. auto.
  - intros i j Hj Hi. rewrite E5 by lia. apply I4; lia.
Qed.

Definition ch_done (n : Z) (A : Z -> Z -> F) (rel pos : F) (M : Z -> Z -> F) : Prop :=
  (forall i j, 0 <= i < j -> j < n -> asym rel A i j = false) /\ ch_inv n A pos n M.

Lemma ch_new_spec m n A rel pos : library m -> MatIs m n n A -> 0 <= n ->
  wpe (NewCholeskyDecomposition m rel pos)
   (fun d => (exists M, RTab (ch_lT d) n n M /\ ch_done n A rel pos M) /\ ch_m d = n /\ ch_cachedL d = None /\ ch_cachedLT d = None)
   (fun e =>
     (exists i j, e = ENonSymmetric i j /\ 0 <= i < j /\ j < n /\ asym rel A i j = true /\
      forall a b, 0 <= a < b -> b < n -> before a b i j -> asym rel A a b = false) \/
     (e = ENonPosDef /\ (forall i j, 0 <= i < j -> j < n -> asym rel A i j = false) /\
      exists k M, 0 <= k < n /\ ch_inv n A pos k M /\ fle (M k k) pos = true)).
Proof.
  intros Hlib Hm Hn. unfold NewCholeskyDecomposition, IsSquare. rewrite (MatIs_cols _ _ _ _ Hm), (MatIs_rows _ _ _ _ Hm). cbn [bind].
  rewrite Z.eqb_refl. cbn [negb]. apply wpe_bind_wp. eapply wp_conseq; [apply (m_Data_ok m n n A Hlib Hm)|]. cbn beta. intros l Hl.
  assert (Hlen : len l = n) by apply Hl. apply wpe_bind.
  eapply wpe_conseq; [apply (ch_check_spec l n A rel Hl Hn)| |]; cbn beta; [|auto].
  intros l1 [Hl1 Hs]. apply wpe_bind.
  apply (wpe_for (fun k l => exists M, RTab l n n M /\ ch_inv n A pos k M)); [lia| | |].
  - exists (upper A). split; auto. split; [intros; lia|]. split; [intros; lia|]. split; [|intros; unfold upper; zb; auto].
    intros. rewrite fsubs_0. unfold upper. zb. auto.
  - intros k l2 Hk (M & Hl2 & Inv). eapply wpe_conseq; [apply (ch_step_spec l2 n M pos k Hl2 Hk)| |]; cbn beta.
    + intros l3 [Hp Hl3]. eexists. split; [exact Hl3|]. eapply ch_inv_step; eauto.
    + intros e [-> He]. right. split; [auto|]. split; [auto|]. exists k, M. auto.
  - intros l2 (M & Hl2 & Inv). apply wpe_ok. cbn. split; [|auto]. exists M. split; auto. split; auto.
Qed.
Lemma ch_new_bad m r c A rel pos : MatIs m r c A -> r <> c -> NewCholeskyDecomposition m rel pos = Err ENonSquare.
Proof.
  intros Hm Hn. unfold NewCholeskyDecomposition, IsSquare. rewrite (MatIs_cols _ _ _ _ Hm), (MatIs_rows _ _ _ _ Hm). cbn [bind].
  destruct (Z.eqb_spec c r); [congruence|]. destruct (Z.eqb_spec r c); [congruence|]. reflexivity.
Qed.

(** Accessors. *)
Definition ch_ok (n : Z) (M : Z -> Z -> F) (d : ChD) : Prop :=
  RTab (ch_lT d) n n M /\ ch_m d = n /\ cacheOk (ch_cachedL d) n (fun i j => M j i) /\ cacheOk (ch_cachedLT d) n M.

Lemma FromSlices_RTab d n c M : 1 <= n -> 1 <= c -> RTab d n c M -> gives (NewRealMatrixFromSlices (Some d)) n c M.
Proof.
  intros Hn Hc H.
  assert (G1 : gives (liftA (NewArray2DRowRealMatrixFromSlices (Some d) true)) n c M) by (apply givesA; apply FromSlices_copy_spec; auto).
  assert (G3 : gives (liftB (NewBlockRealMatrixFromSlices d)) n c M) by (apply givesB; apply NewBlockRealMatrixFromSlices_spec; auto).
  unfold NewRealMatrixFromSlices. pose proof (proj1 (proj1 H)). rewrite zget_ok by lia. cbn [bind]. destruct (_ <=? _); auto.
Qed.
Lemma ch_LT_ok n M d : 1 <= n -> ch_ok n M d ->
  wp (ch_LT d) (fun r => general (fst r) /\ MatIs (fst r) n n M /\ ch_ok n M (snd r) /\ ch_cachedL (snd r) = ch_cachedL d).
Proof.
  intros Hn (HT & Hm & CL & CT). unfold ch_LT. destruct (ch_cachedLT d) as [t|] eqn:E.
  - apply wp_ok. cbn [fst snd]. destruct CT. split; [auto|]. split; [auto|]. split; [|auto]. unfold ch_ok. rewrite E. cbn; auto.
  - destruct (FromSlices_RTab (ch_lT d) n n M Hn Hn HT) as (t & Et & Hg & Ht). rewrite Et. cbn [orpanic bind]. apply wp_ok. cbn. split; [auto|]. split; [auto|]. split; [|auto].
    unfold ch_ok. cbn. auto.
Qed.
Lemma ch_L_ok n M d : 1 <= n -> ch_ok n M d ->
  wp (ch_L d) (fun r => general (fst r) /\ MatIs (fst r) n n (fun i j => M j i) /\ ch_ok n M (snd r)).
Proof.
  intros Hn Hd. pose proof Hd as (HT & Hm & CL & CT). unfold ch_L. destruct (ch_cachedL d) as [t|] eqn:E.
  - apply wp_ok. cbn [fst snd]. destruct CL. auto.
  - apply wp_bind. eapply wp_conseq; [apply (ch_LT_ok n M d Hn Hd)|]. cbn beta. intros [lt d1] (Hg & Hlt & (HT1 & Hm1 & CL1 & CT1) & Ec). cbn [fst snd] in *.
    destruct (m_Transpose_ok lt n n M Hg Hlt) as (t & Et & Hgt & Ht). rewrite Et. cbn [bind]. apply wp_ok. cbn [fst snd]. split; [auto|]. split; [auto|].
    unfold ch_ok. cbn. auto.
Qed.
Lemma ch_Det_ok n M d : 0 <= n -> ch_ok n M d ->
  ch_Determinant d = Ok (accum (fun i x => x * (M i i * M i i))%f (Z.to_nat n) fone).
Proof.
  intros Hn (HT & _). unfold ch_Determinant. rewrite (proj1 (proj1 HT)). apply for_accum; auto. intros k x Hk. tget. auto.
Qed.

(** The solver. *)
Definition ch_sol (n : Z) (M : Z -> Z -> F) (b x : Z -> F) : Prop := exists y,
  (forall i, 0 <= i < n -> y i = (fsubs (b i) i (fun t => y t * M t i) / M i i)%f) /\
  (forall i, 0 <= i < n -> x i = (fsubd (y i) (i + 1) n (fun t => x t * M i t) / M i i)%f).

Lemma vec_axpys l n x lo hi z (get : Z -> res F) (c : Z -> F) : VTab l n x -> 0 <= lo <= hi -> hi <= n ->
  (forall i, lo <= i < hi -> get i = Ok (c i)) ->
  wp (for_ lo hi (fun i l => let* a := zget l i in let* m := get i in zset l i (a - z * m)%f) l)
    (fun l' => VTab l' n (fun i => if (lo <=? i) && (i <? hi) then (x i - z * c i)%f else x i)).
Proof.
  intros H Hlo Hhi Hg.
  apply (wp_for (fun k l' => VTab l' n (fun i => if (lo <=? i) && (i <? k) then (x i - z * c i)%f else x i))); [lia| | |].
  - eapply VTab_ext; [exact H|]. intros. cbn beta. zb; auto.
  - intros i l1 Hi H1. vget. rewrite Hg by lia. cbn [bind]. vput l2 H2. apply wp_ok. eapply VTab_ext; [exact H2|]. intros p Hp. cbn beta. zb; subst; auto.
  - auto.
Qed.
Lemma chs_SolveVector_ok n M d v b : ch_ok n M d -> VecIs v n b -> 0 <= n ->
  wp (chs_SolveVector d v) (fun r => exists x, VecIs r n x /\ ch_sol n M b x).
Proof.
  intros (HT & Hm & _) Hv Hn. unfold chs_SolveVector. rewrite Hm, (proj1 Hv), Z.eqb_refl. cbn [negb].
  assert (Hv0 : VTab (arv_ToArray (v_data v)) n b) by (apply VecIs_VTab; auto). apply wp_bind.
  apply (wp_for (fun k l => exists y, VTab l n y /\
    (forall i, 0 <= i < k -> y i = (fsubs (b i) i (fun t => y t * M t i) / M i i)%f) /\
    (forall i, k <= i < n -> y i = fsubs (b i) k (fun t => y t * M t i)%f))); try lia.
  - exists b. split; [auto|]. split; [intros; lia|]. intros i Hi. auto.
  - intros k l Hk (y & Hl & Hy1 & Hy2). vget. tget. vput l1 Hl1. vget. rewrite Z.eqb_refl.
    eapply wp_conseq; [apply (vec_axpys l1 n _ (k + 1) n _ (fun i => mget (ch_lT d) k i) (fun i => M k i) Hl1); try lia; intros; tget; auto|].
    cbn beta. intros l2 Hl2. set (y2 := fun i => _) in Hl2.
    assert (E1 : forall i, 0 <= i < k -> y2 i = y i) by (intros; unfold y2; zb; auto).
    assert (E2 : y2 k = (y k / M k k)%f) by (unfold y2; zb; auto).
    assert (E3 : forall i, k < i < n -> y2 i = (y i - y2 k * M k i)%f) by (intros; rewrite E2; unfold y2; zb; auto).
    clearbody y2. exists y2. split; [auto|]. split.
    + intros i Hi. destruct (Z.eq_dec i k) as [->|].
      * rewrite E2, Hy2 by lia. f_equal. apply fsubs_ext. intros. rewrite E1 by lia. auto.
      * rewrite E1, Hy1 by lia. f_equal. apply fsubs_ext. intros. rewrite E1 by lia. auto.
    + intros i Hi. rewrite fsubs_S by lia. rewrite E3 by lia. f_equal. rewrite Hy2 by lia. apply fsubs_ext. intros. rewrite E1 by lia. auto.
  - intros l (y & Hl & Hy & _). apply wp_bind.
    apply (wp_for_down (fun k l => exists x, VTab l n x /\
      (forall i, k <= i < n -> 0 <= i -> x i = (fsubd (y i) (i + 1) n (fun t => x t * M i t) / M i i)%f) /\
      (forall i, 0 <= i < k -> x i = fsubd (y i) k n (fun t => x t * M i t)%f))); try lia.
    + exists y. split; auto. split; [intros; lia|]. intros i Hi. rewrite fsubd_nil by lia. auto.
    + intros k l1 Hk (x & Hl1 & Hx1 & Hx2). vget. tget. vput l2 Hl2. vget. rewrite Z.eqb_refl.
      eapply wp_conseq; [apply (vec_axpys l2 n _ 0 k _ (fun i => mget (ch_lT d) i k) (fun i => M i k) Hl2); try lia; intros; tget; auto|].
      cbn beta. intros l3 Hl3. set (y2 := fun i => _) in Hl3.
      assert (E1 : forall i, k < i < n -> y2 i = x i) by (intros; unfold y2; zb; auto).
      assert (E2 : y2 k = (x k / M k k)%f) by (unfold y2; zb; auto).
      assert (E3 : forall i, 0 <= i < k -> y2 i = (x i - y2 k * M i k)%f) by (intros; rewrite E2; unfold y2; zb; auto).
      clearbody y2. exists y2. split; [auto|]. split.
      * intros i Hi _. destruct (Z.eq_dec i k) as [->|].
        -- rewrite E2, Hx2 by lia. f_equal. apply fsubd_ext. intros. rewrite E1 by lia. auto.
        -- rewrite E1, Hx1 by lia. f_equal. apply fsubd_ext. intros. rewrite E1 by lia. auto.
      * intros i Hi. rewrite (fsubd_S _ k) by lia. rewrite E3 by lia. f_equal. rewrite Hx2 by lia. apply fsubd_ext. intros. rewrite E1 by lia. auto.
    + intros l1 (x & Hl1 & Hx1 & Hx2). apply wp_ok. exists x. split; [apply VTab_VecIs; auto|]. exists y. split; auto.
      intros i Hi. apply Hx1; lia.
Qed.

Lemma rows_axpys bp m k f col lo hi (get : Z -> res F) (c : Z -> F) : RTab bp m k f -> 0 <= k -> 0 <= lo <= hi -> hi <= m -> 0 <= col < m -> ~ (lo <= col < hi) ->
  (forall i, lo <= i < hi -> get i = Ok (c i)) ->
  wp (for_ lo hi (fun i bp => let* l := get i in
      for_ 0 k (fun j bp => let* u := mget bp i j in let* y := mget bp col j in mset bp i j (u - y * l)%f) bp) bp)
    (fun bp' => RTab bp' m k (fun p q => if (lo <=? p) && (p <? hi) then (f p q - f col q * c p)%f else f p q)).
Proof.
  intros H Hk Hlo Hhi Hc Hne Hg.
  apply (wp_for (fun h bp => RTab bp m k (fun p q => if (lo <=? p) && (p <? h) then (f p q - f col q * c p)%f else f p q))); try lia.
  - eapply RTab_ext; [exact H|]. intros. cbn beta. zb; auto.
  - intros i bp1 Hi H1. rewrite Hg by lia. cbn [bind]. eapply wp_conseq; [apply (row_axpy bp1 m k _ i col (c i) H1); lia|]. cbn beta. intros bp2 H2.
    eapply RTab_ext; [exact H2|]. intros p q Hp Hq. cbn beta. zb; subst; auto.
  - auto.
Qed.
Lemma chs_SolveMatrix_ok n M d b k B : 1 <= n -> 1 <= k -> ch_ok n M d -> library b -> MatIs b n k B ->
  wp (chs_SolveMatrix d b) (fun r => exists X, general r /\ MatIs r n k X /\
    forall c, 0 <= c < k -> ch_sol n M (fun i => B i c) (fun i => X i c)).
Proof.
  intros Hn Hk (HT & Hm & _) Hlib Hb. unfold chs_SolveMatrix. rewrite Hm, (MatIs_rows _ _ _ _ Hb), Z.eqb_refl. cbn [negb].
  rewrite (MatIs_cols _ _ _ _ Hb). cbn [bind]. apply wp_bind. eapply wp_conseq; [apply (m_Data_ok b n k B Hlib Hb)|]. cbn beta. intros l0 Hl0. apply wp_bind.
  apply (wp_for (fun c l => exists y, RTab l n k y /\
    (forall i q, 0 <= i < c -> 0 <= q < k -> y i q = (fsubs (B i q) i (fun t => y t q * M t i) / M i i)%f) /\
    (forall i q, c <= i < n -> 0 <= q < k -> y i q = fsubs (B i q) c (fun t => y t q * M t i)%f))); try lia.
  - exists B. split; [auto|]. split; [intros; lia|]. intros i q Hi Hq. auto.
  - intros c l Hc (y & Hl & Hy1 & Hy2). tget. apply wp_bind. eapply wp_conseq; [apply (row_div l n k y c (M c c) Hl); lia|]. cbn beta. intros l1 Hl1.
    eapply wp_conseq; [apply (rows_axpys l1 n k _ c (c + 1) n (fun i => mget (ch_lT d) c i) (fun i => M c i) Hl1); try lia; intros; tget; auto|].
    cbn beta. intros l2 Hl2. set (y2 := fun p q => _) in Hl2.
    assert (E1 : forall i q, 0 <= i < c -> y2 i q = y i q) by (intros; unfold y2; zb; auto).
    assert (E2 : forall q, y2 c q = (y c q / M c c)%f) by (intros; unfold y2; zb; auto).
    assert (E3 : forall i q, c < i < n -> y2 i q = (y i q - y2 c q * M c i)%f) by (intros; rewrite E2; unfold y2; zb; auto).
    clearbody y2. exists y2. split; [auto|]. split.
    + intros i q Hi Hq. destruct (Z.eq_dec i c) as [->|].
      * rewrite E2, Hy2 by lia. f_equal. apply fsubs_ext. intros. rewrite E1 by lia. auto.
      * rewrite E1, Hy1 by lia. f_equal. apply fsubs_ext. intros. rewrite E1 by lia. auto.
    + intros i q Hi Hq. rewrite fsubs_S by lia. rewrite E3 by lia. f_equal. rewrite Hy2 by lia. apply fsubs_ext. intros. rewrite E1 by lia. auto.
  - intros l (y & Hl & Hy & _). apply wp_bind.
    apply (wp_for_down (fun c l => exists x, RTab l n k x /\
      (forall i q, c <= i < n -> 0 <= i -> 0 <= q < k -> x i q = (fsubd (y i q) (i + 1) n (fun t => x t q * M i t) / M i i)%f) /\
      (forall i q, 0 <= i < c -> 0 <= q < k -> x i q = fsubd (y i q) c n (fun t => x t q * M i t)%f))); try lia.
    + exists y. split; auto. split; [intros; lia|]. intros i q Hi Hq. rewrite fsubd_nil by lia. auto.
    + intros c l1 Hc (x & Hl1 & Hx1 & Hx2). tget. apply wp_bind. eapply wp_conseq; [apply (row_div l1 n k x c (M c c) Hl1); lia|]. cbn beta. intros l2 Hl2.
      eapply wp_conseq; [apply (rows_axpys l2 n k _ c 0 c (fun i => mget (ch_lT d) i c) (fun i => M i c) Hl2); try lia; intros; tget; auto|].
      cbn beta. intros l3 Hl3. set (y2 := fun p q => _) in Hl3.
      assert (E1 : forall i q, c < i < n -> y2 i q = x i q) by (intros; unfold y2; zb; auto).
      assert (E2 : forall q, y2 c q = (x c q / M c c)%f) by (intros; unfold y2; zb; auto).
      assert (E3 : forall i q, 0 <= i < c -> y2 i q = (x i q - y2 c q * M i c)%f) by (intros; rewrite E2; unfold y2; zb; auto).
      clearbody y2. exists y2. split; [auto|]. split.
      * intros i q Hi _ Hq. destruct (Z.eq_dec i c) as [->|].
        -- rewrite E2, Hx2 by lia. f_equal. apply fsubd_ext. intros. rewrite E1 by lia. auto.
        -- rewrite E1, Hx1 by lia. f_equal. apply fsubd_ext. intros. rewrite E1 by lia. auto.
      * intros i q Hi Hq. rewrite (fsubd_S _ c) by lia. rewrite E3 by lia. f_equal. rewrite Hx2 by lia. apply fsubd_ext. intros. rewrite E1 by lia. auto.
    + intros l1 (x & Hl1 & Hx1 & Hx2). apply wp_bind. eapply wp_conseq; [apply (a2_copyIn_spec l1 n k x); auto|]. cbn beta. intros a Ha.
      apply wp_ok. exists x. split; [exact I|]. split; [exact Ha|]. intros c Hc. exists (fun i => y i c). split; auto.
      intros i Hi. apply Hx1; lia.
Qed.
Lemma chs_SolveVector_bad_dim d v n b : VecIs v n b -> n <> ch_m d -> panics (chs_SolveVector d v).
Proof. intros Hv Hn. unfold chs_SolveVector. rewrite (proj1 Hv). destruct (Z.eqb_spec n (ch_m d)); [congruence|]. eexists; reflexivity. Qed.
Lemma chs_SolveMatrix_bad_dim d b n k B : MatIs b n k B -> n <> ch_m d -> panics (chs_SolveMatrix d b).
Proof. intros Hv Hn. unfold chs_SolveMatrix. rewrite (MatIs_rows _ _ _ _ Hv). destruct (Z.eqb_spec n (ch_m d)); [congruence|]. eexists; reflexivity. Qed.
Lemma chs_Inverse_ok n M d : 1 <= n -> ch_ok n M d ->
  wp (chs_Inverse d) (fun r => exists X, general r /\ MatIs r n n X /\
    forall c, 0 <= c < n -> ch_sol n M (fun i => if i =? c then fone else fzero) (fun i => X i c)).
Proof.
  intros Hn Hd. pose proof Hd as (_ & Hm & _). unfold chs_Inverse. rewrite Hm. destruct (identity_ok n Hn) as (m & E & Hg & Hid). rewrite E. cbn [orpanic bind].
  exact (chs_SolveMatrix_ok n M d m n _ Hn Hn Hd (gen_lib _ Hg) Hid).
Qed.
End CholFacts.

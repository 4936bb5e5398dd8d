(** The properties of the Hessenberg, tridiagonal and bidiagonal transforms assembled. *)
From Coq Require Import ZArith List Lia Bool Reals Lra.
From Verif Require Import Base BaseLemmas Wpe Scalar Vector VecSpec VectorFacts Matrix MatSpec MatFacts Array2D BlockM Diagonal RealMatrixM Array2DFacts MatrixOps TabTac FSum CholFacts LUFacts2 QRFacts Hess Tridiag Bidiag HessSpec HessFacts TridiagFacts BidiagFacts RealOps RSum Tri LUReal House QRReal QRReal2 HessReal TridiagReal BidiagReal.
Import ListNotations.
Open Scope Z_scope.

Section AnyOps.
Context {O : Ops}.
Lemma hs_total x n A : library x -> MatIs x n n A -> 1 <= n -> exists d, NewHessenbergTransformer x = Ok d.
Proof. intros Hl Hx Hn. destruct (hs_new_spec x n A Hl Hx Hn) as (d & E & _). eauto. Qed.
Lemma hs_any x n A d d' : library x -> MatIs x n n A -> 1 <= n -> hs_of x d -> hs_of x d' ->
  exists P H Pm PTm Hm d1 d2 d3, hs_P d = Ok (Pm, d1) /\ hs_PT d = Ok (PTm, d2) /\ hs_H d = Ok (Hm, d3) /\
    MatIs Pm n n P /\ MatIs PTm n n (fun i j => P j i) /\ MatIs Hm n n H /\
    (forall i j, 0 <= j -> j + 1 < i < n -> H i j = fzero) /\
    exists Pm' PTm' Hm' d1' d2' d3', hs_P d' = Ok (Pm', d1') /\ hs_PT d' = Ok (PTm', d2') /\ hs_H d' = Ok (Hm', d3') /\
      MatIs Pm' n n P /\ MatIs PTm' n n (fun i j => P j i) /\ MatIs Hm' n n H.
Proof.
  intros Hl Hx Hn Hd Hd'. pose proof (hs_state x n A d Hl Hx Hn Hd) as K. pose proof (hs_state x n A d' Hl Hx Hn Hd') as K'.
  set (M := fst (hs_iter n A (n - 2))) in *. set (D := snd (hs_iter n A (n - 2))) in *.
  destruct (hs_P_ok _ _ _ _ Hn K) as ([a1 d1] & E1 & _ & H1 & _). destruct (hs_PT_ok _ _ _ _ Hn K) as ([a2 d2] & E2 & _ & H2 & _). destruct (hs_H_ok _ _ _ _ Hn K) as ([a3 d3] & E3 & _ & H3 & _).
  destruct (hs_P_ok _ _ _ _ Hn K') as ([b1 e1] & F1 & _ & G1 & _). destruct (hs_PT_ok _ _ _ _ Hn K') as ([b2 e2] & F2 & _ & G2 & _). destruct (hs_H_ok _ _ _ _ Hn K') as ([b3 e3] & F3 & _ & G3 & _).
  cbn [fst snd] in *. exists (hs_tabP n M D), (hs_tabH M), a1, a2, a3, d1, d2, d3. do 6 (split; [auto|]). split; [intros; unfold hs_tabH; zbq; auto|].
  exists b1, b2, b3, e1, e2, e3. auto 10.
Qed.
Lemma td_total x n A : library x -> MatIs x n n A -> 1 <= n -> exists d, NewTriDiagonalTransformer x = Ok d.
Proof. intros Hl Hx Hn. destruct (td_new_spec x n A Hl Hx Hn) as (d & E & _). eauto. Qed.
(** [x] and [y] agree on and above the diagonal. *)
Lemma td_any x y n A B d d' : library x -> MatIs x n n A -> library y -> MatIs y n n B -> (forall i j, 0 <= i <= j -> j < n -> A i j = B i j) -> 1 <= n -> td_of x d -> td_of y d' ->
  exists Q T Qm QTm Tm d1 d2 d3, td_Q d = Ok (Qm, d1) /\ td_QT d = Ok (QTm, d2) /\ td_T d = Ok (Tm, d3) /\
    MatIs Qm n n Q /\ MatIs QTm n n (fun i j => Q j i) /\ MatIs Tm n n T /\
    (forall i j, 0 <= i < n -> 0 <= j < n -> T i j = T j i) /\ (forall i j, 0 <= i < n -> 0 <= j < n -> 1 < Z.abs (i - j) -> T i j = fzero) /\
    exists Qm' QTm' Tm' d1' d2' d3', td_Q d' = Ok (Qm', d1') /\ td_QT d' = Ok (QTm', d2') /\ td_T d' = Ok (Tm', d3') /\
      MatIs Qm' n n Q /\ MatIs QTm' n n (fun i j => Q j i) /\ MatIs Tm' n n T.
Proof.
  intros Hl Hx Hl' Hx' HAB Hn Hd Hd'. pose proof (td_state x n A d Hl Hx Hn Hd) as K. pose proof (td_state y n B d' Hl' Hx' Hn Hd') as K'.
  pose proof (td_fin_upper n A B HAB Hn) as U. destruct (td_fin n A) as [[M D] Sc], (td_fin n B) as [[M' D'] Sc']. destruct U as (U1 & U2 & U3).
  destruct (td_Q_ok _ _ _ _ _ Hn K) as ([a1 d1] & E1 & _ & H1 & _). destruct (td_QT_ok _ _ _ _ _ Hn K) as ([a2 d2] & E2 & _ & H2 & _). destruct (td_T_ok _ _ _ _ _ Hn K) as ([a3 d3] & E3 & _ & H3 & _).
  destruct (td_Q_ok _ _ _ _ _ Hn K') as ([b1 e1] & F1 & _ & G1 & _). destruct (td_QT_ok _ _ _ _ _ Hn K') as ([b2 e2] & F2 & _ & G2 & _). destruct (td_T_ok _ _ _ _ _ Hn K') as ([b3 e3] & F3 & _ & G3 & _).
  cbn [fst snd] in *.
  assert (EQ : forall i j, 0 <= i < n -> 0 <= j < n -> td_tabQT n M' Sc' i j = td_tabQT n M Sc i j).
  { intros i j Hi Hj. unfold td_tabQT, tq_unit. rewrite (tq_upper n M Sc M' Sc' 1) by (auto; lia). auto. }
  exists (fun i j => td_tabQT n M Sc j i), (td_tabT D Sc), a1, a2, a3, d1, d2, d3. do 6 (split; [auto|]).
  split; [intros; unfold td_tabT; zbq; subst; auto|]. split; [intros; unfold td_tabT; zbq; auto|].
  exists b1, b2, b3, e1, e2, e3. split; [auto|]. split; [auto|]. split; [auto|].
  split; [|split]; (eapply MatIs_ext; [eassumption|]; intros i j Hi Hj; cbn beta).
  - apply EQ; auto.
  - apply EQ; auto.
  - unfold td_tabT. rewrite !U2, !U3. auto.
Qed.
Lemma bd_total x m n A : library x -> MatIs x m n A -> 1 <= m -> 1 <= n -> exists d, NewBiDiagonalTransformer x = Ok d /\ bd_IsUpperBiDiagonal d = Ok (n <=? m).
Proof.
  intros Hl Hx Hm Hn. destruct (bd_new_spec x m n A Hl Hx Hm Hn) as (d & E & K). exists d. split; auto. destruct (bd_fin m n A) as [[M D] Sc]. destruct K as (K & _).
  unfold bd_IsUpperBiDiagonal. rewrite (RTab_len _ _ _ _ K). destruct (RTab_row (bd_hv d) m n M 0 K ltac:(lia)) as (row & -> & Hr). cbn [bind]. rewrite (VTab_len _ _ _ Hr). auto.
Qed.
Lemma bd_any x m n A d d' : library x -> MatIs x m n A -> 1 <= m -> 1 <= n -> bd_of x d -> bd_of x d' ->
  exists U B V Um Bm Vm d1 d2 d3, bd_U d = Ok (Um, d1) /\ bd_B d = Ok (Bm, d2) /\ bd_V d = Ok (Vm, d3) /\
    MatIs Um m m U /\ MatIs Bm m n B /\ MatIs Vm n n V /\
    (forall i j, 0 <= i < m -> 0 <= j < n -> j <> i -> j <> (if n <=? m then i + 1 else i - 1) -> B i j = fzero) /\
    exists Um' Bm' Vm' d1' d2' d3', bd_U d' = Ok (Um', d1') /\ bd_B d' = Ok (Bm', d2') /\ bd_V d' = Ok (Vm', d3') /\
      MatIs Um' m m U /\ MatIs Bm' m n B /\ MatIs Vm' n n V.
Proof.
  intros Hl Hx Hm Hn Hd Hd'. pose proof (bd_state x m n A d Hl Hx Hm Hn Hd) as K. pose proof (bd_state x m n A d' Hl Hx Hm Hn Hd') as K'.
  destruct (bd_fin m n A) as [[M D] Sc].
  destruct (bd_U_ok _ _ _ _ _ _ Hm Hn K) as ([a1 d1] & E1 & _ & H1 & _). destruct (bd_B_ok _ _ _ _ _ _ Hm Hn K) as ([a2 d2] & E2 & _ & H2 & _). destruct (bd_V_ok _ _ _ _ _ _ Hm Hn K) as ([a3 d3] & E3 & _ & H3 & _).
  destruct (bd_U_ok _ _ _ _ _ _ Hm Hn K') as ([b1 e1] & F1 & _ & G1 & _). destruct (bd_B_ok _ _ _ _ _ _ Hm Hn K') as ([b2 e2] & F2 & _ & G2 & _). destruct (bd_V_ok _ _ _ _ _ _ Hm Hn K') as ([b3 e3] & F3 & _ & G3 & _).
  cbn [fst snd] in *. exists (bd_tabU m n M D Sc), (bd_tabB m n D Sc), (bd_tabV m n M D Sc), a1, a2, a3, d1, d2, d3. do 6 (split; [auto|]).
  split; [intros i j Hi Hj N1; unfold bd_tabB, flip, bu_tabB; zbq; intros; zbq; auto; lia|].
  exists b1, b2, b3, e1, e2, e3. auto 10.
Qed.
End AnyOps.

Section Real.
#[local] Existing Instance ROps.
Lemma hs_factor (x : @RealMatrix ROps) n A d : library x -> MatIs x n n A -> 1 <= n -> hs_of x d ->
  exists Pm Tm Hm P T H d1 d2 d3, hs_P d = Ok (Pm, d1) /\ hs_PT d = Ok (Tm, d2) /\ hs_H d = Ok (Hm, d3) /\
    MatIs Pm n n P /\ MatIs Tm n n T /\ MatIs Hm n n H /\
    meq n n (mmul n (mmul n P H) T) A /\ orthogonal n P /\ meq n n T (trm P) /\ (forall i j, 0 <= j -> j + 1 < i < n -> H i j = 0%R).
Proof.
  intros Hl Hx Hn Hd. pose proof (hs_state x n A d Hl Hx Hn Hd) as K. pose proof (hinv_iter n A (Z.max 0 (n - 2)) ltac:(lia) ltac:(lia)) as I.
  assert (E : hs_iter (O := ROps) n A (Z.max 0 (n - 2)) = hs_iter (O := ROps) n A (n - 2)) by (unfold hs_iter; replace (Z.to_nat (Z.max 0 (n - 2))) with (Z.to_nat (n - 2)) by lia; auto).
  rewrite E in I. set (M := fst (hs_iter (O := ROps) n A (n - 2))) in *. set (D := snd (hs_iter (O := ROps) n A (n - 2))) in *.
  destruct (hs_P_ok _ _ _ _ Hn K) as ([a1 d1] & E1 & _ & H1 & _). destruct (hs_PT_ok _ _ _ _ Hn K) as ([a2 d2] & E2 & _ & H2 & _). destruct (hs_H_ok _ _ _ _ Hn K) as ([a3 d3] & E3 & _ & H3 & _).
  cbn [fst snd] in *. exists a1, a2, a3, (hs_tabP n M D), (fun i j => hs_tabP n M D j i), (hs_tabH M), d1, d2, d3. do 6 (split; [auto|]).
  split; [apply (hess_A n A M D); auto|]. split; [apply (P_orth n A M D); auto|]. split; [apply meq_refl|]. intros. unfold hs_tabH. zbq; auto.
Qed.
Lemma td_factor (x : @RealMatrix ROps) n A d : library x -> MatIs x n n A -> 1 <= n -> td_of x d ->
  exists Qm Sm Tm Q S T d1 d2 d3, td_Q d = Ok (Qm, d1) /\ td_QT d = Ok (Sm, d2) /\ td_T d = Ok (Tm, d3) /\
    MatIs Qm n n Q /\ MatIs Sm n n S /\ MatIs Tm n n T /\
    (forall i j, 0 <= i <= j -> j < n -> mmul n (mmul n Q T) S i j = A i j) /\
    ((forall i j, 0 <= i < n -> 0 <= j < n -> A i j = A j i) -> meq n n (mmul n (mmul n Q T) S) A) /\
    orthogonal n Q /\ meq n n S (trm Q) /\ meq n n T (trm T) /\ (forall i j, 0 <= i < n -> 0 <= j < n -> 1 < Z.abs (i - j) -> T i j = 0%R).
Proof.
  intros Hl Hx Hn Hd. pose proof (td_state x n A d Hl Hx Hn Hd) as K. pose proof (tinv_fin n A Hn) as I. destruct (td_fin (O := ROps) n A) as [[M D] Sc]. destruct I as [I ID].
  destruct (td_Q_ok _ _ _ _ _ Hn K) as ([a1 d1] & E1 & _ & H1 & _). destruct (td_QT_ok _ _ _ _ _ Hn K) as ([a2 d2] & E2 & _ & H2 & _). destruct (td_T_ok _ _ _ _ _ Hn K) as ([a3 d3] & E3 & _ & H3 & _).
  cbn [fst snd] in *. exists a1, a2, a3, (fun i j => td_tabQT n M Sc j i), (td_tabQT n M Sc), (td_tabT D Sc), d1, d2, d3. do 6 (split; [auto|]).
  pose proof (td_A n A M D Sc Hn I ID) as HA. change (trm (td_tabQT n M Sc)) with (fun i j => td_tabQT n M Sc j i) in HA.
  split; [intros i j Hi Hj; rewrite HA by lia; unfold mirror; rewrite Z.min_l, Z.max_r by lia; auto|].
  split.
  { intros Hs i j Hi Hj. rewrite HA by auto. unfold mirror. destruct (Z_le_gt_dec i j); [rewrite Z.min_l, Z.max_r by lia; auto|rewrite Z.min_r, Z.max_l by lia; apply Hs; auto]. }
  split; [apply (orth_tr n (td_tabQT n M Sc)), (td_QT_orth n A M D Sc); auto|]. split; [apply meq_refl|]. split.
  - intros i j Hi Hj. unfold trm, td_tabT. zbq; subst; auto.
  - intros i j Hi Hj Hij. unfold td_tabT. zbq; auto.
Qed.
Lemma bd_factor (x : @RealMatrix ROps) m n A d : library x -> MatIs x m n A -> 1 <= m -> 1 <= n -> bd_of x d ->
  exists Um Bm Vm U B V d1 d2 d3, bd_U d = Ok (Um, d1) /\ bd_B d = Ok (Bm, d2) /\ bd_V d = Ok (Vm, d3) /\
    MatIs Um m m U /\ MatIs Bm m n B /\ MatIs Vm n n V /\
    meq m n (mmul n (mmul m U B) (trm V)) A /\ orthogonal m U /\ orthogonal n V /\
    (n <= m -> forall i j, 0 <= i < m -> 0 <= j < n -> j <> i -> j <> i + 1 -> B i j = 0%R) /\
    (m < n -> forall i j, 0 <= i < m -> 0 <= j < n -> j <> i -> j <> i - 1 -> B i j = 0%R).
Proof.
  intros Hl Hx Hm Hn Hd. pose proof (bd_state x m n A d Hl Hx Hm Hn Hd) as K. pose proof (bidiag_real m n A Hm Hn) as I. destruct (bd_fin (O := ROps) m n A) as [[M D] Sc]. destruct I as (IU & IV & IA).
  destruct (bd_U_ok _ _ _ _ _ _ Hm Hn K) as ([a1 d1] & E1 & _ & H1 & _). destruct (bd_B_ok _ _ _ _ _ _ Hm Hn K) as ([a2 d2] & E2 & _ & H2 & _). destruct (bd_V_ok _ _ _ _ _ _ Hm Hn K) as ([a3 d3] & E3 & _ & H3 & _).
  cbn [fst snd] in *. exists a1, a2, a3, (bd_tabU m n M D Sc), (bd_tabB m n D Sc), (bd_tabV m n M D Sc), d1, d2, d3. do 6 (split; [auto|]).
  split; [exact IA|]. split; [exact IU|]. split; [exact IV|]. split; intros Hmn i j Hi Hj N1 N2; unfold bd_tabB, flip, bu_tabB; zbq; auto.
Qed.
End Real.

(** The Hessenberg transform in exact arithmetic. *)
From Coq Require Import ZArith List Lia Bool Reals Lra.
From Verif Require Import Base BaseLemmas Scalar Vector VecSpec VectorFacts Matrix MatSpec MatFacts TabTac FSum RealOps RSum Tri LUReal QR QRSpec QRFacts House QRReal QRReal2 CholFacts Hess HessFacts.
Open Scope Z_scope.

Lemma faddd_R x lo hi g : lo <= hi -> faddd (O := ROps) x lo hi g = (x + Rs lo hi g)%R.
Proof.
  intros H. remember (Z.to_nat (hi - lo)) as q eqn:E. revert lo H E. induction q as [|q IH]; intros lo H E.
  - rewrite faddd_nil, Rs_nil by lia. lra.
  - rewrite faddd_S, (Rs_first lo hi), IH by lia. cbn. lra.
Qed.

(** A reflection acting from row [k] on. *)
Lemma refl_tail_l n u c A k i j : 0 <= k <= n -> 0 <= i < n ->
  mmul n (refl (tail u k) c) A i j = if k <=? i then (A i j + u i * Rs k n (fun r => u r * A r j) / c)%R else A i j.
Proof.
  intros Hk Hi. rewrite refl_l by auto. rewrite (Rs_low 0 k n) by (try lia; intros; rewrite tail_lt by lia; ring).
  rewrite (Rs_ext k n _ (fun r => u r * A r j)%R) by (intros; rewrite tail_ge by lia; auto).
  destruct (Z.leb_spec k i); [rewrite tail_ge by lia; auto|rewrite tail_lt by lia; unfold Rdiv; ring].
Qed.
Lemma refl_tail_r n u c A k i j : 0 <= k <= n -> 0 <= j < n ->
  mmul n A (refl (tail u k) c) i j = if k <=? j then (A i j + u j * Rs k n (fun r => u r * A i r) / c)%R else A i j.
Proof.
  intros Hk Hj. rewrite refl_r by auto. rewrite (Rs_low 0 k n) by (try lia; intros; rewrite tail_lt by lia; ring).
  rewrite (Rs_ext k n _ (fun r => u r * A i r)%R) by (intros; rewrite tail_ge by lia; ring).
  destruct (Z.leb_spec k j); [rewrite tail_ge by lia; unfold Rdiv; ring|rewrite tail_lt by lia; ring].
Qed.
(** Scaling the vector. *)
Lemma refl_scale s u c i j : s <> 0%R -> refl (fun r => s * u r)%R (s * s * c) i j = refl u c i j.
Proof.
  intros Hs. unfold refl. f_equal. unfold Rdiv. destruct (Req_dec c 0) as [->|Hc].
  - rewrite Rmult_0_r, Rinv_0. ring.
  - field. auto.
Qed.

Section Step.
Variable n : Z.
Variable M : Z -> Z -> R.
Variable m : Z.
Hypothesis Hm : 1 <= m < n.
Notation s := (hs_scale (O := ROps) n M m).
Notation o := (hs_o (O := ROps) n M m).
Notation g := (hs_g (O := ROps) n M m).
Notation h := (hs_h (O := ROps) n M m).
Notation u := (hs_u (O := ROps) n M m).

Lemma scale_0 : s = 0%R -> forall i, m <= i < n -> M i (m - 1) = 0%R.
Proof.
  intros E i Hi. unfold hs_scale in E. rewrite fadds_R in E by lia. change (@fzero ROps) with 0%R in E. rewrite Rplus_0_l in E. change (@fabs ROps) with Rabs in E.
  pose proof (Rs_eq0 m n (fun i => Rabs (M i (m - 1))) ltac:(intros; apply Rabs_pos) E i Hi) as K. cbn beta in K.
  destruct (Req_dec (M i (m - 1)) 0) as [|Hn]; auto. apply Rabs_no_R0 in Hn. contradiction.
Qed.
Lemma g_eq : g = hh_a (O := ROps) n o m.
Proof.
  unfold hs_g, hh_a, hh_norm, hs_h0. rewrite faddd_R, fadds_R by lia. auto.
Qed.
Lemma h0_g : hs_h0 (O := ROps) n M m = (g * g)%R.
Proof. rewrite g_eq, norm_sq by lia. unfold hs_h0. rewrite faddd_R by lia. cbn. lra. Qed.
Hypothesis Hs : s <> 0%R.
Lemma g_nonzero : g <> 0%R.
Proof.
  intros E. rewrite g_eq in E. apply Hs. unfold hs_scale. rewrite fadds_R by lia. change (@fzero ROps) with 0%R. rewrite Rplus_0_l. apply Rs_zero. intros i Hi.
  pose proof (a_zero n o m ltac:(lia) E i Hi) as K. unfold hs_o in K. change (@fdiv ROps) with Rdiv in K. change (@fabs ROps) with Rabs.
  assert (E0 : M i (m - 1) = 0%R). { replace (M i (m - 1)) with (M i (m - 1)%Z / s * s)%R by (field; auto). rewrite K. ring. }
  rewrite E0. apply Rabs_R0.
Qed.
Lemma u_eq i : u i = hh_v (O := ROps) n o m i.
Proof. unfold hs_u. rewrite v_eq by (rewrite <- g_eq; apply g_nonzero). rewrite <- g_eq. auto. Qed.
Lemma h_eq : (- h)%R = (hh_a (O := ROps) n o m * hh_v (O := ROps) n o m m)%R.
Proof.
  rewrite <- g_eq, <- u_eq. unfold hs_h. rewrite h0_g. unfold hs_u. rewrite Z.eqb_refl.
  change (@fsub ROps) with Rminus. change (@fmul ROps) with Rmult. ring.
Qed.
Lemma h_nonzero : h <> 0%R.
Proof.
  pose proof (c_nonzero n o m) as K. rewrite <- h_eq in K. intros E. apply K; [rewrite <- g_eq; apply g_nonzero|]. rewrite E. ring.
Qed.
(** The reflection of the step. *)
Definition hs_refl : Z -> Z -> R := refl (tail u m) (- h).
Lemma hs_refl_eq i j : hs_refl i j = refl (tail (hh_v (O := ROps) n o m) m) (hh_a (O := ROps) n o m * hh_v (O := ROps) n o m m) i j.
Proof. unfold hs_refl, refl, tail. rewrite h_eq, !u_eq. auto. Qed.
Lemma u_sq : Rs 0 n (fun r => tail u m r * tail u m r)%R = (-2 * - h)%R.
Proof.
  rewrite h_eq, <- (tail_sq n o m) by lia. apply Rs_ext. intros r _. unfold tail. rewrite u_eq. auto.
Qed.
(** It takes column m-1 to (.., scale * g, 0, ..). *)
Lemma o_eq i : M i (m - 1) = (s * o i)%R.
Proof. unfold hs_o. change (@fdiv ROps) with Rdiv. field. auto. Qed.
Lemma refl_col i : 0 <= i < n -> mmul n hs_refl M i (m - 1) = if i <? m then M i (m - 1) else if i =? m then (s * g)%R else 0%R.
Proof.
  intros Hi.
  assert (E : mmul n hs_refl M i (m - 1) = (s * mvec n (refl (tail (hh_v (O := ROps) n o m) m) (hh_a (O := ROps) n o m * hh_v (O := ROps) n o m m)) o i)%R).
  { unfold mmul, mvec. rewrite <- Rs_scal_l. apply Rs_ext. intros k Hk. rewrite hs_refl_eq, o_eq.
    generalize (refl (tail (hh_v (O := ROps) n o m) m) (hh_a (O := ROps) n o m * hh_v (O := ROps) n o m m) i k). intros. ring. }
  rewrite E, refl_x by lia. rewrite <- g_eq. rewrite o_eq. destruct (i <? m); [auto|destruct (i =? m); ring].
Qed.
Lemma refl_left i j : 0 <= i < n -> m <= j -> mmul n hs_refl M i j = hs_l (O := ROps) n M m i j.
Proof.
  intros Hi Hj. unfold hs_refl, hs_l. rewrite refl_tail_l by lia. zbq; auto. rewrite faddd_R by lia.
  change (@fsub ROps) with Rminus. change (@fmul ROps) with Rmult. change (@fdiv ROps) with Rdiv. change (@fzero ROps) with 0%R. field. apply h_nonzero.
Qed.
End Step.

Section Inv.
Variable n : Z.
(** The vectors kept below the diagonal. *)
Definition hs_W (M : Z -> Z -> R) (D : Z -> R) (k : Z) : Z -> Z -> R :=
  if Reqb (M k (k - 1)) 0 then idm else refl (tail (hp_w (O := ROps) M D k) k) (D k * M k (k - 1)%Z).
Definition hs_G (M : Z -> Z -> R) (D : Z -> R) (k : Z) : Z -> Z -> R := accum (fun t T => mmul n (hs_W M D (t + 1)) T) (Z.to_nat k) idm.
(** The transformed matrix after k steps. *)
Definition hs_B (M : Z -> Z -> R) (k i j : Z) : R := if (j <? k) && (j + 1 <? i) then 0%R else M i j.
Definition hinv (A : Z -> Z -> R) (k : Z) (M : Z -> Z -> R) (D : Z -> R) : Prop :=
  (forall q, 1 <= q <= k -> orthogonal n (hs_W M D q)) /\
  meq n n (hs_B M k) (mmul n (mmul n (hs_G M D k) A) (trm (hs_G M D k))).
Lemma hs_G_S M D k : 0 <= k -> hs_G M D (k + 1) = mmul n (hs_W M D (k + 1)) (hs_G M D k).
Proof. intros H. unfold hs_G. rewrite accum_S by auto. auto. Qed.
Lemma hs_W_sym M D k i j : hs_W M D k i j = hs_W M D k j i.
Proof. unfold hs_W. destruct (Reqb _ _); [apply idm_sym|apply refl_sym]. Qed.
Lemma hs_W_ext M D M' D' k i j : (forall i, k <= i < n -> M' i (k - 1) = M i (k - 1)) -> D' k = D k -> 0 <= i < n -> 0 <= j < n -> k < n -> hs_W M' D' k i j = hs_W M D k i j.
Proof.
  intros HM HD Hi Hj Hk. unfold hs_W. rewrite (HM k) by lia. destruct (Reqb _ _); auto. unfold refl.
  assert (E : forall i, 0 <= i < n -> tail (hp_w (O := ROps) M' D' k) k i = tail (hp_w (O := ROps) M D k) k i).
  { intros r Hr. unfold tail, hp_w. zbq; subst; auto; apply HM; lia. }
  rewrite !E, HD by auto. auto.
Qed.
Lemma hs_G_ext M D M' D' k : 0 <= k < n -> (forall q i, 1 <= q <= k -> q <= i < n -> M' i (q - 1) = M i (q - 1)) -> (forall q, 1 <= q <= k -> D' q = D q) ->
  meq n n (hs_G M' D' k) (hs_G M D k).
Proof.
  intros [H Hkn] HM HD. revert Hkn HM HD. pattern k. apply natlike_ind; auto.
  - intros _ _ _ i j _ _. reflexivity.
  - intros t Ht IH Hkn HM HD. change (Z.succ t) with (t + 1) in *. rewrite !hs_G_S by auto. intros i j Hi Hj.
    apply mmul_ext.
    + intros r Hr. apply hs_W_ext; auto; try lia; intros; [apply HM|apply HD]; lia.
    + intros r Hr. apply IH; auto; try lia; intros; [apply HM|apply HD]; lia.
Qed.
Lemma hs_G_orth A k M D : 0 <= k -> hinv A k M D -> orthogonal n (hs_G M D k).
Proof.
  intros H [I1 _]. revert I1. pattern k. apply natlike_ind; auto.
  - intros _. apply orth_id.
  - intros t Ht IH I1. change (Z.succ t) with (t + 1) in *. rewrite hs_G_S by auto. apply orth_mmul.
    + apply I1. lia.
    + apply IH. intros. apply I1. lia.
Qed.
Lemma hinv_0 A D : hinv A 0 A D.
Proof.
  split; [intros; lia|]. intros i j Hi Hj. unfold hs_B, hs_G. cbn [Z.to_nat accum].
  rewrite (mmul_ext n (mmul n idm A) A (trm idm) idm) by (intros; solve [apply mmul_1_l; auto|apply trm_idm]). rewrite mmul_1_r by auto.
  zbq; auto.
Qed.
Lemma hs_W_new M D m : 1 <= m < n -> let M' := hs_M (O := ROps) n M m in let D' := hs_D (O := ROps) n M m D in
  (hs_scale (O := ROps) n M m = 0%R /\ (forall i, m <= i < n -> M i (m - 1) = 0%R) /\ (forall i j, M' i j = M i j) /\ hs_W M' D' m = idm) \/
  (hs_scale (O := ROps) n M m <> 0%R /\ meq n n (hs_W M' D' m) (hs_refl n M m) /\
   (forall i j, M' i j = if (i =? m) && (j =? m - 1) then (hs_scale (O := ROps) n M m * hs_g (O := ROps) n M m)%R else hs_r (O := ROps) n M m i j)).
Proof.
  intros Hm M' D'. destruct (Req_dec (hs_scale (O := ROps) n M m) 0) as [Hs|Hs].
  - left. pose proof (scale_0 n M m Hm Hs) as H0.
    assert (EM0 : forall i j, M' i j = M i j) by (intros; unfold M', hs_M; change (@fulp1 ROps) with Reqb; change (@fzero ROps) with 0%R; rewrite (proj2 (Reqb_true _ _) Hs); auto).
    split; [auto|]. split; [auto|]. split; [auto|]. unfold hs_W. rewrite EM0, H0 by lia. rewrite (proj2 (Reqb_true 0 0) eq_refl). auto.
  - right. assert (EM : forall i j, M' i j = if (i =? m) && (j =? m - 1) then (hs_scale (O := ROps) n M m * hs_g (O := ROps) n M m)%R else hs_r (O := ROps) n M m i j).
    { intros. unfold M', hs_M. change (@fulp1 ROps) with Reqb. change (@fzero ROps) with 0%R. rewrite (proj2 (Reqb_false _ _) Hs). auto. }
    assert (EDm : D' m = (hs_scale (O := ROps) n M m * hs_u (O := ROps) n M m m)%R).
    { unfold D', hs_D. change (@fulp1 ROps) with Reqb. change (@fzero ROps) with 0%R. rewrite (proj2 (Reqb_false _ _) Hs). zbq; auto. }
    pose proof (g_nonzero n M m Hm Hs) as Hg.
    assert (Ec : M' m (m - 1) = (hs_scale (O := ROps) n M m * hs_g (O := ROps) n M m)%R) by (rewrite EM, !Z.eqb_refl; auto).
    split; [auto|]. split; [|auto]. intros i j Hi Hj. unfold hs_W. rewrite Ec, EDm.
    rewrite (proj2 (Reqb_false _ _)) by (apply Rmult_integral_contrapositive_currified; auto).
    unfold hs_refl. rewrite <- (refl_scale (hs_scale (O := ROps) n M m) (tail (hs_u (O := ROps) n M m) m) _ i j Hs). unfold refl. f_equal.
    assert (Et : forall r, 0 <= r < n -> tail (hp_w (O := ROps) M' D' m) m r = (hs_scale (O := ROps) n M m * tail (hs_u (O := ROps) n M m) m r)%R).
    { intros r Hr. unfold tail. destruct (Z.ltb_spec r m); [ring|]. unfold hp_w. destruct (Z.eqb_spec r m) as [->|]; [auto|].
      rewrite EM. unfold hs_r, hs_l. zbq. rewrite (o_eq n M m Hs). unfold hs_u. zbq. auto. }
    rewrite !Et by auto. f_equal. rewrite (h_eq n M m Hm Hs), <- (g_eq n M m Hm), <- (u_eq n M m Hm Hs). ring.
Qed.
Lemma hinv_step A k M D : 0 <= k -> k + 1 < n -> hinv A k M D -> hinv A (k + 1) (hs_M (O := ROps) n M (k + 1)) (hs_D (O := ROps) n M (k + 1) D).
Proof.
  intros Hk Hkn [I1 I2]. set (m := k + 1) in *. pose proof (hs_W_new M D m ltac:(lia)) as N. cbn zeta in N. set (M' := hs_M (O := ROps) n M m) in *. set (D' := hs_D (O := ROps) n M m D) in *.
  assert (EM : forall i j, j < m - 1 -> M' i j = M i j).
  { intros i j Hj. unfold M', hs_M, hs_r, hs_l. destruct (fulp1 _ _); auto. zbq; auto. }
  assert (ED : forall q, q < m -> D' q = D q).
  { intros q Hq. unfold D', hs_D. destruct (fulp1 _ _); auto. zbq; auto. }
  assert (EG : meq n n (hs_G M' D' k) (hs_G M D k)).
  { apply hs_G_ext; [lia| |]; intros; [apply EM|apply ED]; lia. }
  assert (HW : orthogonal n (hs_W M' D' m)).
  { destruct N as [(_ & _ & _ & ->)|(Hs & HW & _)]; [apply orth_id|]. eapply orth_ext; [|apply meq_sym; exact HW]. apply refl_orth. apply u_sq; auto. lia. }
  assert (HB : meq n n (hs_B M' m) (mmul n (mmul n (hs_W M' D' m) (hs_B M k)) (hs_W M' D' m))).
  { destruct N as [(_ & H0 & EM0 & EW)|(Hs & EW & EM')]; intros i j Hi Hj.
    - rewrite EW, mmul_1_r, mmul_1_l by auto. unfold hs_B. rewrite EM0. zbq; auto. rewrite <- (H0 i) by lia. f_equal. lia.
    - rewrite (mmul_ext n _ (mmul n (hs_refl n M m) (hs_B M k)) _ (hs_refl n M m)) by (intros; solve [apply mmul_ext; auto; intros; apply EW; auto|apply EW; auto]).
      unfold hs_refl at 2. rewrite refl_tail_r by lia.
      assert (EL : forall j, 0 <= j < n -> mmul n (hs_refl n M m) (hs_B M k) i j = if j <? m - 1 then hs_B M k i j else if j =? m - 1 then (if i <? m then M i (m - 1) else if i =? m then (hs_scale (O := ROps) n M m * hs_g (O := ROps) n M m)%R else 0%R) else hs_l (O := ROps) n M m i j).
      { intros q Hq. destruct (Z.ltb_spec q (m - 1)); [|destruct (Z.eqb_spec q (m - 1)) as [->|]].
        - unfold hs_refl. rewrite refl_tail_l by lia. rewrite Rs_zero; [|intros r Hr; unfold hs_B; zbq; ring]. unfold Rdiv. destruct (m <=? i); ring.
        - rewrite <- refl_col by (auto; lia). apply mmul_ext; auto. intros r Hr. unfold hs_B. zbq. auto.
        - rewrite <- refl_left by (auto; lia). apply mmul_ext; auto. intros r Hr. unfold hs_B. zbq. auto. }
      destruct (Z.leb_spec m j).
      + rewrite (Rs_ext m n _ (fun r => hs_u (O := ROps) n M m r * hs_l (O := ROps) n M m i r)%R) by (intros r Hr; rewrite EL by lia; zbq; auto).
        rewrite EL by auto. unfold hs_B. rewrite EM'. zbq; auto; unfold hs_r; zbq; rewrite faddd_R by lia;
        change (@fsub ROps) with Rminus; change (@fmul ROps) with Rmult; change (@fdiv ROps) with Rdiv; change (@fzero ROps) with 0%R; field; apply h_nonzero; auto; lia.
      + rewrite EL by auto. unfold hs_B. rewrite EM'. destruct (Z.ltb_spec j (m - 1)).
        * rewrite <- (EM i j) by auto. rewrite EM'. zbq; auto.
        * assert (j = m - 1) by lia. subst j. unfold hs_r, hs_l. zbq; auto. }
  split.
  - intros q Hq. destruct (Z.eq_dec q m) as [->|]; auto. eapply orth_ext; [apply (I1 q); lia|].
    intros i j Hi Hj. symmetry. apply hs_W_ext; auto; try lia; intros; [apply EM|apply ED]; lia.
  - intros i j Hi Hj. rewrite HB by auto. unfold m at 3 4. rewrite hs_G_S by lia. fold m.
    transitivity (mmul n (mmul n (hs_W M' D' m) (mmul n (mmul n (hs_G M' D' k) A) (trm (hs_G M' D' k)))) (hs_W M' D' m) i j).
    { apply meq_mmul with (r := n) (c := n); auto; [|apply meq_refl]. apply meq_mmul; [apply meq_refl|]. intros a b Ha Hb. rewrite I2 by auto.
      apply mmul_ext; [|intros; symmetry; apply (meq_tr n n _ _ EG); auto]. intros r Hr. apply mmul_ext; auto. intros. symmetry. apply EG; auto. }
    rewrite (mmul_ext n (mmul n (mmul n (hs_W M' D' m) (hs_G M' D' k)) A) (mmul n (hs_W M' D' m) (mmul n (hs_G M' D' k) A)) (trm (mmul n (hs_W M' D' m) (hs_G M' D' k))) (mmul n (trm (hs_G M' D' k)) (hs_W M' D' m))).
    3:{ intros r Hr. rewrite trm_mmul. apply mmul_ext; auto. intros q Hq. unfold trm. apply hs_W_sym. }
    2:{ intros r Hr. apply mmul_assoc. }
    rewrite <- (mmul_assoc n n _ (trm (hs_G M' D' k))). apply mmul_ext; auto. intros r Hr. rewrite mmul_assoc. auto.
Qed.
Lemma hinv_iter A k : 0 <= k -> k <= Z.max 0 (n - 2) -> hinv A k (fst (hs_iter (O := ROps) n A k)) (snd (hs_iter (O := ROps) n A k)).
Proof.
  intros H. pattern k. apply natlike_ind; auto.
  - intros _. apply hinv_0.
  - intros t Ht IH Hk. change (Z.succ t) with (t + 1) in *. unfold hs_iter. rewrite accum_S by auto. cbn [fst snd].
    apply hinv_step; try lia. apply IH. lia.
Qed.
End Inv.

Section Done.
Variable n : Z.
Variable A : Z -> Z -> R.
Variable M : Z -> Z -> R.
Variable D : Z -> R.
Hypothesis Hn1 : 1 <= n.
Notation p := (Z.max 0 (n - 2)).
Hypothesis Inv : hinv n A p M D.
Notation P := (hs_tabP (O := ROps) n M D).

Lemma hp_id k i j : 1 <= k -> 0 <= i < n -> 0 <= j < n -> i < k \/ j < k -> hp_iter (O := ROps) n M D k i j = idm i j.
Proof.
  intros Hk Hi Hj Hij. destruct (Z_le_gt_dec (n - 1) k) as [Hg|Hg].
  { unfold hp_iter. replace (Z.to_nat (n - 1 - k)) with 0%nat by lia. cbn [accum]. unfold idm. auto. }
  replace k with (n - 1 - (n - 1 - k)) in Hij |- * by lia. assert (Hq : 0 <= n - 1 - k) by lia. assert (Hq2 : n - 1 - k <= n - 2) by lia. revert Hq2 Hij. pattern (n - 1 - k).
  apply natlike_ind; auto.
  - intros _ _. rewrite Z.sub_0_r. unfold hp_iter. rewrite Z.sub_diag. cbn [Z.to_nat accum]. unfold idm. auto.
  - intros t Ht IH Hq2 Hij. change (Z.succ t) with (t + 1) in *. rewrite hp_iter_S by lia. replace (n - 1 - (t + 1) + 1) with (n - 1 - t) by lia.
    unfold hp_step. specialize (IH ltac:(lia) ltac:(lia)). destruct (feq _ _); zbq; auto.
Qed.
Lemma hp_W k : 1 <= k < n - 1 -> meq n n (hp_iter (O := ROps) n M D k) (mmul n (hs_W M D k) (hp_iter (O := ROps) n M D (k + 1))).
Proof.
  intros Hk i j Hi Hj. rewrite hp_iter_S by lia. unfold hp_step, hs_W. change (@feq ROps) with Reqb. change (@fzero ROps) with 0%R.
  destruct (Reqb (M k (k - 1)) 0) eqn:E0; [rewrite mmul_1_l by auto; auto|]. rewrite refl_tail_l by lia.
  destruct (Z.leb_spec k i); cbn [andb]; auto. destruct (Z.leb_spec k j).
  - rewrite fadds_R by lia. change (@fadd ROps) with Rplus. change (@fmul ROps) with Rmult. change (@fdiv ROps) with Rdiv. change (@fzero ROps) with 0%R.
    apply Reqb_false in E0. unfold Rdiv. destruct (Req_dec (D k) 0) as [E1|E1].
    + rewrite E1, Rmult_0_l, Rinv_0. ring.
    + rewrite Rinv_mult. ring.
  - rewrite Rs_zero; [unfold Rdiv; rewrite Rmult_0_r, Rmult_0_l, Rplus_0_r; auto|]. intros r Hr. rewrite hp_id by lia. rewrite idm_diff by lia. ring.
Qed.
Lemma hp_G k : 0 <= k <= p -> meq n n (mmul n (trm (hs_G n M D k)) (hp_iter (O := ROps) n M D (k + 1))) (trm (hs_G n M D p)).
Proof.
  intros [Hk Hkp]. replace k with (p - (p - k)) by lia. assert (Hq : 0 <= p - k) by lia. assert (Hq2 : p - k <= p) by lia. revert Hq2. pattern (p - k).
  apply natlike_ind; auto.
  - intros _. rewrite Z.sub_0_r. intros i j Hi Hj. rewrite (mmul_ext n _ (trm (hs_G n M D p)) _ idm); [apply mmul_1_r; auto|auto|].
    intros r Hr. unfold hp_iter. replace (Z.to_nat (n - 1 - (p + 1))) with 0%nat by lia. cbn [accum]. reflexivity.
  - intros t Ht IH Hq2. change (Z.succ t) with (t + 1) in *. specialize (IH ltac:(lia)). intros i j Hi Hj. rewrite <- IH by auto.
    set (q := p - (t + 1)). replace (p - t) with (q + 1) by lia. rewrite hs_G_S by lia.
    rewrite (mmul_ext n (trm (mmul n (hs_W M D (q + 1)) (hs_G n M D q))) (mmul n (trm (hs_G n M D q)) (hs_W M D (q + 1))) _ (hp_iter (O := ROps) n M D (q + 1 + 1))).
    3: auto. 2:{ intros r Hr. rewrite trm_mmul. apply mmul_ext; auto. intros. unfold trm. apply hs_W_sym. }
    rewrite mmul_assoc. apply mmul_ext; auto. intros r Hr. apply hp_W; auto. lia.
Qed.
Lemma P_G : meq n n P (trm (hs_G n M D p)).
Proof.
  intros i j Hi Hj. rewrite <- (hp_G 0 ltac:(lia) i j Hi Hj). unfold hs_G. cbn [Z.to_nat accum].
  rewrite (mmul_ext n (trm idm) idm _ P) by (auto; intros; apply trm_idm). rewrite mmul_1_l by auto. auto.
Qed.
Lemma P_orth : orthogonal n P.
Proof. apply (orth_ext n (trm (hs_G n M D p))); [apply orth_tr, (hs_G_orth n A p M D); auto; lia|]. apply meq_sym, P_G. Qed.
Lemma hess_A : meq n n (mmul n (mmul n P (hs_tabH (O := ROps) M)) (trm P)) A.
Proof.
  destruct Inv as [_ I2]. set (G := hs_G n M D p) in *. pose proof (hs_G_orth n A p M D ltac:(lia) Inv) as [O1 O2]. fold G in O1, O2.
  assert (EH : meq n n (hs_tabH (O := ROps) M) (mmul n (mmul n G A) (trm G))).
  { intros i j Hi Hj. rewrite <- I2 by auto. unfold hs_tabH, hs_B. change (@fzero ROps) with 0%R. zbq; auto. }
  intros i j Hi Hj.
  rewrite (mmul_ext n _ (mmul n (trm G) (mmul n (mmul n G A) (trm G))) _ G).
  2:{ intros r Hr. apply mmul_ext; intros; [apply P_G|apply EH]; auto. }
  2:{ intros r Hr. unfold trm. rewrite P_G by auto. auto. }
  rewrite mmul_assoc. rewrite (mmul_ext n _ (trm G) _ (mmul n G A)); [|auto|].
  - rewrite <- mmul_assoc. rewrite (mmul_ext n _ idm A A) by (auto; intros; apply O1; auto). apply mmul_1_l; auto.
  - intros r Hr. rewrite mmul_assoc. rewrite (mmul_ext n _ (mmul n G A) _ idm) by (auto; intros; apply O1; auto). apply mmul_1_r; auto.
Qed.
End Done.

(** The singular value decomposition over the reals: the factors returned. *)
From Coq Require Import Reals ZArith QArith List Lia Lra Bool.
From Verif Require Import Base BaseLemmas Scalar Vector VecSpec VectorFacts Matrix MatSpec MatFacts TabTac FSum RealOps RSum Tri House QR QRSpec QRFacts QRReal QRReal2 CholFacts HessReal Frob EigenFacts SchurReal SVD SVDFacts SVDFacts2 SVDFacts3 SVDReal SVDReal2 SVDReal3 SVDReal4 SVDReal5 SVDOrder BidiagFacts.
Open Scope Z_scope.

Lemma sv_inv_start m n A : 1 <= n -> n <= m -> sv_inv m n A (sv0 (O := ROps) m n A).
Proof.
  intros Hn Hm. destruct (sv0_real m n A Hn Hm) as (H1 & H2 & H3 & H4). set (y := sv0 (O := ROps) m n A) in *.
  assert (Ep : t_p y = n) by reflexivity. assert (EN : nF n (bid (t_S y) (t_E y)) = nFr m n A).
  { rewrite <- (nFr_usv m n (t_U y) (bid (t_S y) (t_E y)) (t_V y)) by auto. symmetry. apply nFr_ext. auto. }
  split; [|split; [|rewrite Ep; lia]].
  - unfold inv0, core. exists (bid (t_S y) (t_E y)). split; [auto|]. split; [auto|]. split; [auto|]. split; [auto|]. split; [lra|].
    assert (nF n (msub (bid (t_S y) (t_E y)) (bid (t_S y) (t_E y))) = 0)%R as ->.
    { rewrite (nF_ext n _ (fun _ _ => 0%R)) by (intros i j _ _; unfold msub; ring). unfold nF, ip. rewrite (Rs_zero 0 n); [apply sqrt_0|]. intros i Hi. apply Rs_zero. intros. ring. }
    apply Rmult_le_pos; [|pose proof (delta_pos m n A); lra]. unfold Zc. apply Rs_nonneg. intros i Hi. destruct (Reqb _ _); lra.
  - intros i Hi Hi0. replace i with (n - 1) by lia. auto.
Qed.
Lemma sv_inv_iter m n A x y : 1 <= n -> n <= m -> svRs (O := ROps) m n x y -> sv_inv m n A x -> sv_inv m n A y.
Proof. intros Hn Hm. induction 1 as [x|x y z R IH Hp Rz]; auto. intros Hi. apply (sv_inv_step m n A Hm y z); auto. Qed.

Definition diagm (S : Z -> R) (i j : Z) : R := if i =? j then S i else 0%R.
Lemma sv_end m n A y : 1 <= n -> n <= m -> svRs (O := ROps) m n (sv0 (O := ROps) m n A) y -> t_p y = 0 ->
  orthcols m n (t_U y) /\ orthogonal n (t_V y) /\ (nFr m n (msub A (usv n (t_U y) (diagm (t_S y)) (t_V y))) <= IZR (n - 1) * (tinyR + 2 * epsR * nFr m n A))%R.
Proof.
  intros Hn Hm R Ep. pose proof (sv_inv_iter m n A _ _ Hn Hm R (sv_inv_start m n A Hn Hm)) as (I & E0 & _). rewrite Ep in E0.
  destruct I as (C & H1 & H2 & H3 & H4 & H5 & H6). split; [auto|]. split; [auto|].
  assert (EB : meq n n (bid (t_S y) (t_E y)) (diagm (t_S y))). { intros i j Hi Hj. unfold bid, diagm. rewrite E0 by lia. zbq; auto. }
  rewrite (nFr_ext m n _ (usv n (t_U y) (msub C (diagm (t_S y))) (t_V y))).
  - rewrite nFr_usv by auto. rewrite (nF_ext n _ (msub C (bid (t_S y) (t_E y)))); [|intros i j Hi Hj; unfold msub; rewrite EB; auto].
    eapply Rle_trans; [exact H6|]. fold (sv_delta m n A). apply Rmult_le_compat_r; [pose proof (delta_pos m n A); lra|]. apply Zc_le. auto.
  - intros i j Hi Hj. unfold msub at 1. rewrite (H1 i j Hi Hj). rewrite <- (usv_sub n (t_U y) C (diagm (t_S y)) (t_V y) i j). reflexivity.
Qed.
Lemma sv_end_order m n A y : svRs (O := ROps) m n (sv0 (O := ROps) m n A) y -> t_p y = 0 ->
  (forall i, 0 <= i < n -> (0 <= t_S y i)%R) /\ (forall i j, 0 <= i <= j -> j < n -> (t_S y j <= t_S y i)%R).
Proof.
  intros R Ep. destruct (s_order (O := ROps) (fun _ => True)) with (m := m) (n := n) (x := sv0 (O := ROps) m n A) (y := y) as [H1 H2]; auto.
  - intros a b _ _ H. apply Rleb_false in H. apply Rleb_true. lra.
  - intros a H. apply Rltb_true in H. apply Rleb_true. cbn [fneg fzero ROps] in *. lra.
  - apply Rleb_true. lra.
  - intros i Hi. exact I.
  - rewrite Ep in *. assert (H2' : forall i, 0 <= i -> i + 1 < n -> (t_S y (i + 1)%Z <= t_S y i)%R) by (intros; apply Rleb_true, H2; auto).
    split; [intros i Hi; apply Rleb_true, H1; auto|].
    intros i j Hij Hj. replace j with (i + (j - i)) by lia. assert (Hd : 0 <= j - i) by lia. assert (Hb : i + (j - i) < n) by lia. revert Hb. revert Hd. generalize (j - i). 
    refine (natlike_ind _ _ _); [intros _; replace (i + 0) with i by lia; lra|]. intros t Ht IH Hb. eapply Rle_trans; [|apply IH; lia]. replace (i + Z.succ t) with (i + t + 1) by lia. apply H2'; lia.
Qed.

(** U S V^T with any shape; the tables of the decomposition. *)
Definition svprod (q : Z) (U : Z -> Z -> R) (S : Z -> R) (V : Z -> Z -> R) (i j : Z) : R := Rs 0 q (fun k => U i k * S k * V j k)%R.
Lemma usv_diag q U S V m n : meq m n (usv q U (diagm S) V) (svprod q U S V).
Proof.
  intros i j Hi Hj. unfold usv, svprod, mmul, trm. apply Rs_ext. intros k Hk. f_equal. rewrite (Rs_pick 0 q k); auto.
  - unfold diagm. rewrite Z.eqb_refl. auto.
  - intros l Hl Hne. unfold diagm. zbq. ring.
Qed.
Lemma nFr_tr m n A : nFr m n (trm A) = nFr n m A.
Proof. unfold nFr, trm. f_equal. apply Rs_swap. Qed.
Lemma orth_cols n V : orthogonal n V -> orthcols n n V.
Proof. intros [H _] i j Hi Hj. rewrite <- (H i j Hi Hj). reflexivity. Qed.
(** Orthonormal columns of a square table: the rows are orthonormal too, since
    the sum of squares of I - U U^T is n - 2n + n. *)
Lemma Rs_ones n : 0 <= n -> Rs 0 n (fun _ => 1%R) = IZR n.
Proof. intros Hn. pattern n. apply natlike_ind; auto. intros k Hk IH. unfold Z.succ. rewrite Rs_last by lia. rewrite IH. rewrite plus_IZR. auto. Qed.
Lemma orth_sq n U : 0 <= n -> orthcols n n U -> orthogonal n U.
Proof.
  intros Hn H. split; [intros i j Hi Hj; exact (H i j Hi Hj)|]. set (P := mmul n U (trm U)).
  assert (T : Rs 0 n (fun i => P i i) = IZR n).
  { unfold P, mmul, trm. rewrite Rs_swap. rewrite <- (Rs_ones n Hn). apply Rs_ext. intros k Hk. rewrite (H k k Hk Hk). unfold idm. rewrite Z.eqb_refl. auto. }
  assert (Q : Rs 0 n (fun i => Rs 0 n (fun j => P i j * P i j)%R) = IZR n).
  { rewrite Rs_swap. transitivity (Rs 0 n (fun j => Rs 0 n (fun k => U j k * U j k)%R)).
    - apply Rs_ext. intros j Hj. exact (orthcols_norm n n U (fun k => U j k) H).
    - rewrite <- T. reflexivity. }
  assert (D : nF n (msub P idm) = 0%R).
  { unfold nF, ip. rewrite <- sqrt_0. f_equal. rewrite (Rs_ext 0 n _ (fun i => Rs 0 n (fun j => P i j * P i j)%R - 2 * P i i + 1)%R).
    - rewrite Rs_plus, Rs_minus, Q, Rs_scal_l, T, Rs_ones by auto. ring.
    - intros i Hi. rewrite (Rs_ext 0 n _ (fun j => P i j * P i j - (2 * P i j - 1) * idm i j)%R).
      + rewrite Rs_minus. rewrite (Rs_pick 0 n i (fun j => (2 * P i j - 1) * idm i j)%R); auto.
        * unfold idm. rewrite Z.eqb_refl. ring.
        * intros j Hj Hne. unfold idm. zbq. ring.
      + intros j Hj. unfold msub, idm. zbq; ring. }
  intros i j Hi Hj. pose proof (nF_entry n (msub P idm) i j Hi Hj) as K. rewrite D in K. unfold msub in K. fold P.
  pose proof (Rabs_pos (P i j - idm i j)). assert (Z0 : Rabs (P i j - idm i j) = 0%R) by lra. destruct (Req_dec (P i j - idm i j) 0) as [E|E]; [lra|]. apply Rabs_no_R0 in E. contradiction.
Qed.
Lemma sv_shape r c A y : 1 <= r -> 1 <= c -> let m := Z.max r c in let n := Z.min r c in
  svRs (O := ROps) m n (sv0 (O := ROps) m n (wide (O := ROps) r c A)) y -> t_p y = 0 ->
  let U := sv_tabU (O := ROps) r c y in let V := sv_tabV (O := ROps) r c y in let S := t_S y in
  orthcols r n U /\ orthcols c n V /\ (r <= c -> orthogonal r U) /\ (c <= r -> orthogonal c V) /\
  (nFr r c (msub A (svprod n U S V)) <= IZR (n - 1) * (tinyR + 2 * epsR * nFr r c A))%R /\
  (forall i, 0 <= i < n -> (0 <= S i)%R) /\ (forall i j, 0 <= i <= j -> j < n -> (S j <= S i)%R).
Proof.
  intros Hr Hc m n R Ep U V S. destruct (sv_end_order _ _ _ _ R Ep) as [O1 O2]. destruct (sv_end m n _ y ltac:(lia) ltac:(lia) R Ep) as (H1 & H2 & H3).
  assert (Sq : forall k W, 1 <= k -> orthcols k k W -> orthogonal k W) by (intros k W Hk HW; apply orth_sq; [lia|exact HW]).
  unfold U, V, S, sv_tabU, sv_tabV, wide in *. destruct (Z.ltb_spec r c).
  - replace m with c in * by lia; replace n with r in * by lia. split; [apply orth_cols; auto|]. split; [auto|]. split; [auto|]. split; [intros; lia|]. split; [|auto].
    rewrite <- (nFr_tr c r A). change (trm A) with (BidiagFacts.flip (O := ROps) A). eapply Rle_trans; [|exact H3]. apply Req_le. rewrite <- (nFr_tr c r (msub A _)). apply nFr_ext.
    intros i j Hi Hj. unfold msub, trm, BidiagFacts.flip. f_equal. f_equal. rewrite (usv_diag r (t_U y) (t_S y) (t_V y) c r i j) by auto. unfold svprod. apply Rs_ext. intros. ring.
  - replace m with r in * by lia; replace n with c in * by lia. split; [auto|]. split; [apply orth_cols; auto|]. split; [|split; [auto|split; [|auto]]].
    + intros. replace c with r in * by lia. apply Sq; auto; lia.
    + eapply Rle_trans; [|exact H3]. apply Req_le. apply nFr_ext. intros i j Hi Hj. unfold msub. rewrite (usv_diag c (t_U y) (t_S y) (t_V y) r c i j) by auto. auto.
Qed.

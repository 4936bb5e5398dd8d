(** The singular value decomposition in exact arithmetic: the invariant of the
    iteration and the distance of U S V^T to the matrix. *)
From Coq Require Import ZArith QArith List Lia Bool Reals Lra Psatz.
From Verif Require Import Base BaseLemmas Scalar Vector VecSpec VectorFacts Matrix MatSpec MatFacts TabTac FSum RealOps RSum Tri House QR QRSpec QRFacts QRReal QRReal2 CholFacts HessReal Frob EigenFacts SchurReal SVD SVDFacts SVDFacts2 SVDFacts3 SVDReal SVDReal2 SVDReal3 SVDReal4.
Open Scope Z_scope.

(** ** Case 4: a sign change and a permutation *)
Definition perm (s : Z -> Z) (i j : Z) : R := idm i (s j).
Lemma perm_r n s M i j : 0 <= s j < n -> mmul n M (perm s) i j = M i (s j).
Proof. intros Hs. unfold mmul, perm. rewrite (Rs_pick 0 n (s j)) by (auto; intros r Hr Hne; unfold idm; zbq; ring). unfold idm. rewrite Z.eqb_refl. ring. Qed.
Lemma perm_l n s M i j : 0 <= s i < n -> mmul n (trm (perm s)) M i j = M (s i) j.
Proof. intros Hs. unfold mmul, perm, trm. rewrite (Rs_pick 0 n (s i)) by (auto; intros r Hr Hne; unfold idm; zbq; ring). unfold idm. rewrite Z.eqb_refl. ring. Qed.
Lemma perm_orth n s s' : (forall i, 0 <= i < n -> 0 <= s i < n /\ 0 <= s' i < n /\ s (s' i) = i /\ s' (s i) = i) -> orthogonal n (perm s).
Proof.
  intros H. split; intros i j Hi Hj.
  - rewrite perm_l by (apply H; auto). unfold perm, idm. destruct (H i Hi) as (_ & _ & _ & Ei). destruct (H j Hj) as (_ & _ & _ & Ej).
    destruct (Z.eqb_spec (s i) (s j)) as [E|E]; destruct (Z.eqb_spec i j); auto; [|subst; contradiction]. exfalso. apply n0. rewrite <- Ei, <- Ej, E. auto.
  - unfold mmul, trm, perm. destruct (H i Hi) as (_ & Hs' & E & _). rewrite (Rs_pick 0 n (s' i)); auto.
    + rewrite E. unfold idm. rewrite Z.eqb_refl. zbq; subst; auto; try contradiction; ring.
    + intros r Hr Hne. unfold idm at 1. destruct (Z.eqb_spec i (s r)) as [Er|]; [|ring]. exfalso. apply Hne. subst i. symmetry. apply H. auto.
Qed.
Definition cyci (k q i : Z) : Z := if i =? k then q else if (k <? i) && (i <=? q) then i - 1 else i.
Lemma cyc_inv k q n i : 0 <= k <= q -> q < n -> 0 <= i < n -> 0 <= cyc k q i < n /\ 0 <= cyci k q i < n /\ cyc k q (cyci k q i) = i /\ cyci k q (cyc k q i) = i.
Proof. intros Hk Hq Hi. split; [|split; [|split]].
  - unfold cyc. zbq; lia.
  - unfold cyci. zbq; lia.
  - unfold cyci. zbq; subst; unfold cyc; zbq; lia.
  - unfold cyc. zbq; subst; unfold cyci; zbq; lia.
Qed.
Definition sgn1 (k : Z) (i j : Z) : R := if i =? j then (if i =? k then -1 else 1)%R else 0%R.
Lemma sgn1_r n k M i j : 0 <= j < n -> mmul n M (sgn1 k) i j = if j =? k then (- M i j)%R else M i j.
Proof. intros Hj. unfold mmul, sgn1. rewrite (Rs_pick 0 n j) by (auto; intros r Hr Hne; zbq; ring). rewrite Z.eqb_refl. zbq; ring. Qed.
Lemma sgn1_orth n k : orthogonal n (sgn1 k).
Proof.
  split; intros i j Hi Hj; unfold mmul, trm, sgn1, idm.
  - rewrite (Rs_pick 0 n j) by (auto; intros r Hr Hne; zbq; ring). rewrite Z.eqb_refl. zbq; subst; auto; try contradiction; try lia; ring.
  - rewrite (Rs_pick 0 n j) by (auto; intros r Hr Hne; zbq; try lia; ring). rewrite Z.eqb_refl. zbq; subst; auto; try contradiction; try lia; ring.
Qed.
Lemma case4_eqv m n p q S E U V : 1 <= p <= n -> p - 1 <= q <= n - 1 -> (forall i, Z.max 0 (p - 2) <= i < n -> E i = 0%R) ->
  let S1 := vset (O := ROps) S (p - 1) (posS (O := ROps) S (p - 1)) in
  eqv m n U (bid S E) V (fun i j => U i (cyc (p - 1) q j)) (bid (fun i => S1 (cyc (p - 1) q i)) E) (fun i j => posV (O := ROps) S (p - 1) V i (cyc (p - 1) q j)).
Proof.
  intros Hp Hq HE S1. set (k := p - 1) in *.
  assert (E1 : eqv m n U (bid S E) V U (bid S1 E) (posV (O := ROps) S k V)).
  { unfold S1, posS, posV. change (@fle ROps) with Rleb. change (@flt ROps) with Rltb. change (@fzero ROps) with 0%R. change (@fneg ROps) with Ropp. destruct (Rleb (S k) 0) eqn:El.
    - apply Rleb_true in El. exists idm, (sgn1 k). split; [apply orth_id|]. split; [apply sgn1_orth|]. split; [|split].
      + intros i j Hi Hj. rewrite mmul_1_r by auto. auto.
      + intros i j Hi Hj. rewrite sgn1_r by auto. zbq; subst; auto.
      + intros i j Hi Hj. rewrite sgn1_r, trm_id by auto. unfold bid, vset. destruct (Rltb (S k) 0) eqn:Ell; [apply Rltb_true in Ell|apply Rltb_false in Ell].
        * zbq; subst; auto; try lra; try lia. rewrite HE by lia. ring.
        * assert (E0 : S k = 0%R) by lra. zbq; subst; auto; try lra; try lia. rewrite HE by lia. ring.
    - apply eqv_same; intros i j Hi Hj; auto. unfold bid, vset. zbq; subst; auto. }
  eapply eqv_trans; [exact E1|]. clear E1. clearbody S1. set (V1 := posV (O := ROps) S k V). clearbody V1. set (c := cyc k q).
  assert (Hc : forall i, 0 <= i < n -> 0 <= c i < n) by (intros i Hi; apply cyc_inv; lia).
  assert (O1 : orthogonal n (perm c)) by (apply (perm_orth n c (cyci k q)); intros i Hi; apply cyc_inv; lia).
  exists (perm c), (perm c). split; [exact O1|]. split; [exact O1|]. split; [|split].
  - intros i j Hi Hj. rewrite perm_r by auto. auto.
  - intros i j Hi Hj. rewrite perm_r by auto. auto.
  - intros i j Hi Hj. rewrite perm_r by auto. rewrite perm_l by auto. unfold bid.
    destruct (cyc_inv k q n i ltac:(lia) ltac:(lia) Hi) as (_ & _ & _ & Ei). destruct (cyc_inv k q n j ltac:(lia) ltac:(lia) Hj) as (_ & _ & _ & Ej). fold c in Ei, Ej.
    destruct (Z.eqb_spec i j) as [->|Hij]; [rewrite Z.eqb_refl; auto|]. replace (c i =? c j) with false by (symmetry; apply Z.eqb_neq; congruence).
    pose proof (Hc i Hi). destruct (Z.le_gt_cases (Z.max 0 (k - 1)) i).
    + assert (Hci : Z.max 0 (k - 1) <= c i) by (unfold c, cyc; zbq; lia). rewrite !HE by lia. zbq; auto.
    + assert (Eci : c i = i) by (unfold c, cyc; zbq; lia). rewrite Eci. destruct (Z.eqb_spec j (i + 1)) as [->|Hj1].
      * assert (Ecj : c (i + 1) = i + 1) by (unfold c, cyc; zbq; lia). rewrite Ecj, Z.eqb_refl. auto.
      * assert (Ecj : c j <> i + 1) by (unfold c, cyc; zbq; lia). apply Z.eqb_neq in Ecj. rewrite Ecj. auto.
Qed.

(** ** The invariant *)
Definition Zc (n : Z) (E : Z -> R) : R := Rs 0 (n - 1) (fun i => if Reqb (E i) 0 then 1%R else 0%R).
Lemma Zc_le n E : 1 <= n -> (Zc n E <= IZR (n - 1))%R.
Proof.
  intros Hn. unfold Zc. eapply Rle_trans; [apply (Rs_le 0 (n - 1) _ (fun _ => 1%R)); intros; destruct (Reqb _ _); lra|]. apply Req_le.
  assert (H0 : 0 <= n - 1) by lia. apply (Rs_ind (fun k => Rs 0 k (fun _ => 1%R) = IZR k) 0 (n - 1) H0); [apply Rs_nil; lia|].
  intros k Hk IH. rewrite Rs_last by lia. rewrite IH, plus_IZR. auto.
Qed.
Lemma Zc_mono n E E' : (forall i, 0 <= i < n - 1 -> E i = 0%R -> E' i = 0%R) -> (Zc n E <= Zc n E')%R.
Proof.
  intros H. unfold Zc. apply Rs_le. intros i Hi. specialize (H i Hi). destruct (Reqb (E i) 0) eqn:E1.
  - apply Reqb_true in E1. rewrite (proj2 (Reqb_true (E' i) 0) (H E1)). lra.
  - destruct (Reqb (E' i) 0); lra.
Qed.
Lemma Zc_inc n E E' a : (forall i, 0 <= i < n - 1 -> E i = 0%R -> E' i = 0%R) -> 0 <= a < n - 1 -> E a <> 0%R -> E' a = 0%R -> (Zc n E + 1 <= Zc n E')%R.
Proof.
  intros H Ha Ea Ea'. unfold Zc. rewrite (Rs_split 0 a (n - 1)), (Rs_split 0 a (n - 1) (fun i => if Reqb (E' i) 0 then 1 else 0)%R) by lia.
  rewrite !(Rs_first a (n - 1)) by lia. rewrite (proj2 (Reqb_false (E a) 0) Ea), (proj2 (Reqb_true (E' a) 0) Ea').
  assert (K : forall lo hi, 0 <= lo -> hi <= n - 1 -> (Rs lo hi (fun i => if Reqb (E i) 0 then 1 else 0) <= Rs lo hi (fun i => if Reqb (E' i) 0 then 1 else 0))%R).
  { intros lo hi H1 H2. apply Rs_le. intros i Hi. specialize (H i ltac:(lia)). destruct (Reqb (E i) 0) eqn:E1.
    - apply Reqb_true in E1. rewrite (proj2 (Reqb_true (E' i) 0) (H E1)). lra.
    - destruct (Reqb (E' i) 0); lra. }
  pose proof (K 0 a ltac:(lia) ltac:(lia)). pose proof (K (a + 1) (n - 1) ltac:(lia) ltac:(lia)). lra.
Qed.

Definition tinyR : R := tiny_svd (O := ROps).
Definition epsR : R := eps_svd (O := ROps).
Lemma tinyR_pos : (0 < tinyR)%R.
Proof. unfold tinyR, tiny_svd. cbn [flit ROps]. unfold Q2R. cbn [Qnum Qden]. apply Rmult_lt_0_compat; [lra|]. apply Rinv_0_lt_compat. apply IZR_lt. reflexivity. Qed.
Lemma epsR_pos : (0 < epsR)%R.
Proof. unfold epsR, eps_svd. cbn [flit ROps]. unfold Q2R. cbn [Qnum Qden]. apply Rmult_lt_0_compat; [lra|]. apply Rinv_0_lt_compat. apply IZR_lt. reflexivity. Qed.

Section Inv.
Variables m n : Z.
Variable A : Z -> Z -> R.
Hypothesis Hn : 1 <= n.
Hypothesis Hm : n <= m.
Let N : R := nFr m n A.
Definition sv_delta : R := (tinyR + 2 * epsR * N)%R.
Let delta := sv_delta.
Lemma delta_pos : (0 < delta)%R.
Proof. unfold delta, sv_delta. pose proof tinyR_pos. pose proof epsR_pos. assert (0 <= N)%R by apply sqrt_pos. nra. Qed.

Definition core (U V B : Z -> Z -> R) (c : R) : Prop := exists C, meq m n A (usv n U C V) /\ orthcols m n U /\ orthogonal n V /\ nF n C = N /\ (nF n B <= N)%R /\ (nF n (msub C B) <= c)%R.
Lemma core_ext U V B B' c : core U V B c -> meq n n B' B -> core U V B' c.
Proof.
  intros (C & H1 & H2 & H3 & H4 & H5 & H6) H. exists C. split; [auto|]. split; [auto|]. split; [auto|]. split; [auto|]. split.
  - rewrite (nF_ext n B' B H). auto.
  - rewrite (nF_ext n _ (msub C B)); auto. intros i j Hi Hj. unfold msub. rewrite H by auto. auto.
Qed.
Lemma core_le U V B c c' : core U V B c -> (c <= c')%R -> core U V B c'.
Proof. intros (C & H1 & H2 & H3 & H4 & H5 & H6) H. exists C. repeat (split; [assumption|]). lra. Qed.
Lemma core_eqv U V B c U' B' V' : core U V B c -> eqv m n U B V U' B' V' -> core U' V' B' c.
Proof.
  intros (C & H1 & H2 & H3 & H4 & H5 & H6) H. destruct (eqv_inv m n U B V U' B' V' C H H2 H3) as (C' & K1 & K2 & K3 & K4 & K5 & K6).
  exists C'. split; [|split; [auto|split; [auto|split; [|split]]]].
  - eapply meq_trans; [exact H1|]. apply meq_sym. auto.
  - congruence.
  - rewrite K5. auto.
  - rewrite K6. auto.
Qed.
Lemma nF_mono B B' : (forall i j, 0 <= i < n -> 0 <= j < n -> (Rabs (B' i j) <= Rabs (B i j))%R) -> (nF n B' <= nF n B)%R.
Proof.
  intros H. unfold nF. apply sqrt_le_1_alt. unfold ip. apply Rs_le. intros i Hi. apply Rs_le. intros j Hj. specialize (H i j Hi Hj).
  rewrite <- (Rabs_right (B' i j * B' i j)) by nra. rewrite <- (Rabs_right (B i j * B i j)) by nra. rewrite !Rabs_mult. pose proof (Rabs_pos (B' i j)). nra.
Qed.
Lemma nF_single B a b : 0 <= a < n -> 0 <= b < n -> (forall i j, 0 <= i < n -> 0 <= j < n -> (i <> a \/ j <> b) -> B i j = 0%R) -> (nF n B <= Rabs (B a b))%R.
Proof.
  intros Ha Hb H. eapply Rle_trans; [apply nF_l1|]. apply Req_le. rewrite (Rs_pick 0 n a); auto.
  - rewrite (Rs_pick 0 n b); auto. intros j Hj Hne. rewrite H by auto. apply Rabs_R0.
  - intros i Hi Hne. apply Rs_zero. intros j Hj. rewrite H by auto. apply Rabs_R0.
Qed.
Lemma core_zero U V B c d B' a b : core U V B c -> 0 <= a < n -> 0 <= b < n -> (Rabs (B a b) <= d)%R -> B' a b = 0%R ->
  (forall i j, 0 <= i < n -> 0 <= j < n -> (i <> a \/ j <> b) -> B' i j = B i j) -> core U V B' (c + d).
Proof.
  intros (C & H1 & H2 & H3 & H4 & H5 & H6) Ha Hb Hd H0 Hs. exists C. split; [auto|]. split; [auto|]. split; [auto|]. split; [auto|]. split.
  - eapply Rle_trans; [|exact H5]. apply nF_mono. intros i j Hi Hj. destruct (Z.eq_dec i a) as [->|]; [destruct (Z.eq_dec j b) as [->|]|].
    + rewrite H0, Rabs_R0. apply Rabs_pos.
    + rewrite Hs by auto. lra.
    + rewrite Hs by auto. lra.
  - eapply Rle_trans; [apply (nF_sub_tri n C B B')|]. apply Rplus_le_compat; auto. eapply Rle_trans; [apply (nF_single _ a b Ha Hb)|].
    + intros i j Hi Hj Hne. unfold msub. rewrite Hs by auto. ring.
    + unfold msub. rewrite H0, Rminus_0_r. auto.
Qed.
Lemma core_S U V S E c i : core U V (bid S E) c -> 0 <= i < n -> (Rabs (S i) <= N)%R.
Proof.
  intros (C & _ & _ & _ & _ & H & _) Hi. eapply Rle_trans; [|exact H]. eapply Rle_trans; [|apply (nF_entry n (bid S E) i i Hi Hi)]. unfold bid. rewrite Z.eqb_refl. lra.
Qed.
Lemma core_E U V S E c i : core U V (bid S E) c -> 0 <= i < n - 1 -> (Rabs (E i) <= N)%R.
Proof.
  intros (C & _ & _ & _ & _ & H & _) Hi. eapply Rle_trans; [|exact H]. eapply Rle_trans; [|apply (nF_entry n (bid S E) i (i + 1) ltac:(lia) ltac:(lia))]. unfold bid. zbq. lra.
Qed.

Definition inv0 (U V : Z -> Z -> R) (S E : Z -> R) : Prop := core U V (bid S E) (Zc n E * delta).
Lemma inv0_E U V S E k : inv0 U V S E -> 0 <= k < n - 1 -> (Rabs (E k) <= tinyR + epsR * (Rabs (S k) + Rabs (S (k + 1)%Z)))%R -> inv0 U V S (vset (O := ROps) E k 0%R).
Proof.
  intros H Hk Ht. destruct (Req_dec (E k) 0) as [E0|E0].
  - unfold inv0 in *. eapply core_le; [eapply core_ext; [exact H|]|].
    + intros i j Hi Hj. unfold bid, vset. zbq; subst; auto.
    + apply Rmult_le_compat_r; [pose proof delta_pos; lra|]. apply Zc_mono. intros i Hi Ei. unfold vset. zbq; auto.
  - unfold inv0. pose proof (core_S _ _ _ _ _ k H ltac:(lia)). pose proof (core_S _ _ _ _ _ (k + 1) H ltac:(lia)).
    assert (Hd : (Rabs (E k) <= delta)%R) by (unfold delta, sv_delta; pose proof epsR_pos; nra).
    eapply core_le; [apply (core_zero U V (bid S E) (Zc n E * delta) delta (bid S (vset (O := ROps) E k 0%R)) k (k + 1) H); try lia|].
    + unfold bid. zbq. auto.
    + unfold bid, vset. zbq; auto.
    + intros i j Hi Hj Hne. unfold bid, vset. zbq; auto.
    + assert (K : (Zc n E + 1 <= Zc n (vset (O := ROps) E k 0%R))%R). { apply (Zc_inc n E _ k); auto. - intros i Hi Ei. unfold vset. zbq; auto. - unfold vset. rewrite Z.eqb_refl. auto. }
      pose proof delta_pos. nra.
Qed.
Lemma inv0_eqv U V S E U' V' S' E' : inv0 U V S E -> eqv m n U (bid S E) V U' (bid S' E') V' -> (forall i, 0 <= i < n - 1 -> E i = 0%R -> E' i = 0%R) -> inv0 U' V' S' E'.
Proof.
  intros H K HZ. unfold inv0 in *. eapply core_le; [eapply core_eqv; [exact H|exact K]|]. apply Rmult_le_compat_r; [pose proof delta_pos; lra|]. apply Zc_mono. auto.
Qed.
Lemma inv0_eqvS U V S E U' V' S' E' ks a : inv0 U V S E -> 0 <= ks < n -> (Rabs (S ks) <= delta)%R ->
  eqv m n U (bid (vset (O := ROps) S ks 0%R) E) V U' (bid S' E') V' -> (forall i, 0 <= i < n - 1 -> E i = 0%R -> E' i = 0%R) -> 0 <= a < n - 1 -> E a <> 0%R -> E' a = 0%R -> inv0 U' V' S' E'.
Proof.
  intros H Hk Hd K HZ Ha E1 E2. unfold inv0 in *. eapply core_le; [eapply core_eqv; [|exact K]|].
  - apply (core_zero U V (bid S E) (Zc n E * delta) delta _ ks ks H); auto.
    + unfold bid. rewrite Z.eqb_refl. auto.
    + unfold bid, vset. rewrite !Z.eqb_refl. auto.
    + intros i j Hi Hj Hne. unfold bid, vset. zbq; subst; auto; lia.
  - pose proof (Zc_inc n E E' a HZ Ha E1 E2). pose proof delta_pos. nra.
Qed.

Definition sv_inv (y : sv_t (O := ROps)) : Prop := inv0 (t_U y) (t_V y) (t_S y) (t_E y) /\ (forall i, t_p y - 1 <= i < n -> 0 <= i -> t_E y i = 0%R) /\ 0 <= t_p y <= n.

Lemma thrE_R S k : thrE (O := ROps) S k = (tinyR + epsR * (Rabs (S k) + Rabs (S (k + 1)%Z)))%R.
Proof. reflexivity. Qed.
Lemma scan_thr p S E k : scanned (O := ROps) p S E k -> 0 <= k -> (Rabs (E k) <= tinyR + epsR * (Rabs (S k) + Rabs (S (k + 1)%Z)))%R.
Proof. intros (_ & _ & H) Hk. specialize (H Hk). apply Rltb_false in H. exact H. Qed.
Lemma scan_ne p S E k j : scanned (O := ROps) p S E k -> k < j <= p - 2 -> E j <> 0%R.
Proof.
  intros (_ & H & _) Hj. specialize (H j Hj). apply Rltb_true in H. change (thrE (O := ROps) S j) with (tinyR + epsR * (Rabs (S j) + Rabs (S (j + 1)%Z)))%R in H. intros E0. change (@fabs ROps) with Rabs in H. rewrite E0, Rabs_R0 in H.
  pose proof tinyR_pos. pose proof epsR_pos. pose proof (Rabs_pos (S j)). pose proof (Rabs_pos (S (j + 1))). nra.
Qed.
Lemma zeroE_val k (E : Z -> R) i : zeroE (O := ROps) k E i = if (0 <=? k) && (i =? k) then 0%R else E i.
Proof. unfold zeroE, vset. destruct (0 <=? k); cbn [andb]; auto. Qed.
Lemma inv0_scan p S E U V k : inv0 U V S E -> p <= n -> scanned (O := ROps) p S E k -> inv0 U V S (zeroE (O := ROps) k E).
Proof.
  intros H Hp Sc. unfold zeroE. destruct (Z.leb_spec 0 k); auto. apply inv0_E; auto; [destruct Sc; lia|]. apply (scan_thr p); auto.
Qed.

Lemma sv_inv_step x y : sv_inv x -> 1 <= t_p x <= n -> svR m n x y -> sv_inv y.
Proof.
  intros (HI & HE & _) Hp R. destruct R as [S E U V p q Sc k S1 Hq _ _ | S E U V p k Sc Hk Hnot | S E U V p k Sc Hk Hle | S E U V p k ks Sc Hk Hks Hle]; cbn [t_S t_E t_U t_V t_p] in *.
  - (* case 4 *)
    pose proof (inv0_scan p S E U V (p - 2) HI ltac:(lia) Sc) as H1.
    assert (HZ : forall i, Z.max 0 (p - 2) <= i < n -> zeroE (O := ROps) (p - 2) E i = 0%R). { intros i Hi. rewrite zeroE_val. zbq; auto; apply HE; lia. }
    unfold sv_inv; cbn [t_S t_E t_U t_V t_p]; split; [|split].
    + eapply inv0_eqv; [exact H1|apply case4_eqv; auto; lia|auto].
    + intros i Hi Hi0. apply HZ. lia.
    + lia.
  - (* case 3 *)
    pose proof (inv0_scan p S E U V k HI ltac:(lia) Sc) as H1. assert (Hk' : -1 <= k) by (destruct Sc; lia). set (E1 := zeroE (O := ROps) k E) in *.
    assert (HE1 : forall i, k + 1 <= i <= p - 2 -> E1 i <> 0%R) by (intros i Hi; unfold E1; rewrite zeroE_val; zbq; apply (scan_ne p S E k); auto; lia).
    assert (HEp : forall i, p - 1 <= i < n -> E1 i = 0%R) by (intros i Hi; unfold E1; rewrite zeroE_val; zbq; auto; apply HE; lia).
    assert (HE0 : k + 1 = 0 \/ E1 (k + 1 - 1) = 0%R). { destruct (Z.eq_dec k (-1)); [left; lia|right]. replace (k + 1 - 1) with k by lia. unfold E1. rewrite zeroE_val. zbq; auto. }
    assert (HS1 : forall i, k + 1 <= i <= p - 1 -> S i <> 0%R).
    { intros i Hi Z0. specialize (Hnot i ltac:(lia)). apply Rleb_false in Hnot. change (@fabs ROps) with Rabs in Hnot. rewrite Z0, Rabs_R0 in Hnot. unfold tolS in Hnot. fold tinyR epsR in Hnot. rops.
      fold tinyR in Hnot. fold epsR in Hnot.
      assert (0 <= (if negb (i =? k + 1) then (if negb (i =? p) then Rabs (E1 i) else 0) + Rabs (E1 (i - 1)%Z) else if negb (i =? p) then Rabs (E1 i) else 0))%R.
      { pose proof (Rabs_pos (E1 i)). pose proof (Rabs_pos (E1 (i - 1))). destruct (negb (i =? k + 1)), (negb (i =? p)); lra. }
      change (tinyR + epsR * (if negb (i =? k + 1) then (if negb (i =? p) then Rabs (E1 i) else 0) + Rabs (E1 (i - 1)%Z) else if negb (i =? p) then Rabs (E1 i) else 0) < 0)%R in Hnot.
      pose proof tinyR_pos. pose proof epsR_pos. nra. }
    assert (Hg : snd (shiftF (O := ROps) p (k + 1) S E1) <> 0%R).
    { unfold shiftF. cbn [snd]. rops. set (sc := @fmax ROps _ _). assert (Hsc : (0 < sc)%R).
      { unfold sc. cbn [fmax ROps]. eapply Rlt_le_trans; [|apply Rmax_l]. eapply Rlt_le_trans; [|apply Rmax_r]. apply Rabs_pos_lt. apply HS1. lia. }
      pose proof (HS1 (k + 1) ltac:(lia)). pose proof (HE1 (k + 1) ltac:(lia)). pose proof (Rinv_0_lt_compat _ Hsc). unfold Rdiv. intros K.
      apply Rmult_integral in K. destruct K as [K|K]; apply Rmult_integral in K; destruct K; lra. }
    pose proof (case3_iter m n p (k + 1) ltac:(lia) ltac:(lia) Hm S E1 U V (fst (shiftF (O := ROps) p (k + 1) S E1)) _ HS1 HE1 HE0 HEp Hg (p - 1 - (k + 1)) ltac:(lia)) as K.
    unfold of_it, c3_fin. set (x := c3_iter (O := ROps) m (k + 1) (p - 1 - (k + 1)) _) in *. cbn [it_S it_E it_U it_V]. replace (k + 1 + (p - 1 - (k + 1))) with (p - 1) in K by lia.
    destruct K as (Keq & _ & Kg & KE & Kp & Kl). specialize (Kg eq_refl). unfold sv_inv; cbn [t_S t_E t_U t_V t_p]; split; [|split].
    + eapply inv0_eqv; [exact H1| |].
      * eapply eqv_trans; [exact Keq|]. apply eqv_same; try (intros i j Hi Hj; reflexivity). intros a b Ha Hb. unfold X3, bid, vset. rewrite Kg. zbq; subst; cbn [andb]; auto; try lia.
      * intros i Hi Ei. unfold vset. destruct (Z.eqb_spec i (p - 2)) as [->|]; [exfalso; apply (HE1 (p - 2)); auto; lia|].
        destruct (Z.lt_ge_cases i (k + 1)); [rewrite Kl by lia; auto|]. destruct (Z.le_gt_cases i (p - 2)); [exfalso; apply (HE1 i); auto; lia|].
        destruct (Z.eq_dec i (p - 1)) as [->|]; [auto|]. destruct (KE i ltac:(lia)) as [-> _]. auto.
    + intros i Hi Hi0. unfold vset. zbq. destruct (Z.eq_dec i (p - 1)) as [->|]; [auto|]. destruct (KE i ltac:(lia)) as [-> _]. apply HEp. lia.
    + lia.
  - (* case 1 *)
    pose proof (inv0_scan p S E U V k HI ltac:(lia) Sc) as H1. assert (Hk' : -1 <= k) by (destruct Sc; lia). set (E1 := zeroE (O := ROps) k E) in *.
    assert (HE1 : forall i, k + 1 <= i <= p - 2 -> E1 i <> 0%R) by (intros i Hi; unfold E1; rewrite zeroE_val; zbq; apply (scan_ne p S E k); auto; lia).
    assert (HEp : forall i, p - 1 <= i < n -> E1 i = 0%R) by (intros i Hi; unfold E1; rewrite zeroE_val; zbq; auto; apply HE; lia).
    assert (HE0 : k + 1 = 0 \/ E1 (k + 1 - 1) = 0%R). { destruct (Z.eq_dec k (-1)); [left; lia|right]. replace (k + 1 - 1) with k by lia. unfold E1. rewrite zeroE_val. zbq; auto. }
    assert (Hd : (Rabs (S (p - 1)%Z) <= delta)%R).
    { apply Rleb_true in Hle. change (@fabs ROps) with Rabs in Hle. eapply Rle_trans; [exact Hle|]. unfold tolS. rops. fold tinyR epsR. unfold delta, sv_delta. pose proof epsR_pos.
      change (tinyR + epsR * (if negb (p - 1 =? k + 1)%Z then (if negb (p - 1 =? p)%Z then Rabs (E1 (p - 1)%Z) else 0) + Rabs (E1 (p - 1 - 1)%Z) else if negb (p - 1 =? p)%Z then Rabs (E1 (p - 1)%Z) else 0) <= tinyR + 2 * epsR * N)%R.
      assert (0 <= N)%R by apply sqrt_pos. assert (Rabs (E1 (p - 1)%Z) = 0)%R by (rewrite HEp by lia; apply Rabs_R0). pose proof (core_E _ _ _ _ _ (p - 1 - 1) H1 ltac:(lia)).
      destruct (negb (p - 1 =? k + 1)), (negb (p - 1 =? p)); nra. }
    pose proof (case1_iter m n p (k + 1) ltac:(lia) ltac:(lia) (vset (O := ROps) S (p - 1) 0%R) E1 U V ltac:(unfold vset; rewrite Z.eqb_refl; auto) HE1 HE0 (p - 1 - (k + 1)) ltac:(lia)) as K.
    cbv zeta in K. unfold of_it, c1_fin. change (@fzero ROps) with 0%R. set (x := c1_iter (O := ROps) p (k + 1) (p - 1 - (k + 1)) _) in *. replace (p - 1 - (p - 1 - (k + 1))) with (k + 1) in K by lia.
    destruct K as (Keq & _ & _ & KE & Kp & Kl & K0). unfold sv_inv; cbn [t_S t_E t_U t_V t_p]; split; [|split].
    + eapply (inv0_eqvS _ _ _ _ _ _ _ _ (p - 1) (p - 2) H1); try lia; auto.
      * eapply eqv_trans; [exact Keq|]. apply eqv_same; try (intros i j Hi Hj; reflexivity). intros a b Ha Hb. unfold X1. rewrite Z.ltb_irrefl. auto.
      * intros i Hi Ei. destruct (Z.lt_ge_cases i (k + 1)); [rewrite K0 by lia; auto|]. destruct (Z.eq_dec i (p - 2)) as [->|]; [auto|].
        destruct (Z.le_gt_cases (p - 1) i); [destruct (Kl i ltac:(lia)) as [-> _]; auto|]. exfalso; apply (HE1 i); auto; lia.
      * apply HE1. lia.
    + intros i Hi Hi0. destruct (Kl i ltac:(lia)) as [-> _]. apply HEp. lia.
    + lia.
  - (* case 2 *)
    pose proof (inv0_scan p S E U V k HI ltac:(lia) Sc) as H1. assert (Hk' : -1 <= k) by (destruct Sc; lia). set (E1 := zeroE (O := ROps) k E) in *.
    assert (HE1 : forall i, k + 1 <= i <= p - 2 -> E1 i <> 0%R) by (intros i Hi; unfold E1; rewrite zeroE_val; zbq; apply (scan_ne p S E k); auto; lia).
    assert (HEp : forall i, p - 1 <= i < n -> E1 i = 0%R) by (intros i Hi; unfold E1; rewrite zeroE_val; zbq; auto; apply HE; lia).
    assert (Hd : (Rabs (S ks) <= delta)%R).
    { apply Rleb_true in Hle. change (@fabs ROps) with Rabs in Hle. eapply Rle_trans; [exact Hle|]. unfold tolS. rops. fold tinyR epsR. unfold delta, sv_delta. pose proof epsR_pos.
      change (tinyR + epsR * (if negb (ks =? k + 1) then (if negb (ks =? p) then Rabs (E1 ks) else 0) + Rabs (E1 (ks - 1)%Z) else if negb (ks =? p) then Rabs (E1 ks) else 0) <= tinyR + 2 * epsR * N)%R.
      assert (0 <= N)%R by apply sqrt_pos. pose proof (core_E _ _ _ _ _ ks H1 ltac:(lia)).
      destruct (Z.eqb_spec ks (k + 1)); cbn [negb]; [destruct (negb (ks =? p)); nra|]. pose proof (core_E _ _ _ _ _ (ks - 1) H1 ltac:(lia)). destruct (negb (ks =? p)); nra. }
    pose proof (case2_iter m n p (ks + 1) ltac:(lia) ltac:(lia) (vset (O := ROps) S ks 0%R) E1 U V) as K.
    replace (ks + 1 - 1) with ks in K by lia. specialize (K ltac:(unfold vset; rewrite Z.eqb_refl; auto) ltac:(intros; apply HE1; lia) HEp (p - (ks + 1)) ltac:(lia)).
    cbv zeta in K. unfold of_it, c2_fin. change (@fzero ROps) with 0%R. replace (ks + 1 - 1) with ks by lia.
    set (x := c2_iter (O := ROps) (ks + 1) (p - (ks + 1)) _) in *. replace (ks + 1 + (p - (ks + 1))) with p in K by lia.
    destruct K as (Keq & _ & _ & KE & Kp & Kl & _ & KP). unfold sv_inv; cbn [t_S t_E t_U t_V t_p]; split; [|split].
    + eapply (inv0_eqvS _ _ _ _ _ _ _ _ ks ks H1); try lia; auto.
      * eapply eqv_trans; [exact Keq|]. apply eqv_same; try (intros i j Hi Hj; reflexivity). intros a b Ha Hb. unfold X2. rewrite Z.ltb_irrefl. auto.
      * intros i Hi Ei. destruct (Z.lt_ge_cases i ks); [rewrite Kl by lia; auto|]. destruct (Z.eq_dec i ks) as [->|]; [auto|].
        destruct (Z.le_gt_cases p i); [destruct (KE i ltac:(lia)) as [-> _]; auto|]. destruct (Z.eq_dec i (p - 1)) as [->|]; [auto|exfalso; apply (HE1 i); auto; lia].
      * apply HE1. lia.
    + intros i Hi Hi0. destruct (Z.eq_dec i (p - 1)) as [->|]; [auto|]. destruct (KE i ltac:(lia)) as [-> _]. apply HEp. lia.
    + lia.
Qed.
End Inv.

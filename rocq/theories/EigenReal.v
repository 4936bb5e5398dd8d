(** The symmetric eigenvalue iteration over the real numbers: the accumulated
    rotations are orthogonal, and the tridiagonal matrix is kept up to the
    secondary values found negligible. *)
From Coq Require Import ZArith QArith Qreals List Lia Bool Reals Lra Psatz.
From Verif Require Import Base BaseLemmas Wpe Scalar Vector VecSpec VectorFacts Matrix MatSpec MatFacts Array2D Array2DFacts MatrixOps TabTac FSum CholFacts QRFacts Tridiag Schur Eigen EigenFacts EigenFacts2 RealOps RSum Tri House Frob RTol.
Import ListNotations.
Open Scope Z_scope.

Lemma rr_R tol p q : p <> 0%R -> let s := rsn (O := RTolOps tol) p q in let c := rcs (O := RTolOps tol) p q in let r := rr (O := RTolOps tol) p q in
  (s * s + c * c = 1 /\ s * p + c * q = r /\ c * p - s * q = 0 /\ s <> 0 /\ r <> 0)%R.
Proof.
  intros Hp. cbv zeta. unfold rsn, rcs, rr, rt. change (@fge (RTolOps tol)) with (fun x y => Rleb y x). cbv beta. change (@fabs (RTolOps tol)) with Rabs.
  change (@fsqrt (RTolOps tol)) with sqrt. change (@fone (RTolOps tol)) with 1%R. change (@fadd (RTolOps tol)) with Rplus. change (@fmul (RTolOps tol)) with Rmult. change (@fdiv (RTolOps tol)) with Rdiv.
  change (@F (RTolOps tol)) with R in *.
  destruct (Rleb (Rabs q) (Rabs p)) eqn:E.
  - set (t := sqrt (q / p * (q / p) + 1)).
    assert (Ht : (t * t = q / p * (q / p) + 1)%R) by (apply sqrt_sqrt; nra).
    assert (Ht0 : (0 < t)%R) by (apply sqrt_lt_R0; nra).
    assert (Hd : (t * t * (p * p) = q * q + p * p)%R) by (rewrite Ht; field; auto).
    repeat split.
    + apply (Rmult_eq_reg_r (t * t * (p * p))); [|assert (0 < p * p)%R by nra; nra]. rewrite Hd at 2. field. split; auto; lra.
    + apply (Rmult_eq_reg_r (t * p)); [|nra]. transitivity (p * p + q * q)%R; [field; split; auto; lra|nra].
    + field. split; auto; lra.
    + intros K. apply (Rmult_eq_compat_r t) in K. rewrite Rmult_0_l in K. replace (1 / t * t)%R with 1%R in K by (field; lra). lra.
    + intros K. apply Rmult_integral in K. destruct K; lra.
  - apply Rleb_false in E. assert (Hq : q <> 0%R). { intros ->. rewrite Rabs_R0 in E. pose proof (Rabs_pos p). lra. }
    set (t := sqrt (p / q * (p / q) + 1)).
    assert (Ht : (t * t = p / q * (p / q) + 1)%R) by (apply sqrt_sqrt; nra).
    assert (Ht0 : (0 < t)%R) by (apply sqrt_lt_R0; nra).
    assert (Hd : (t * t * (q * q) = q * q + p * p)%R) by (rewrite Ht; field; auto).
    repeat split.
    + apply (Rmult_eq_reg_r (t * t * (q * q))); [|assert (0 < q * q)%R by nra; nra]. rewrite Hd at 2. field. split; auto; lra.
    + apply (Rmult_eq_reg_r (t * q)); [|nra]. transitivity (p * p + q * q)%R; [field; split; auto; lra|nra].
    + field. split; auto; lra.
    + intros K. apply (Rmult_eq_compat_r (q * t)) in K. rewrite Rmult_0_l in K. replace (p / q * (1 / t) * (q * t))%R with p in K by (field; split; lra). lra.
    + intros K. apply Rmult_integral in K. destruct K; lra.
Qed.

(** The matrix before the rotation of the rows i and i+1. *)
Definition Ev (j : Z) (E : Z -> R) (k : Z) : R := if k <? j then 0%R else E k.
Definition stg (j m i : Z) (D E : Z -> R) (s c q u : R) (a b : Z) : R :=
  let lo := Z.min a b in let hi := Z.max a b in
  if lo =? hi then (D lo - (if lo =? i + 1 then u else 0))%R else
  if hi =? lo + 1 then (if lo =? i then c * Ev j E i else if lo =? i + 1 then (if i + 1 =? m then 0 else q) else if lo =? m then 0 else Ev j E lo)%R else
  if (lo =? i) && (hi =? i + 2) && negb (i + 1 =? m) then (s * Ev j E i)%R else 0%R.
Lemma stg_sym j m i D E s c q u a b : stg j m i D E s c q u a b = stg j m i D E s c q u b a.
Proof. unfold stg. rewrite Z.min_comm, Z.max_comm. auto. Qed.
Lemma rot2_sym s c i M a b : (forall x y, M x y = M y x) -> rot2 s c i M a b = rot2 s c i M b a.
Proof.
  intros H. unfold rot2, trm, rotc.
  rewrite (H (i + 1) i). zbq; subst; rewrite ?(H b i), ?(H b (i + 1)), ?(H b a), ?(H a i), ?(H a (i + 1)); try ring.
Qed.

(** One rotation brings the stage i to the stage i - 1. *)
Lemma stg_step j m i D E s c q u s' c' r' : i < m ->
  j <= i -> (s' * s' + c' * c' = 1)%R -> (s' * (s * E i) + c' * q = r')%R -> (c' * (s * E i) - s' * q = 0)%R ->
  let x := (D (i + 1)%Z - u)%R in let h := (c * E i)%R in let t := ((D i - x) * s' + 2 * c' * h)%R in let u' := (s' * t)%R in let q' := (c' * t - h)%R in
  let D' := fun k => if k =? i + 1 then (x + u')%R else D k in let E' := fun k => if k =? i + 1 then r' else E k in
  forall a b, rot2 s' c' i (stg j m i D E s c q u) a b = stg j m (i - 1) D' E' s' c' q' u' a b.
Proof.
  intros Him Hji H1 H2 H3 x h t u' q' D' E'.
  set (M := stg j m i D E s c q u). set (M' := stg j m (i - 1) D' E' s' c' q' u').
  assert (HEi : Ev j E i = E i) by (unfold Ev; zbq; auto).
  assert (M00 : M i i = D i). { unfold M, stg. rewrite Z.min_id, Z.max_id. zbq. lra. }
  assert (M01 : M i (i + 1)%Z = h). { unfold M, stg. rewrite Z.min_l, Z.max_r by lia. zbq. rewrite HEi. auto. }
  assert (M11 : M (i + 1)%Z (i + 1)%Z = x). { unfold M, stg. rewrite Z.min_id, Z.max_id. zbq. auto. }
  assert (Sy : forall a b, M a b = M b a) by (intros; apply stg_sym).
  assert (G : forall a b, a <= b -> rot2 s' c' i M a b = M' a b).
  { intros a b Hab. unfold rot2, trm, rotc.
    destruct (Z.eqb_spec a (i + 1)) as [->|A1]; [|destruct (Z.eqb_spec a i) as [->|A2]].
    - destruct (Z.eqb_spec b (i + 1)) as [->|B1].
      + rewrite (Sy (i + 1) i), M00, M01, M11. unfold M', stg. rewrite Z.min_id, Z.max_id. zbq. unfold D'. zbq. unfold u', t.
        transitivity (s' * s' * D i + 2 * s' * c' * h + c' * c' * x)%R; [ring|]. replace (c' * c')%R with (1 - s' * s')%R by lra. ring.
      + replace (b =? i) with false by (symmetry; apply Z.eqb_neq; lia). destruct (Z.eq_dec b (i + 2)) as [->|B2].
        * unfold M, M', stg. rewrite !Z.min_l, !Z.max_r by lia. zbq; try lra; unfold Ev, E'; zbq; try lra. all: rewrite HEi; lra.
        * unfold M, M', stg. rewrite !Z.min_l, !Z.max_r by lia. zbq; lra.
    - destruct (Z.eqb_spec b (i + 1)) as [->|B1]; [|destruct (Z.eqb_spec b i) as [->|B2]].
      + rewrite (Sy (i + 1) i), M00, M01, M11. unfold M', stg. rewrite Z.min_l, Z.max_r by lia. zbq. unfold q', t.
        transitivity (c' * s' * (D i - x) + (c' * c' - s' * s') * h)%R; [ring|]. replace (s' * s')%R with (1 - c' * c')%R by lra. ring.
      + rewrite (Sy (i + 1) i), M00, M01, M11. unfold M', stg. rewrite Z.min_id, Z.max_id. zbq. unfold D'. zbq. unfold u', t.
        transitivity (c' * c' * D i - 2 * s' * c' * h + s' * s' * x)%R; [ring|]. replace (c' * c')%R with (1 - s' * s')%R by lra. ring.
      + destruct (Z.eq_dec b (i + 2)) as [->|B3].
        * unfold M, M', stg. rewrite !Z.min_l, !Z.max_r by lia. zbq; try lra. rewrite HEi; lra.
        * unfold M, M', stg. rewrite !Z.min_l, !Z.max_r by lia. zbq; lra.
    - destruct (Z.eqb_spec b (i + 1)) as [->|B1]; [|destruct (Z.eqb_spec b i) as [->|B2]].
      + assert (a < i) by lia. unfold M, M', stg. rewrite !Z.min_l, !Z.max_r by lia.
        assert (EE : Ev j E' (i - 1) = Ev j E (i - 1)) by (unfold Ev, E'; zbq; auto).
        zbq; try lra; rewrite ?EE; try (replace a with (i - 1) by lia); try lra.
      + assert (a < i) by lia. unfold M, M', stg. rewrite !Z.min_l, !Z.max_r by lia.
        assert (EE : Ev j E' (i - 1) = Ev j E (i - 1)) by (unfold Ev, E'; zbq; auto).
        zbq; try lra; rewrite ?EE; try (replace a with (i - 1) by lia); try lra.
      + unfold M, M', stg. rewrite !Z.min_l, !Z.max_r by lia. unfold D', Ev, E'. zbq; subst; try lra; auto. }
  intros a b. destruct (Z_le_gt_dec a b); [apply G; auto|].
  rewrite rot2_sym by exact Sy. unfold M'. rewrite stg_sym. apply G. lia.
Qed.

Section QL.
Variable tol : R.
Hypothesis Htol : (0 <= tol)%R.
Variable n : Z.
Variable A0 : Z -> Z -> R.
Let g : R := nF n A0.
Local Notation OT := (RTolOps tol).

(** Distance of A0 from Z T Z^T, added to the norm of A0. *)
Definition nearT (kap : R) (Zf : Z -> Z -> R) (T : Z -> Z -> R) : Prop := orthogonal n Zf /\ (nF n (msub A0 (conj n Zf T)) + g <= g * kap)%R.
Lemma nearT_ext kap Zf T Z' T' : nearT kap Zf T -> orthogonal n Z' -> meq n n (conj n Z' T') (conj n Zf T) -> nearT kap Z' T'.
Proof.
  intros [H1 H2] H3 H4. split; auto. rewrite (nF_ext n _ (msub A0 (conj n Zf T))); auto. intros i j Hi Hj. unfold msub. rewrite H4 by auto. auto.
Qed.
Lemma nearT_norm kap Zf T : nearT kap Zf T -> (nF n T <= g * kap)%R.
Proof. intros [H1 H2]. rewrite <- (nF_conj n Zf T H1). eapply Rle_trans; [apply (nF_le n A0)|]. fold g. lra. Qed.
Lemma nearT_perturb kap Zf T T' eps : (0 <= kap)%R -> nearT kap Zf T -> (nF n (msub T T') <= eps * nF n T)%R -> (0 <= eps)%R -> nearT (kap * (1 + eps)) Zf T'.
Proof.
  intros Hk H He He0. pose proof (nearT_norm _ _ _ H) as HN. destruct H as [H1 H2]. split; auto.
  pose proof (nF_sub_tri n A0 (conj n Zf T) (conj n Zf T')) as H3. rewrite (nF_conj_sub n Zf T T' H1) in H3. assert (eps * nF n T <= eps * (g * kap))%R by (apply Rmult_le_compat_l; auto). lra.
Qed.
Lemma drop kap Zf D F m : (0 <= kap)%R -> nearT kap Zf (trid D F) -> 0 <= m < n - 1 -> (Rabs (F m) <= tol * (Rabs (D m) + Rabs (D (m + 1)%Z)))%R ->
  nearT (kap * (1 + 4 * tol)) Zf (trid D (fun k => if k =? m then 0%R else F k)).
Proof.
  intros Hk H Hm HF. apply (nearT_perturb kap Zf (trid D F)); auto; [|lra].
  eapply Rle_trans; [apply nF_trid_sub|].
  rewrite (Rs_zero 0 n) by (intros; rewrite Rminus_diag_eq, Rabs_R0; auto). rewrite (Rs_pick 0 (n - 1) m).
  - rewrite Z.eqb_refl, Rminus_0_r, Rplus_0_l.
    assert (HD : forall k, 0 <= k < n -> (Rabs (D k) <= nF n (trid D F))%R).
    { intros k Hk'. eapply Rle_trans; [|apply (nF_entry n (trid D F) k k); auto]. unfold trid. rewrite Z.eqb_refl. lra. }
    pose proof (HD m ltac:(lia)). pose proof (HD (m + 1) ltac:(lia)). nra.
  - lia.
  - intros k Hk' Hne. destruct (Z.eqb_spec k m); [contradiction|]. rewrite Rminus_diag_eq, Rabs_R0; auto.
Qed.

Lemma negl_R (D E : Z -> R) k : negl (O := OT) D E k = true <-> (Rabs (E k) <= tol * (Rabs (D k) + Rabs (D (k + 1)%Z)))%R.
Proof.
  unfold negl. change (@feq OT) with (Rtolb tol). change (@fabs OT) with Rabs. change (@fadd OT) with Rplus.
  pose proof (Rabs_pos (D k)). pose proof (Rabs_pos (D (k + 1)%Z)). rewrite Rtolb_negl by lra. rewrite Rabs_Rabsolu. tauto.
Qed.
Lemma negl_R_false (D E : Z -> R) k : negl (O := OT) D E k = false -> E k <> 0%R.
Proof.
  intros H K. assert (T : negl (O := OT) D E k = true). { apply negl_R. rewrite K, Rabs_R0. pose proof (Rabs_pos (D k)). pose proof (Rabs_pos (D (k + 1)%Z)). nra. }
  congruence.
Qed.

Lemma stg_start j m D E : m < n -> j < m -> meq n n (stg j m (m - 1) D E 1 1 0 0) (trid D (fun k => if k =? m then 0%R else Ev j E k)).
Proof.
  intros Hm Hj a b Ha Hb. unfold stg, trid. destruct (Z_le_gt_dec a b); [rewrite Z.min_l, Z.max_r by lia|rewrite Z.min_r, Z.max_l by lia]; zbq; subst; try lra;
  replace (m - 1) with (m - 1) by lia; try (match goal with H : ?x = m - 1 |- _ => rewrite H end); try lra.
Qed.
Lemma stg_q j m D E s q u q2 : meq n n (stg j m (m - 1) D E s 1 q u) (stg j m (m - 1) D E 1 1 q2 u).
Proof. intros a b Ha Hb. unfold stg. replace (m - 1 + 1 =? m) with true by (symmetry; apply Z.eqb_eq; lia). cbn [negb]. rewrite !andb_false_r. auto. Qed.
Lemma stg_end j m D E s c q u : j < m -> meq n n (stg j m (j - 1) D E s c q u) (trid (vset (O := OT) D j (D j - u)%R) (Ev j (vset (O := OT) (vset (O := OT) E j q) m 0%R))).
Proof.
  intros Hj a b Ha Hb. unfold stg, trid. assert (E0 : Ev j E (j - 1) = 0%R) by (unfold Ev; zbq; auto). rewrite E0.
  destruct (Z_le_gt_dec a b); [rewrite Z.min_l, Z.max_r by lia|rewrite Z.min_r, Z.max_l by lia]; unfold vset, Ev; zbq; subst; try lra;
  try (replace (j - 1 + 1) with j by lia; lra).
Qed.

Lemma ed_turn_R kap j its d e z D E Zf : (0 <= kap)%R -> VTab (O := OT) d n D -> VTab (O := OT) e n E -> RTab (O := OT) z n n Zf -> 0 <= j < n -> 0 <= its <= 30 ->
  nearT kap Zf (trid D (Ev j E)) ->
  wpe (ed_turn (O := OT) n j its (d, e, z)) (fun bs => exists D' E' Z', VTab (O := OT) (fst (fst (snd bs))) n D' /\ VTab (O := OT) (snd (fst (snd bs))) n E' /\ RTab (O := OT) (snd (snd bs)) n n Z' /\
    nearT (kap * (1 + 4 * tol)) Z' (trid D' (Ev (if fst bs then j + 1 else j) E')) /\ (its = 30 -> fst bs = true)) (fun x => x = EMaxIter).
Proof.
  intros Hk Hd He Hz Hj Hits HN. unfold ed_turn. apply wpe_bind_wp.
  eapply wp_conseq; [apply (ed_find_ok n j d e D E Hd He Hj)|]. intros m (Hm & Hm1 & Hm2).
  destruct (Z.eqb_spec m j) as [->|Hmj].
  { apply wpe_ok. cbn [fst snd]. exists D, E, Zf. repeat (split; [assumption|]). split; auto.
    destruct (Z.eq_dec j (n - 1)) as [Ej|Ej].
    - apply (nearT_ext (kap * (1 + 4 * tol)) Zf (trid D (Ev j E))).
      + apply (nearT_perturb kap Zf (trid D (Ev j E))); auto; [|lra]. rewrite (nF_ext n _ (fun _ _ => 0%R)) by (intros a b _ _; unfold msub; ring). rewrite nF_zero. pose proof (nF_nonneg n (trid D (Ev j E))). nra.
      + apply HN.
      + apply conj_ext; [apply meq_refl|]. intros a b Ha Hb. unfold trid, Ev. zbq; auto.
    - pose proof (drop kap Zf D (Ev j E) j Hk HN ltac:(lia)) as Dr. eapply nearT_ext; [apply Dr| |].
      + unfold Ev at 1. rewrite Z.ltb_irrefl. apply negl_R. apply Hm1. lia.
      + apply HN.
      + apply conj_ext; [apply meq_refl|]. intros a b Ha Hb. unfold trid, Ev. zbq; auto. }
  destruct (Z.eqb_spec its 30). { apply wpe_err. auto. }
  (* the negligible secondary value is dropped *)
  assert (N1 : nearT (kap * (1 + 4 * tol)) Zf (trid D (fun k => if k =? m then 0%R else Ev j E k))).
  { destruct (Z.eq_dec m (n - 1)) as [Em|Em].
    - apply (nearT_ext (kap * (1 + 4 * tol)) Zf (trid D (Ev j E))).
      + apply (nearT_perturb kap Zf (trid D (Ev j E))); auto; [|lra]. rewrite (nF_ext n _ (fun _ _ => 0%R)) by (intros a b _ _; unfold msub; ring). rewrite nF_zero. pose proof (nF_nonneg n (trid D (Ev j E))). nra.
      + apply HN.
      + apply conj_ext; [apply meq_refl|]. intros a b Ha Hb. unfold trid, Ev. zbq; auto.
    - apply drop; auto; [lia|]. unfold Ev. replace (m <? j) with false by (symmetry; apply Z.ltb_ge; lia). apply negl_R. apply Hm1. lia. }
  repeat vget. apply wpe_bind_wp.
  match goal with |- wp (for_brk 0 _ _ (_, _, _, ?qq, _, _, _, ?tt)) _ => generalize qq; intros q0; generalize tt; intros t0 end.
  apply (wp_for_brk (fun k (st : list (@F OT) * list (@F OT) * list (list (@F OT)) * @F OT * @F OT * @F OT * @F OT * @F OT) => let '(d, e, z, q, u, s, c, t) := st in exists D' E' Z', VTab (O := OT) d n D' /\ VTab (O := OT) e n E' /\ RTab (O := OT) z n n Z' /\
      nearT (kap * (1 + 4 * tol)) Z' (stg j m (m - 1 - k) D' E' s c q u) /\ s <> 0%R /\ (forall i, j <= i <= m - 1 - k -> E' i = E i)) (fun _ => False)); [lia| | | |tauto].
  - exists D, E, Zf. repeat (split; [assumption|]). split; [|split; [exact R1_neq_R0|auto]].
    eapply nearT_ext; [exact N1|apply HN|]. apply conj_ext; [apply meq_refl|]. rewrite Z.sub_0_r.
    eapply meq_trans; [apply (stg_q j m D E 1 q0 0 0)|]. apply stg_start; lia.
  - intros k [[[[[[[d1 e1] z1] q] u] s] c] t] Hk1 (D1 & E1 & Z1 & Hd1 & He1 & Hz1 & N & Hs & HE).
    eapply wp_conseq; [apply (ed_rot_ok n m k d1 e1 z1 q u s c t D1 E1 Z1 Hd1 He1 Hz1); lia|].
    intros [b [[[[[[[d2 e2] z2] q2] u2] s2] c2] t2]]. cbv beta zeta. intros (Es & Ec & Eb & K).
    set (i := m - 1 - k) in *. change (@fmul OT) with Rmult in *. change (@F OT) with R in *.
    assert (Hp : (s * E1 i <> 0)%R). { rewrite HE by lia. apply Rmult_integral_contrapositive_currified; auto. apply (negl_R_false D E). apply Hm2. unfold i; lia. }
    destruct (rr_R tol _ q Hp) as (R1 & R2 & R3 & R4 & R5). rewrite <- Es, <- Ec in R1, R2, R3. rewrite <- Es in R4.
    assert (Eb' : b = false). { rewrite Eb. change (@feq OT) with (Rtolb tol). change (@fzero OT) with 0%R. rewrite Rtolb_zero. apply Reqb_false. exact R5. }
    clear Es Ec. rewrite Eb' in *. cbn [fst snd]. destruct K as (Et & Eu & Eq & Hd2 & He2 & Hz2).
    assert (L2 : @flit OT 2 = 2%R). { change (@flit OT) with Q2R. unfold Q2R. cbn. lra. }
    rewrite L2 in Et. change (@fsub OT) with Rminus in *. change (@fadd OT) with Rplus in *.
    exists (vset (O := OT) D1 (i + 1) ((D1 (i + 1)%Z - u) + u2)%R), (vset (O := OT) E1 (i + 1) (rr (O := OT) (s * E1 i)%R q)), (rotz (O := OT) s2 c2 i Z1).
    split; [exact Hd2|]. split; [exact He2|]. split; [exact Hz2|]. split; [|split; [exact R4|]].
    + eapply nearT_ext; [exact N| |].
      * apply (rotc_orth n s2 c2 i Z1); [unfold i; lia|unfold i; lia|exact R1|apply N].
      * eapply meq_trans; [|apply (conj_rot n s2 c2 i Z1 (stg j m i D1 E1 s c q u)); [unfold i; lia|unfold i; lia|exact R1]].
        apply conj_ext; [apply meq_refl|]. intros a b' Ha Hb'.
        rewrite (stg_step j m i D1 E1 s c q u s2 c2 _ ltac:(unfold i; lia) ltac:(unfold i; lia) R1 R2 R3 a b'). replace (m - 1 - (k + 1)) with (i - 1) by (unfold i; lia).
        rewrite Eq, Eu, Et. reflexivity.
    + intros r Hr. unfold vset. zbq. apply HE. unfold i in *. lia.
  - intros [[[[[[[d1 e1] z1] q] u] s] c] t] (D1 & E1 & Z1 & Hd1 & He1 & Hz1 & N & Hs & HE). rewrite andb_false_r. vget.
    destruct (VTab_set (O := OT) d1 n D1 j (D1 j - u)%R Hd1 ltac:(lia)) as (d2 & Ed2 & Hd2).
    destruct (VTab_set (O := OT) e1 n E1 j q He1 ltac:(lia)) as (e2 & Ee2 & He2).
    destruct (VTab_set (O := OT) e2 n _ m 0%R He2 ltac:(lia)) as (e3 & Ee3 & He3).
    match goal with |- wpe (bind ?a _) _ _ => replace a with (Ok d2) by (symmetry; exact Ed2) end. cbn [bind].
    match goal with |- wpe (bind ?a _) _ _ => replace a with (Ok e2) by (symmetry; exact Ee2) end. cbn [bind].
    match goal with |- wpe (bind ?a _) _ _ => replace a with (Ok e3) by (symmetry; exact Ee3) end. cbn [bind]. apply wpe_ok.
    cbn [fst snd]. exists (vset (O := OT) D1 j (D1 j - u)%R), (vset (O := OT) (vset (O := OT) E1 j q) m 0%R), Z1. split; [exact Hd2|]. split; [exact He3|]. split; [exact Hz1|]. split; [|intros; lia].
    eapply nearT_ext; [exact N|apply N|]. apply conj_ext; [apply meq_refl|]. apply meq_sym. replace (m - 1 - (m - j)) with (j - 1) by lia. apply stg_end. lia.
Qed.

Lemma ed_ql_R kap d e z D E Zf : (0 <= kap)%R -> VTab (O := OT) d n D -> VTab (O := OT) e n E -> RTab (O := OT) z n n Zf -> 0 <= n -> nearT kap Zf (trid D E) ->
  wpe (ed_ql (O := OT) n (d, e, z)) (fun st => exists D' E' Z', VTab (O := OT) (fst (fst st)) n D' /\ VTab (O := OT) (snd (fst st)) n E' /\ RTab (O := OT) (snd st) n n Z' /\
    nearT (kap * (1 + 4 * tol) ^ Z.to_nat (31 * n)) Z' (fun a b => if a =? b then D' a else 0%R)) (fun x => x = EMaxIter).
Proof.
  intros Hk Hd He Hz Hn HN. unfold ed_ql.
  set (P := fun t (j : Z) (st : list (@F OT) * list (@F OT) * list (list (@F OT))) => exists D' E' Z', VTab (O := OT) (fst (fst st)) n D' /\ VTab (O := OT) (snd (fst st)) n E' /\ RTab (O := OT) (snd st) n n Z' /\
    nearT (kap * (1 + 4 * tol) ^ Z.to_nat t) Z' (trid D' (Ev j E'))).
  assert (Pk : forall t, (0 <= kap * (1 + 4 * tol) ^ t)%R) by (intros t; apply Rmult_le_pos; auto; apply pow_le; lra).
  assert (Pup : forall t t' j st, 0 <= t <= t' -> P t j st -> P t' j st).
  { intros t t' j st Ht (D1 & E1 & Z1 & H1 & H2 & H3 & [H4 H5]). exists D1, E1, Z1. repeat (split; [assumption|]). eapply Rle_trans; [exact H5|].
    apply Rmult_le_compat_l; [apply nF_nonneg|]. apply Rmult_le_compat_l; auto. apply Rle_pow; [lra|]. lia. }
  apply (wpe_for (fun j st => P (31 * j) j st)); auto.
  - exists D, E, Zf. repeat (split; [assumption|]). cbn [Z.to_nat Z.mul pow]. rewrite Rmult_1_r. eapply nearT_ext; [exact HN|apply HN|]. apply conj_ext; [apply meq_refl|].
    intros a b Ha Hb. unfold trid, Ev. zbq; auto.
  - intros j st Hj HP. apply wpe_bind.
    apply (wpe_for_brk (fun its st => its <= 30 /\ P (31 * j + its) j st) (fun st => P (31 * (j + 1)) (j + 1) st)); [lia|split; [lia|rewrite Z.add_0_r; auto]| | |].
    + intros its [[d1 e1] z1] Hits [Hle (D1 & E1 & Z1 & Hd1 & He1 & Hz1 & N1)]. cbn [fst snd] in *.
      eapply wpe_conseq; [apply (ed_turn_R _ j its d1 e1 z1 D1 E1 Z1 (Pk _) Hd1 He1 Hz1 Hj ltac:(lia) N1)| |auto].
      intros [b [[d2 e2] z2]] (D2 & E2 & Z2 & Hd2 & He2 & Hz2 & N2 & Hb). cbn [fst snd] in *.
      assert (Ep : (kap * (1 + 4 * tol) ^ Z.to_nat (31 * j + its) * (1 + 4 * tol) = kap * (1 + 4 * tol) ^ Z.to_nat (31 * j + its + 1))%R).
      { replace (Z.to_nat (31 * j + its + 1)) with (S (Z.to_nat (31 * j + its))) by lia. cbn [pow]. ring. }
      rewrite Ep in N2. destruct b.
      * apply (Pup (31 * j + its + 1)); [lia|]. exists D2, E2, Z2. auto.
      * split; [destruct (Z.eq_dec its 30) as [Ei|]; [discriminate (Hb Ei)|lia]|]. rewrite Z.add_assoc. exists D2, E2, Z2. auto.
    + intros st2 [Hle _]. lia.
    + intros st2 H2. apply wpe_ok. auto.
  - intros st (D1 & E1 & Z1 & Hd1 & He1 & Hz1 & N1). exists D1, E1, Z1. repeat (split; [assumption|]).
    eapply nearT_ext; [exact N1|apply N1|]. apply conj_ext; [apply meq_refl|]. apply meq_sym, trid_diag. intros k Hk'. unfold Ev. zbq; auto.
Qed.
End QL.

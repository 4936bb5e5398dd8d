(** The Schur transform in exact arithmetic: similarity up to an error, the
    Householder reflections of the double step. *)
From Coq Require Import ZArith List Lia Bool Reals Lra.
From Verif Require Import Base BaseLemmas Scalar Vector Matrix TabTac FSum RealOps RSum House Frob CholFacts Schur SchurFacts SchurFacts2.
Open Scope Z_scope.

Ltac rops := change (@fadd ROps) with Rplus in *; change (@fsub ROps) with Rminus in *; change (@fmul ROps) with Rmult in *; change (@fdiv ROps) with Rdiv in *;
  change (@fabs ROps) with Rabs in *; change (@fneg ROps) with Ropp in *; change (@fsqrt ROps) with sqrt in *; change (@fzero ROps) with 0%R in *; change (@fone ROps) with 1%R in *;
  change (@flt ROps) with Rltb in *; change (@fle ROps) with Rleb in *; change (@feq ROps) with Reqb in *; change (@F ROps) with R in *.

(** ** A is G B G^T up to e *)
Definition sim (n : Z) (G A B : Z -> Z -> R) (e : R) : Prop := orthogonal n G /\ (nF n (msub A (conj n G B)) <= e)%R.
Lemma meq_msub n A A' B B' : meq n n A A' -> meq n n B B' -> meq n n (msub A B) (msub A' B').
Proof. intros H K i j Hi Hj. unfold msub. rewrite H, K by auto. auto. Qed.
Lemma meq_madd n A A' B B' : meq n n A A' -> meq n n B B' -> meq n n (madd A B) (madd A' B').
Proof. intros H K i j Hi Hj. unfold madd. rewrite H, K by auto. auto. Qed.
Lemma conj_mmul n G H M : meq n n (conj n (mmul n G H) M) (conj n G (conj n H M)).
Proof.
  intros i j Hi Hj. unfold conj. rewrite (mmul_ext n _ (mmul n (mmul n G H) M) _ (mmul n (trm H) (trm G))) by (auto; intros; apply trm_mmul).
  rewrite <- mmul_assoc. apply mmul_ext; auto. intros k Hk. rewrite mmul_assoc. rewrite mmul_assoc.
  rewrite (mmul_ext n G G _ (mmul n (mmul n H M) (trm H))); auto. intros l Hl. rewrite mmul_assoc. auto.
Qed.
Lemma conj_id n M : meq n n (conj n idm M) M.
Proof.
  intros i j Hi Hj. unfold conj. rewrite (mmul_ext n _ M _ idm); [apply mmul_1_r; auto| |].
  - intros. apply mmul_1_l; auto.
  - intros. apply trm_idm.
Qed.
Lemma conj_add n Q A B : meq n n (conj n Q (madd A B)) (madd (conj n Q A) (conj n Q B)).
Proof.
  intros i j Hi Hj. unfold conj, madd, mmul. rewrite <- Rs_plus. apply Rs_ext. intros k Hk.
  rewrite <- Rmult_plus_distr_r. f_equal. rewrite <- Rs_plus. apply Rs_ext. intros. ring.
Qed.
Lemma nF_le_sum n A B e : (nF n (msub A B) <= e -> nF n B <= nF n A + e)%R.
Proof. intros H. pose proof (nF_le n A B). lra. Qed.
Lemma sim_ext n G G' A A' B B' e e' : sim n G A B e -> meq n n G G' -> meq n n A A' -> meq n n B B' -> (e <= e')%R -> sim n G' A' B' e'.
Proof.
  intros [H1 H2] HG HA HB He. split; [eapply orth_ext; eauto|]. rewrite <- (nF_ext n (msub A (conj n G B))); [lra|]. apply meq_msub; auto. apply conj_ext; auto.
Qed.
Lemma sim_trans n G H A B C e e' : sim n G A B e -> sim n H B C e' -> sim n (mmul n G H) A C (e + e').
Proof.
  intros [H1 H2] [H3 H4]. split; [apply orth_mmul; auto|]. pose proof (nF_sub_tri n A (conj n G B) (conj n (mmul n G H) C)) as K.
  rewrite (nF_ext n (msub (conj n G B) _) (msub (conj n G B) (conj n G (conj n H C)))) in K by (apply meq_msub; [apply meq_refl|apply conj_mmul]).
  rewrite nF_conj_sub in K by auto. lra.
Qed.
Lemma sim_id n A B e : (nF n (msub A B) <= e)%R -> sim n idm A B e.
Proof. intros H. split; [apply orth_id|]. rewrite (nF_ext n _ (msub A B)); auto. apply meq_msub; [apply meq_refl|apply conj_id]. Qed.
Lemma sim_refl n A : sim n idm A A 0.
Proof. apply sim_id. rewrite (nF_ext n _ (fun _ _ => 0%R)); [rewrite nF_zero; lra|]. intros i j _ _. unfold msub. ring. Qed.
(** a symmetric orthogonal G: it is enough to compare G A G with B *)
Lemma sim_sym n G A B e : orthogonal n G -> (forall i j, G i j = G j i) -> (nF n (msub (mmul n (mmul n G A) G) B) <= e)%R -> sim n G A B e.
Proof.
  intros HG Hs H. split; auto. assert (ET : forall M, meq n n (conj n G M) (mmul n (mmul n G M) G)).
  { intros M i j Hi Hj. unfold conj. apply mmul_ext; auto. intros. unfold trm. apply Hs. }
  rewrite <- (nF_conj n G (msub A (conj n G B))) by auto. rewrite (nF_ext n _ (msub (conj n G A) (conj n G (conj n G B)))) by apply conj_sub.
  rewrite (nF_ext n _ (msub (mmul n (mmul n G A) G) B)); auto. apply meq_msub; [apply ET|].
  eapply meq_trans; [apply meq_sym, conj_mmul|]. eapply meq_trans; [|apply conj_id]. apply conj_ext; [|apply meq_refl].
  intros i j Hi Hj. destruct HG as [H1 _]. rewrite <- (H1 i j Hi Hj). apply mmul_ext; auto; intros; unfold trm; apply Hs.
Qed.
(** Diagonal shifts *)
Definition dg (m : Z) (e : R) (i j : Z) : R := if (i =? j) && (i <=? m) then e else 0%R.
Definition fixes (n : Z) (G : Z -> Z -> R) (m : Z) : Prop := forall e, meq n n (conj n G (dg m e)) (dg m e).
Lemma sim_dg n G A B e m s : sim n G A B e -> fixes n G m -> sim n G (madd A (dg m s)) (madd B (dg m s)) e.
Proof.
  intros [H1 H2] Hf. split; auto. rewrite (nF_ext n _ (msub A (conj n G B))); auto.
  eapply meq_trans; [apply meq_msub; [apply meq_refl|eapply meq_trans; [apply conj_add|apply meq_madd; [apply meq_refl|apply Hf]]]|].
  intros i j _ _. unfold msub, madd. ring.
Qed.
Lemma fixes_id n m : fixes n idm m.
Proof. intros e. apply conj_id. Qed.
Lemma fixes_mmul n G H m : fixes n G m -> fixes n H m -> fixes n (mmul n G H) m.
Proof. intros H1 H2 e. eapply meq_trans; [apply conj_mmul|]. eapply meq_trans; [apply conj_ext; [apply meq_refl|apply H2]|]. apply H1. Qed.
Lemma fixes_ext n G G' m : fixes n G m -> meq n n G G' -> fixes n G' m.
Proof. intros H1 H2 e. eapply meq_trans; [|apply H1]. apply conj_ext; [apply meq_sym; auto|apply meq_refl]. Qed.
Lemma refl_fixes n v c m : Rs 0 n (fun r => v r * v r)%R = (-2 * c)%R -> (forall i, m < i -> v i = 0%R) -> fixes n (refl v c) m.
Proof.
  intros Hv H e. pose proof (refl_orth n v c Hv) as Ho. intros i j Hi Hj.
  assert (E : meq n n (mmul n (refl v c) (dg m e)) (mmul n (dg m e) (refl v c))).
  { intros a b Ha Hb. rewrite refl_l, refl_r by auto. unfold dg at 1 3. f_equal.
    rewrite (Rs_pick 0 n b) by (auto; intros q Hq Hne; unfold dg; apply Z.eqb_neq in Hne; rewrite Hne; cbn [andb]; ring).
    rewrite (Rs_pick 0 n a) by (auto; intros q Hq Hne; unfold dg; replace (a =? q) with false by (symmetry; apply Z.eqb_neq; lia); cbn [andb]; ring).
    unfold dg. rewrite !Z.eqb_refl. cbn [andb]. destruct (Z.leb_spec b m), (Z.leb_spec a m); try (unfold Rdiv; ring); [rewrite (H a) by lia|rewrite (H b) by lia]; unfold Rdiv; ring. }
  unfold conj. rewrite (mmul_ext n _ (mmul n (dg m e) (refl v c)) _ (trm (refl v c))) by (auto; intros; apply E; auto).
  rewrite mmul_assoc. rewrite (mmul_ext n _ (dg m e) _ idm); [apply mmul_1_r; auto|auto|]. intros k Hk. destruct Ho as [_ H2]. apply H2; auto.
Qed.
Lemma nF_col n j0 A : 0 <= j0 < n -> (forall i j, 0 <= i < n -> 0 <= j < n -> j <> j0 -> A i j = 0%R) -> (nF n A <= Rs 0 n (fun i => Rabs (A i j0)))%R.
Proof.
  intros Hj H. eapply Rle_trans; [apply nF_l1|]. apply Req_le. apply Rs_ext. intros i Hi.
  apply (Rs_pick 0 n j0 (fun j => Rabs (A i j))); auto. intros j Hj' Hne. rewrite H by auto. apply Rabs_R0.
Qed.
Lemma nF_row n i0 A : 0 <= i0 < n -> (forall i j, 0 <= i < n -> 0 <= j < n -> i <> i0 -> A i j = 0%R) -> (nF n A <= Rs 0 n (fun j => Rabs (A i0 j)))%R.
Proof. intros Hi H. rewrite <- nF_tr. apply (nF_col n i0 (trm A)); auto. unfold trm. auto. Qed.
Lemma nF_0 n A : (forall i j, 0 <= i < n -> 0 <= j < n -> A i j = 0%R) -> nF n A = 0%R.
Proof. intros H. rewrite (nF_ext n A (fun _ _ => 0%R)) by (intros i j Hi Hj; auto). apply nF_zero. Qed.

(** ** The reflection of one chase *)
Definition vv (k : Z) (nl : bool) (q r : R) (i : Z) : R := if i =? k then 1%R else if i =? k + 1 then q else if nl && (i =? k + 2) then r else 0%R.
Definition vsum (k : Z) (nl : bool) (g : Z -> R) : R := if nl then (g k + g (k + 1)%Z + g (k + 2)%Z)%R else (g k + g (k + 1)%Z)%R.
Lemma Rs_vsum n k (nl : bool) g : 0 <= k -> k + (if nl then 2 else 1) < n -> (forall i, 0 <= i < n -> i <> k -> i <> k + 1 -> (nl = true -> i <> k + 2) -> g i = 0%R) ->
  Rs 0 n g = vsum k nl g.
Proof.
  intros Hk Hn H. unfold vsum. destruct nl.
  - rewrite (Rs_split 0 (k + 2) n) by lia. rewrite (Rs_first (k + 2) n) by lia. rewrite (Rs_zero (k + 2 + 1) n) by (intros; apply H; lia).
    rewrite (Rs_pick2 0 (k + 2) k (k + 1)) by (try lia; intros; apply H; lia). ring.
  - apply Rs_pick2; try lia. intros. apply H; lia.
Qed.
Ltac zb0 := repeat match goal with
  | |- context [?a =? ?b] => destruct (Z.eqb_spec a b); try (exfalso; lia)
  | |- context [?a <? ?b] => destruct (Z.ltb_spec a b); try (exfalso; lia)
  | |- context [?a <=? ?b] => destruct (Z.leb_spec a b); try (exfalso; lia) end.
Lemma vv_0 k nl q r i : i <> k -> i <> k + 1 -> (nl = true -> i <> k + 2) -> vv k nl q r i = 0%R.
Proof. intros. unfold vv. destruct nl; cbn [andb]; zb0; auto. Qed.
Lemma vv_k k nl q r : vv k nl q r k = 1%R. Proof. unfold vv. rewrite Z.eqb_refl. auto. Qed.
Lemma vv_k1 k nl q r : vv k nl q r (k + 1) = q. Proof. unfold vv. zb0. auto. Qed.
Lemma vv_k2 k q r : vv k true q r (k + 2) = r. Proof. unfold vv. cbn [andb]. zb0. auto. Qed.

Section House3.
Variables (n k : Z) (nl : bool) (p q r : R).
Hypothesis Hk : 0 <= k.
Hypothesis Hn : k + (if nl then 2 else 1) < n.
Hypothesis Hr : nl = false -> r = 0%R.
Let s := sgnroot (O := ROps) p q r.
Hypothesis Hs : s <> 0%R.
Let p1 := (p + s)%R.
Lemma s_sq : (s * s = p * p + q * q + r * r)%R.
Proof.
  unfold s, sgnroot. rops. assert (K : (sqrt (p * p + q * q + r * r) * sqrt (p * p + q * q + r * r) = p * p + q * q + r * r)%R).
  { apply sqrt_sqrt. pose proof (Rle_0_sqr p). pose proof (Rle_0_sqr q). pose proof (Rle_0_sqr r). unfold Rsqr in *. lra. }
  destruct (Rltb p 0); lra.
Qed.
Lemma ps_nonneg : (0 <= p * s)%R.
Proof.
  unfold s, sgnroot. rops. pose proof (sqrt_pos (p * p + q * q + r * r)). destruct (Rltb p 0) eqn:E.
  - apply Rltb_true in E. replace (p * - sqrt (p * p + q * q + r * r))%R with ((- p) * sqrt (p * p + q * q + r * r))%R by ring. apply Rmult_le_pos; lra.
  - apply Rltb_false in E. apply Rmult_le_pos; lra.
Qed.
Lemma p1s_pos : (0 < p1 * s)%R.
Proof. unfold p1. pose proof ps_nonneg. assert (0 < s * s)%R by (apply Rsqr_pos_lt in Hs; exact Hs). lra. Qed.
Lemma p1_nz : p1 <> 0%R.
Proof. intros E. pose proof p1s_pos. rewrite E in *. lra. Qed.
Lemma p1_sq : (p1 * p1 + q * q + r * r = 2 * s * p1)%R.
Proof. pose proof s_sq. unfold p1. lra. Qed.
Lemma abs_s_p : (Rabs p <= Rabs s)%R.
Proof. apply Rsqr_le_abs_0. unfold Rsqr. pose proof s_sq. pose proof (Rle_0_sqr q). pose proof (Rle_0_sqr r). unfold Rsqr in *. lra. Qed.
Lemma abs_s_q : (Rabs q <= Rabs s)%R.
Proof. apply Rsqr_le_abs_0. unfold Rsqr. pose proof s_sq. pose proof (Rle_0_sqr p). pose proof (Rle_0_sqr r). unfold Rsqr in *. lra. Qed.
Lemma abs_s_r : (Rabs r <= Rabs s)%R.
Proof. apply Rsqr_le_abs_0. unfold Rsqr. pose proof s_sq. pose proof (Rle_0_sqr q). pose proof (Rle_0_sqr p). unfold Rsqr in *. lra. Qed.
Lemma abs_p1_s : (Rabs s <= Rabs p1)%R.
Proof. apply Rsqr_le_abs_0. unfold Rsqr, p1. pose proof ps_nonneg. pose proof (Rle_0_sqr p). unfold Rsqr in *. lra. Qed.
Lemma s_le_sum : (Rabs s <= Rabs p + Rabs q + Rabs r)%R.
Proof.
  pose proof (Rabs_pos p). pose proof (Rabs_pos q). pose proof (Rabs_pos r).
  rewrite <- (Rabs_right (Rabs p + Rabs q + Rabs r)) by lra. apply Rsqr_le_abs_0. unfold Rsqr. rewrite s_sq.
  assert (A : forall t, (t * t = Rabs t * Rabs t)%R) by (intros t; rewrite <- Rabs_mult, Rabs_right; auto; apply Rle_ge, Rle_0_sqr).
  rewrite (A p), (A q), (A r). assert (0 <= Rabs p * Rabs q)%R by (apply Rmult_le_pos; auto). assert (0 <= Rabs p * Rabs r)%R by (apply Rmult_le_pos; auto). assert (0 <= Rabs q * Rabs r)%R by (apply Rmult_le_pos; auto). lra.
Qed.
Lemma div_le1 a b : b <> 0%R -> (Rabs a <= Rabs b -> Rabs (a / b) <= 1)%R.
Proof.
  intros Hb H. unfold Rdiv. rewrite Rabs_mult, Rabs_inv. pose proof (Rabs_pos_lt b Hb). apply (Rmult_le_reg_r (Rabs b)); auto. rewrite Rmult_assoc, Rinv_l by lra. lra.
Qed.
Definition hv : Z -> R := vv k nl (q / p1) (r / p1).
Definition hG : Z -> Z -> R := refl hv (- s / p1).
Lemma hv_sq : Rs 0 n (fun i => hv i * hv i)%R = (-2 * (- s / p1))%R.
Proof.
  rewrite (Rs_vsum n k nl) by (auto; intros; unfold hv; rewrite vv_0 by auto; ring). unfold vsum, hv. rewrite vv_k, vv_k1. pose proof p1_nz as Hp. pose proof p1_sq as E.
  replace (-2 * (- s / p1))%R with ((2 * s * p1) / (p1 * p1))%R by (field; auto). rewrite <- E. destruct nl; [rewrite vv_k2; field; auto|rewrite (Hr eq_refl); field; auto].
Qed.
Lemma hG_orth : orthogonal n hG. Proof. apply refl_orth, hv_sq. Qed.
Lemma hG_sym i j : hG i j = hG j i. Proof. apply refl_sym. Qed.
Lemma hG_fixes m : k + (if nl then 2 else 1) <= m -> fixes n hG m.
Proof. intros Hm. apply refl_fixes; [apply hv_sq|]. intros i Hi. apply vv_0; destruct nl; try lia; intros; lia. Qed.
Lemma hG_r A i j : 0 <= j < n -> mmul n A hG i j = (A i j - (p1 / s) * vsum k nl (fun t => A i t * hv t) * hv j)%R.
Proof.
  intros Hj. unfold hG. rewrite refl_r by auto. rewrite (Rs_vsum n k nl) by (auto; intros; unfold hv; rewrite vv_0 by auto; ring). field. split; [exact Hs|apply p1_nz].
Qed.
Lemma hG_l A i j : 0 <= i < n -> mmul n hG A i j = (A i j - (p1 / s) * vsum k nl (fun t => hv t * A t j) * hv i)%R.
Proof.
  intros Hi. unfold hG. rewrite refl_l by auto. rewrite (Rs_vsum n k nl) by (auto; intros; unfold hv; rewrite vv_0 by auto; ring). field. split; [exact Hs|apply p1_nz].
Qed.
(** the passes of the code *)
Lemma cols_G hi A i j : 0 <= j < n -> colsF (O := ROps) hi k nl (q / p1)%R (r / p1)%R (p1 / s)%R (q / s)%R (r / s)%R A i j = if hi <=? i then A i j else mmul n A hG i j.
Proof.
  intros Hj. unfold colsF, csum. rops. destruct (hi <=? i); auto. rewrite hG_r by auto. unfold vsum, hv. rewrite vv_k, vv_k1.
  assert (E : (q / s = p1 / s * (q / p1))%R) by (field; split; (exact Hs || apply p1_nz)). assert (E2 : (r / s = p1 / s * (r / p1))%R) by (field; split; (exact Hs || apply p1_nz)). rewrite E, E2.
  destruct (Z.eqb_spec j k) as [->|]; [rewrite vv_k; destruct nl; try rewrite vv_k2; ring|]. destruct (Z.eqb_spec j (k + 1)) as [->|]; [rewrite vv_k1; destruct nl; try rewrite vv_k2; ring|].
  destruct nl; cbn [andb]; [|rewrite vv_0 by (auto; discriminate); ring]. destruct (Z.eqb_spec j (k + 2)) as [->|]; [rewrite !vv_k2; ring|]. rewrite (vv_0 k true _ _ j) by auto. ring.
Qed.
Lemma rows_G A i j : 0 <= i < n -> rowsF (O := ROps) k nl (q / p1)%R (r / p1)%R (p1 / s)%R (q / s)%R (r / s)%R A i j = if j <? k then A i j else mmul n hG A i j.
Proof.
  intros Hi. unfold rowsF, rsum. rops. destruct (j <? k); auto. rewrite hG_l by auto. unfold vsum, hv. rewrite vv_k, vv_k1.
  assert (E : (q / s = p1 / s * (q / p1))%R) by (field; split; (exact Hs || apply p1_nz)). assert (E2 : (r / s = p1 / s * (r / p1))%R) by (field; split; (exact Hs || apply p1_nz)). rewrite E, E2.
  destruct (Z.eqb_spec i k) as [->|]; [rewrite vv_k; destruct nl; try rewrite vv_k2; ring|]. destruct (Z.eqb_spec i (k + 1)) as [->|]; [rewrite vv_k1; destruct nl; try rewrite vv_k2; ring|].
  destruct nl; cbn [andb]; [|rewrite vv_0 by (auto; discriminate); ring]. destruct (Z.eqb_spec i (k + 2)) as [->|]; [rewrite !vv_k2; ring|]. rewrite (vv_0 k true _ _ i) by auto. ring.
Qed.
End House3.

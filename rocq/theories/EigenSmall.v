(** The iteration always ends with a result on matrices of dimension 1 and 2,
    over the real numbers. *)
From Coq Require Import ZArith QArith Qreals List Lia Bool Reals Lra Psatz.
From Verif Require Import Base BaseLemmas Wpe Scalar Vector VecSpec VectorFacts Matrix MatSpec MatFacts Array2D Array2DFacts MatrixOps RealMatrixM TabTac FSum CholFacts QRFacts Tridiag TridiagFacts TridiagReal Schur Eigen EigenSpec EigenFacts EigenFacts2 RealOps RSum Tri House Frob RTol EigenSort EigenReal EigenReal2.
Import ListNotations.
Open Scope Z_scope.

Section Small.
Variable tol : R.
Hypothesis Htol : (0 <= tol)%R.
Local Notation OT := (RTolOps tol).

Lemma shift_eig (x y w : R) : w <> 0%R -> let q := ((x - y) / (2 * w))%R in let t := sqrt (1 + q * q)%R in
  let g := (if Rltb q 0 then x - y + w / (q - t) else x - y + w / (q + t))%R in (g * (g + y - x) = w * w)%R.
Proof.
  intros Hw. cbv zeta. set (q := ((x - y) / (2 * w))%R). set (t := sqrt (1 + q * q)).
  assert (Ht : (t * t = 1 + q * q)%R) by (apply sqrt_sqrt; nra).
  assert (Ht0 : (0 < t)%R) by (apply sqrt_lt_R0; nra).
  assert (Hq : (x - y = 2 * w * q)%R) by (unfold q; field; auto).
  destruct (Rltb q 0) eqn:E.
  - apply Rltb_true in E. set (r := (/ (q - t))%R). assert (Hr : ((q - t) * r = 1)%R) by (unfold r; field; lra).
    unfold Rdiv. fold r. replace (y) with (x - 2 * w * q)%R by lra.
    assert (K : (r * (r + 2 * q) = 1)%R). { apply (Rmult_eq_reg_l ((q - t) * (q - t))); [|nra]. transitivity (((q - t) * r) * ((q - t) * r) + 2 * q * (q - t) * ((q - t) * r))%R; [ring|]. rewrite Hr. nra. }
    transitivity (w * w * (r * (r + 2 * q)))%R; [ring|]. rewrite K. ring.
  - apply Rltb_false in E. set (r := (/ (q + t))%R). assert (Hr : ((q + t) * r = 1)%R) by (unfold r; field; lra).
    unfold Rdiv. fold r. replace (y) with (x - 2 * w * q)%R by lra.
    assert (K : (r * (r + 2 * q) = 1)%R). { apply (Rmult_eq_reg_l ((q + t) * (q + t))); [|nra]. transitivity (((q + t) * r) * ((q + t) * r) + 2 * q * (q + t) * ((q + t) * r))%R; [ring|]. rewrite Hr. nra. }
    transitivity (w * w * (r * (r + 2 * q)))%R; [ring|]. rewrite K. ring.
Qed.

Lemma ed_turn_2 n j its d e z D E Zf : VTab (O := OT) d n D -> VTab (O := OT) e n E -> RTab (O := OT) z n n Zf -> 0 <= j -> j < n <= j + 2 -> (its = 30 -> E j = 0%R) ->
  wp (ed_turn (O := OT) n j its (d, e, z)) (fun bs => exists D' E' Z', VTab (O := OT) (fst (fst (snd bs))) n D' /\ VTab (O := OT) (snd (fst (snd bs))) n E' /\ RTab (O := OT) (snd (snd bs)) n n Z' /\
    (fst bs = true \/ E' j = 0%R)).
Proof.
  intros Hd He Hz Hj Hn H30. unfold ed_turn. apply wp_bind.
  eapply wp_conseq; [apply (ed_find_ok n j d e D E Hd He); lia|]. intros m (Hm & Hm1 & Hm2).
  destruct (Z.eqb_spec m j) as [Emj|Hmj].
  { apply wp_ok. cbn [fst snd]. exists D, E, Zf. auto. }
  assert (Em : m = j + 1) by lia. assert (En : n = j + 2) by lia. clear Hm.
  assert (He0 : E j <> 0%R). { apply (negl_R_false tol Htol D E). apply Hm2. lia. }
  destruct (Z.eqb_spec its 30) as [E30|_]. { exfalso. apply He0. auto. }
  subst m. repeat vget. replace (j + 1 - j) with 1 by lia.
  rewrite for_brk_step by lia.
  assert (L2 : @flit OT 2 = 2%R). { change (@flit OT) with Q2R. unfold Q2R. cbn. lra. }
  rewrite L2. change (@fsub OT) with Rminus in *. change (@fadd OT) with Rplus in *. change (@fmul OT) with Rmult in *. change (@fdiv OT) with Rdiv in *. change (@fsqrt OT) with sqrt in *. change (@fone OT) with 1%R in *. change (@fzero OT) with 0%R in *. change (@flt OT) with Rltb. change (@F OT) with R in *.
  pose proof (shift_eig (D (j + 1)%Z) (D j) (E j) He0) as Sh. cbv zeta in Sh.
  match goal with |- context [ed_rot (O := OT) n (j + 1) 0 (d, e, z, ?qq, _, _, _, ?tt)] => set (q0 := qq) in *; set (t0 := tt) in * end.
  change (q0 * (q0 + D j - D (j + 1)%Z) = E j * E j)%R in Sh.
  assert (W := ed_rot_ok (O := OT) n (j + 1) 0 d e z q0 0%R 1%R 1%R t0 D E Zf Hd He Hz ltac:(lia) ltac:(lia) ltac:(lia)). clearbody q0 t0.
  destruct W as ([b [[[[[[[d2 e2] z2] q2] u2] s2] c2] t2]] & W & K). cbv beta zeta in K. destruct K as (Es & Ec & Eb & K).
  match goal with |- context [ed_rot (O := OT) ?x1 ?x2 ?x3 ?x4] => replace (ed_rot (O := OT) x1 x2 x3 x4) with (Ok (b, (d2, e2, z2, q2, u2, s2, c2, t2))) by (symmetry; exact W) end.
  cbn [bind]. replace (j + 1 - 1 - 0) with j in * by lia. change (@fmul OT) with Rmult in *. change (@F OT) with R in *.
  rewrite Rmult_1_l in *. destruct (rr_R tol _ q0 He0) as (R1 & R2 & R3 & R4 & R5). rewrite <- Es, <- Ec in R1, R2, R3. rewrite <- Es in R4.
  assert (Eb' : b = false). { rewrite Eb. change (@feq OT) with (Rtolb tol). change (@fzero OT) with 0%R. rewrite Rtolb_zero. apply Reqb_false. exact R5. }
  clear Es Ec. rewrite Eb' in *. destruct K as (Et & Eu & Eq & Hd2 & He2 & Hz2). cbn [bind]. rewrite for_brk_nil by lia. cbn [bind]. cbn [bind fst snd]. rewrite andb_false_r.
  pose proof (VTab_get (O := OT) d2 n _ j Hd2 ltac:(lia)) as Gd.
  match goal with |- wp (bind ?a _) _ => replace a with (Ok (vset (O := OT) D (j + 1) ((D (j + 1)%Z - 0) + u2)%R j)) by (symmetry; exact Gd) end. cbn [bind].
  destruct (VTab_set (O := OT) d2 n _ j (vset (O := OT) D (j + 1) ((D (j + 1)%Z - 0) + u2)%R j - u2)%R Hd2 ltac:(lia)) as (d3 & Ed3 & Hd3).
  destruct (VTab_set (O := OT) e2 n _ j q2 He2 ltac:(lia)) as (e3 & Ee3 & He3).
  destruct (VTab_set (O := OT) e3 n _ (j + 1) 0%R He3 ltac:(lia)) as (e4 & Ee4 & He4).
  match goal with |- wp (bind ?a _) _ => replace a with (Ok d3) by (symmetry; exact Ed3) end. cbn [bind].
  match goal with |- wp (bind ?a _) _ => replace a with (Ok e3) by (symmetry; exact Ee3) end. cbn [bind].
  match goal with |- wp (bind ?a _) _ => replace a with (Ok e4) by (symmetry; exact Ee4) end. cbn [bind]. apply wp_ok.
  do 3 eexists. split; [exact Hd3|]. split; [exact He4|]. split; [exact Hz2|]. right. cbn beta.
  replace (j =? j + 1) with false by (symmetry; apply Z.eqb_neq; lia). rewrite Z.eqb_refl.
  change (@fsub OT) with Rminus in *. change (@fadd OT) with Rplus in *. assert (L2' : @flit OT 2 = 2%R) by exact L2. rewrite L2' in Et.
  rewrite Eq, Et, Rminus_0_r.
  assert (Q : (s2 * s2 + c2 * c2 = 1)%R) by auto. set (x := D (j + 1)%Z) in *. set (y := D j) in *. set (w := E j) in *.
  (* c2 w = s2 q0, (s2, c2) along (w, q0) *)
  set (r := rr (O := OT) w q0) in *.
  assert (Hs2 : (s2 * r = w)%R) by (rewrite <- R2; transitivity (w * (s2 * s2) + c2 * (s2 * q0))%R; [ring|]; replace (s2 * q0)%R with (c2 * w)%R by lra; transitivity (w * (s2 * s2 + c2 * c2))%R; [ring|rewrite Q; ring]).
  assert (Hc2 : (c2 * r = q0)%R) by (rewrite <- R2; transitivity (s2 * (c2 * w) + q0 * (c2 * c2))%R; [ring|]; replace (c2 * w)%R with (s2 * q0)%R by lra; transitivity (q0 * (s2 * s2 + c2 * c2))%R; [ring|rewrite Q; ring]).
  apply (Rmult_eq_reg_r (r * r)); [|apply Rmult_integral_contrapositive_currified; auto]. rewrite Rmult_0_l.
  assert (Hrr : (r * r = w * w + q0 * q0)%R) by (rewrite <- Hs2, <- Hc2; transitivity ((s2 * s2 + c2 * c2) * (r * r))%R; [rewrite Q; ring|ring]).
  transitivity ((c2 * r) * ((y - x) * (s2 * r) + 2 * (c2 * r) * (1 * w)) - (1 * w) * (r * r))%R; [ring|]. rewrite Hs2, Hc2, Hrr.
  transitivity (w * (q0 * (q0 + y - x) - w * w))%R; [ring|]. rewrite Sh. ring.
Qed.
Lemma ed_ql_2 n d e z D E Zf : 0 <= n <= 2 -> VTab (O := OT) d n D -> VTab (O := OT) e n E -> RTab (O := OT) z n n Zf ->
  exists st, ed_ql (O := OT) n (d, e, z) = Ok st.
Proof.
  intros Hn Hd He Hz. unfold ed_ql.
  assert (W : wp (for_ 0 n (fun j st => let* (_, st) := for_brk 0 31 (ed_turn (O := OT) n j) st in Ok st) (d, e, z))
    (fun st => exists D' E' Z', VTab (O := OT) (fst (fst st)) n D' /\ VTab (O := OT) (snd (fst st)) n E' /\ RTab (O := OT) (snd st) n n Z')).
  2:{ destruct W as (st & Es & _). eauto. }
  apply (wp_for (fun _ st => exists D' E' Z', VTab (O := OT) (fst (fst st)) n D' /\ VTab (O := OT) (snd (fst st)) n E' /\ RTab (O := OT) (snd st) n n Z')); [lia|exists D, E, Zf; auto| |auto].
  intros j st Hj (D1 & E1 & Z1 & Hd1 & He1 & Hz1). apply wp_bind.
  apply (wp_for_brk (fun its st => exists D' E' Z', VTab (O := OT) (fst (fst st)) n D' /\ VTab (O := OT) (snd (fst st)) n E' /\ RTab (O := OT) (snd st) n n Z' /\ (its = 0 \/ E' j = 0%R))
    (fun st => exists D' E' Z', VTab (O := OT) (fst (fst st)) n D' /\ VTab (O := OT) (snd (fst st)) n E' /\ RTab (O := OT) (snd st) n n Z')); [lia|exists D1, E1, Z1; auto 10| | |].
  - intros its [[d2 e2] z2] Hits (D2 & E2 & Z2 & Hd2 & He2 & Hz2 & Hor). cbn [fst snd] in *.
    eapply wp_conseq; [apply (ed_turn_2 n j its d2 e2 z2 D2 E2 Z2 Hd2 He2 Hz2); [lia|lia|intros; destruct Hor; [lia|auto]]|].
    intros [b st2] (D3 & E3 & Z3 & Hd3 & He3 & Hz3 & Hor3). cbn [fst snd] in *. destruct b; [exists D3, E3, Z3; auto|]. exists D3, E3, Z3. repeat (split; [assumption|]). destruct Hor3; [discriminate|auto].
  - intros s (D3 & E3 & Z3 & Hd3 & He3 & Hz3 & _). apply wp_ok. exists D3, E3, Z3. auto.
  - intros s (D3 & E3 & Z3 & Hd3 & He3 & Hz3). apply wp_ok. exists D3, E3, Z3. auto.
Qed.
Lemma findEV_2 n mn sec z Mn Sc Zf : 1 <= n <= 2 -> VTab (O := OT) mn n Mn -> (forall i, 0 <= i < n - 1 -> zget sec i = Ok (Sc i)) -> RTab (O := OT) z n n Zf ->
  exists d, ed_findEigenVectors (O := OT) mn sec z = Ok d.
Proof.
  intros Hn Hm Hs Hz.
  assert (W : wpe (ed_findEigenVectors (O := OT) mn sec z) (fun _ => True) (fun _ => False)).
  { eapply wpe_conseq; [apply (ed_findEV_ok (O := OT) (fun _ => False) (fun _ _ => True) n mn sec z Mn Sc Zf); auto; try lia| |auto].
    - cbv zeta. intros d e Hd He. destruct (ed_ql_2 n d e z _ _ _ ltac:(lia) Hd He Hz) as (st & Es). rewrite Es.
      pose proof (ed_ql_total (O := OT) n (d, e, z)) as W. rewrite Es in W. unfold wpe in *.
      destruct st as [[d1 e1] z1]. destruct W as (D1 & E1 & Z1 & H1 & H2 & H3); [do 3 eexists; eauto|lia|]. exists D1, E1, Z1. auto.
    - auto. }
  destruct (ed_findEigenVectors (O := OT) mn sec z); cbn in W; try contradiction. eauto.
Qed.
Lemma new_sym_2 x n A : library (O := OT) x -> MatIs (O := OT) x n n A -> 1 <= n <= 2 ->
  (forall i j, 0 <= i < j -> j < n -> (Rabs (A i j - A j i) <= Rmax (Rabs (A i j)) (Rabs (A j i)) * (10 * IZR n * IZR n * eta))%R) ->
  exists d, NewEigenDecomposition (O := OT) x = Ok d.
Proof.
  intros Hl Hx Hn Hsym. destruct (isSymmetric_ok (O := OT) x n A (symtol (O := OT) n) Hl Hx ltac:(lia)) as (b & Eb & Hb).
  assert (b = true). { apply Hb. intros i j Hi Hj. apply asymm_R. rewrite symtol_R. apply Hsym; auto. }
  subst b. destruct (ed_new_sym (O := OT) x n A Hl Hx ltac:(lia) Eb) as (mn & sec & z & -> & K).
  destruct (td_fin (O := OT) n A) as [[M D] Sc]. destruct K as (Hm & Hs & Hz). apply (findEV_2 n mn sec z D Sc _ Hn Hm) with (2 := Hz).
  intros i Hi. apply (VTab_zgets (O := OT) sec (n - 1)); auto.
Qed.
End Small.

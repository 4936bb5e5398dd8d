(** The Schur transform in exact arithmetic: the factorisation. *)
From Coq Require Import ZArith QArith List Lia Bool Reals Lra.
From Verif Require Import Base BaseLemmas Wpe Scalar Vector Matrix Diagonal MatSpec MatFacts TabTac FSum VecSpec RealMatrixM RealOps RSum House Frob CholFacts Hess HessFacts HessReal Schur SchurFacts SchurSpec SchurFacts2 SchurReal SchurReal2 SchurReal3 SchurReal4 SchurReal5 SchurSpecR.
Open Scope Z_scope.

(** ** Bernoulli, the other way round *)
Lemma pow_quad x N : (0 <= x)%R -> (INR N * x <= 1)%R -> ((1 + x) ^ N <= 1 + INR N * x + (INR N * x) * (INR N * x))%R.
Proof.
  intros Hx. induction N as [|N IH]; intros HN; [cbn [pow INR]; lra|]. rewrite S_INR in *. cbn [pow]. pose proof (pos_INR N) as P. set (k := INR N) in *.
  assert (Hk : (0 <= k * x)%R) by (apply Rmult_le_pos; auto). assert (HN' : (k * x <= 1)%R) by lra. specialize (IH HN').
  eapply Rle_trans; [apply Rmult_le_compat_l; [lra|exact IH]|].
  assert (K : (k * (k * x) <= k + 1)%R). { apply Rle_trans with (k * 1)%R; [apply Rmult_le_compat_l; lra|lra]. }
  assert (K2 : (0 <= x * x * (2 * k + 1 - k - k * (k * x)))%R). { apply Rmult_le_pos; [apply Rmult_le_pos; auto|lra]. }
  lra.
Qed.
Lemma pow_lin x N : (0 <= x)%R -> (INR N * x <= 1)%R -> ((1 + x) ^ N <= 1 + 2 * (INR N * x))%R.
Proof.
  intros Hx HN. pose proof (pow_quad x N Hx HN). assert (0 <= INR N * x)%R by (apply Rmult_le_pos; auto; apply pos_INR).
  assert ((INR N * x) * (INR N * x) <= 1 * (INR N * x))%R by (apply Rmult_le_compat_r; auto). lra.
Qed.
Lemma err_bound n A N : 1 <= n -> Z.of_nat N <= 101 * n -> (1010 * (IZR n * (IZR n + 8)) * deps <= 1)%R -> (err n A N <= sc_tol n (nF n A))%R.
Proof.
  intros Hn HN Hs. unfold err, sc_tol. rewrite <- deps_eq. pose proof deps_pos as D0. pose proof (IZR_le _ _ Hn) as N1. pose proof (nF_nonneg n A) as A0. set (a := nF n A) in *. set (m := IZR n) in *.
  assert (HN' : (INR N <= 101 * m)%R). { rewrite INR_IZR_INZ. unfold m. rewrite <- mult_IZR. apply IZR_le. auto. }
  pose proof (pos_INR N) as P. set (x := (10 * (deps * (m + 8)))%R). assert (X0 : (0 <= x)%R) by (unfold x; apply Rmult_le_pos; [lra|apply Rmult_le_pos; lra]).
  assert (X1 : (INR N * x <= 1010 * (m * (m + 8)) * deps)%R). { apply Rle_trans with (101 * m * x)%R; [apply Rmult_le_compat_r; auto|unfold x; lra]. }
  pose proof (pow_lin x N X0 ltac:(lra)) as L. assert (0 <= INR N * x)%R by (apply Rmult_le_pos; auto).
  set (e := (m * deps)%R). assert (E0 : (0 <= e)%R) by (apply Rmult_le_pos; lra).
  assert (Y : (0 <= INR N * e)%R) by (apply Rmult_le_pos; auto). assert (Y1 : (INR N * e <= 101 * m * e)%R) by (apply Rmult_le_compat_r; auto).
  assert (Z1 : ((1 + x) ^ N * (a + INR N * e) <= (1 + 2 * (INR N * x)) * (a + INR N * e))%R) by (apply Rmult_le_compat_r; lra).
  assert (Z2 : (INR N * x * a <= 1010 * (m * (m + 8)) * deps * a)%R) by (apply Rmult_le_compat_r; auto).
  assert (Z3 : (INR N * x * (INR N * e) <= 1 * (INR N * e))%R) by (apply Rmult_le_compat_r; lra).
  assert (M8 : (0 <= m * deps)%R) by (apply Rmult_le_pos; lra). assert (M9 : (0 <= m * m * deps)%R) by (apply Rmult_le_pos; [apply Rmult_le_pos; lra|lra]). unfold e in *. lra.
Qed.

(** ** The hypotheses of the iteration hold at the start *)
Lemma hess_start n A M D : 1 <= n -> M = fst (hs_iter (O := ROps) n A (n - 2)) -> D = snd (hs_iter (O := ROps) n A (n - 2)) ->
  sim n (hs_tabP (O := ROps) n M D) A (hs_tabH (O := ROps) M) 0 /\ hess (O := ROps) n (hs_tabH (O := ROps) M).
Proof.
  intros Hn EM ED. pose proof (hinv_iter n A (Z.max 0 (n - 2)) ltac:(lia) ltac:(lia)) as I.
  assert (E : hs_iter (O := ROps) n A (Z.max 0 (n - 2)) = hs_iter (O := ROps) n A (n - 2)) by (unfold hs_iter; replace (Z.to_nat (Z.max 0 (n - 2))) with (Z.to_nat (n - 2)) by lia; auto).
  rewrite E in I. rewrite <- EM, <- ED in I. split; [split|].
  - apply (P_orth n A M D); auto.
  - rewrite nF_0; [lra|]. intros i j Hi Hj. unfold msub, conj. rewrite (hess_A n A M D) by auto. lra.
  - intros i j Hj Hij. unfold hs_tabH. zbq; auto.
Qed.
Lemma sim_nF n G A H : sim n G A H 0 -> nF n A = nF n H.
Proof.
  intros [G1 G2]. pose proof (nF_conj n G H G1) as E. pose proof (nF_sub_tri n A (conj n G H) (fun _ _ => 0%R)) as K1.
  pose proof (nF_sub_tri n (conj n G H) A (fun _ _ => 0%R)) as K2. rewrite (nF_sub_sym n (conj n G H) A) in K2.
  rewrite !(nF_ext n (msub _ (fun _ _ => 0%R)) _) in K1 by (intros i j Hi Hj; unfold msub; apply Rminus_0_r).
  rewrite !(nF_ext n (msub _ (fun _ _ => 0%R)) _) in K2 by (intros i j Hi Hj; unfold msub; apply Rminus_0_r). lra.
Qed.
Lemma sc_real n A T P : 1 <= n -> (1010 * (IZR n * (IZR n + 8)) * deps <= 1)%R -> (exists i j, 0 <= i < n /\ 0 <= j < n /\ A i j <> 0%R) ->
  sc_made (O := ROps) n (hs_tabH (O := ROps) (fst (hs_iter (O := ROps) n A (n - 2)))) (hs_tabP (O := ROps) n (fst (hs_iter (O := ROps) n A (n - 2))) (snd (hs_iter (O := ROps) n A (n - 2)))) T P ->
  orthogonal n P /\ (nF n (msub A (mmul n (mmul n P T) (trm P))) <= sc_tol n (nF n A))%R /\ schur_form n (sc_tol n (nF n A)) T.
Proof.
  intros Hn Hsz (i0 & j0 & Hi0 & Hj0 & Ha) Hm. set (M := fst (hs_iter (O := ROps) n A (n - 2))) in *. set (D := snd (hs_iter (O := ROps) n A (n - 2))) in *.
  destruct (hess_start n A M D Hn eq_refl eq_refl) as [S0 H0]. set (H := hs_tabH (O := ROps) M) in *. destruct Hm as (Hm & norm & ex & it & K1 & K2 & K3).
  pose proof (sc_norm_R n Hm H norm K1 ltac:(lia) K2) as En. pose proof (sim_nF n _ _ _ S0) as Enf.
  assert (Hb : (norm <= IZR n * nF n A)%R) by (rewrite En, Enf; apply norm_bound; lia).
  assert (Hp : (0 < norm)%R).
  { destruct (Rle_lt_dec norm 0) as [C|C]; auto. exfalso. apply Ha.
    assert (N0 : nF n H = 0%R). { apply nF_0. intros i j Hi Hj. destruct (Req_dec (H i j) 0) as [|C']; auto. pose proof (norm_pos n H i j H0 Hi Hj C') as K. rewrite <- En in K. lra. }
    rewrite <- Enf in N0. pose proof (nF_entry n A i0 j0 Hi0 Hj0) as K. rewrite N0 in K. destruct (Req_dec (A i0 j0) 0) as [|C']; auto. apply Rabs_pos_lt in C'. lra. }
  destruct (turns_end n A norm ltac:(lia) Hp Hb H _ T P ex it S0 H0 K3) as (N & HN & [V1 V2] & V3 & V4). pose proof (err_bound n A N Hn HN Hsz) as Eb.
  split; [auto|]. split; [eapply Rle_trans; [exact V2|auto]|].
  assert (Ht : (tau n (nF n A + err n A N) <= sc_tol n (nF n A))%R).
  { unfold tau. pose proof deps_pos as D0. pose proof (IZR_le _ _ Hn) as N1. pose proof (nF_nonneg n A) as A0. unfold sc_tol in *. rewrite <- deps_eq in *. set (a := nF n A) in *. set (m := IZR n) in *.
    assert (E3 : (a + err n A N <= 3 * (a + 1))%R).
    { assert (2020 * (m * (m + 8)) * deps * (a + 1) <= 2 * (a + 1))%R by (apply Rmult_le_compat_r; lra). lra. }
    apply Rle_trans with (deps * ((m + 8) * (3 * (a + 1))))%R; [apply Rmult_le_compat_l; [lra|]; apply Rmult_le_compat_l; lra|].
    assert (0 <= deps * (m + 8) * (a + 1))%R by (apply Rmult_le_pos; [apply Rmult_le_pos; lra|lra]).
    assert (1 * (deps * (m + 8) * (a + 1)) <= m * (deps * (m + 8) * (a + 1)))%R by (apply Rmult_le_compat_r; auto). lra. }
  split; [exact V3|]. intros l Hl. unfold small, cblock in V4.
  assert (R0 : (0 <= sc_tol n (nF n A))%R). { eapply Rle_trans; [|exact Ht]. apply tau_pos; [lia|]. pose proof (nF_nonneg n A). pose proof (err_nonneg n A ltac:(lia) N). lra. }
  destruct (V4 l Hl) as [Y|(Y1 & Y2 & Y3 & Y4)].
  - left. eapply Rle_trans; [apply Y; auto|auto].
  - right. split; [|split].
    + intros Hl2. replace (l - 2) with (l - 1 - 1) by lia. eapply Rle_trans; [apply Y2; lia|auto].
    + intros Hl2. specialize (Y3 ltac:(lia)). replace (l + 1 - 1) with l in Y3 by lia. eapply Rle_trans; [exact Y3|auto].
    + set (u := T (l - 1) (l - 1)) in *. set (v := T l l) in *. lra.
Qed.

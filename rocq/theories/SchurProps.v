(** Proofs of the theorems of P_Schur.v. *)
From Coq Require Import ZArith QArith List Lia Bool Reals Lra.
From Verif Require Import Base BaseLemmas Wpe Scalar Vector Matrix Diagonal RealMatrixM MatSpec MatFacts MatHist TabTac Hess HessFacts Schur SchurSpec SchurSpecR SchurFacts SchurFacts2 RealOps RSum Frob CholFacts SchurReal3 SchurReal6.
Open Scope Z_scope.

Section AnyOps.
Context {O : Ops}.
Lemma sc_total x n A : library x -> MatIs x n n A -> 1 <= n ->
  (exists d, NewSchurTransformer x = Ok d) \/ (3 <= n /\ NewSchurTransformer x = Panic EMaxIter).
Proof.
  intros Hl Hx Hn. pose proof (sc_new_ok x n A Hl Hx Hn (Z.to_nat (101 * n + 1)) ltac:(lia)) as K. unfold NewSchurTransformer. rewrite (MatIs_rows _ _ _ _ Hx).
  destruct (NewSchurTransformerFuel _ x) as [d|e|e]; cbn [outcome] in K; [left; eauto|tauto|]. destruct K as [-> K]. auto.
Qed.
Lemma sc_access2 x n A d d' : library x -> MatIs x n n A -> 1 <= n -> sc_of x d -> sc_of x d' ->
  exists P T Pm Qm Tm d1 d2 d3, sc_getP d = Ok (Pm, d1) /\ sc_getPT d = Ok (Qm, d2) /\ sc_getT d = Ok (Tm, d3) /\
    MatIs Pm n n P /\ MatIs Qm n n (fun i j => P j i) /\ MatIs Tm n n T /\ (forall i j, 0 <= j -> j + 1 < i < n -> T i j = fzero) /\
    exists Pm' Qm' Tm' e1 e2 e3, sc_getP d' = Ok (Pm', e1) /\ sc_getPT d' = Ok (Qm', e2) /\ sc_getT d' = Ok (Tm', e3) /\
      MatIs Pm' n n P /\ MatIs Qm' n n (fun i j => P j i) /\ MatIs Tm' n n T.
Proof.
  intros Hl Hx Hn (d0 & E & Hc) (d0' & E' & Hc'). rewrite E in E'. injection E' as <-.
  destruct (sc_state x n A d0 Hl Hx Hn) as (T & P & K0 & Km); [exists d0; split; [auto|constructor]|].
  pose proof (sc_calls_ok _ _ _ _ _ Hn K0 Hc) as K. pose proof (sc_calls_ok _ _ _ _ _ Hn K0 Hc') as K'.
  destruct (sc_P_ok _ _ _ _ Hn K) as ([a1 d1] & E1 & _ & H1 & _). destruct (sc_PT_ok _ _ _ _ Hn K) as ([a2 d2] & E2 & _ & H2 & _). destruct (sc_T_ok _ _ _ _ Hn K) as ([a3 d3] & E3 & _ & H3 & _).
  destruct (sc_P_ok _ _ _ _ Hn K') as ([b1 e1] & F1 & _ & G1 & _). destruct (sc_PT_ok _ _ _ _ Hn K') as ([b2 e2] & F2 & _ & G2 & _). destruct (sc_T_ok _ _ _ _ Hn K') as ([b3 e3] & F3 & _ & G3 & _).
  cbn [fst snd] in *. exists P, T, a1, a2, a3, d1, d2, d3. do 6 (split; [auto|]). split; [|exists b1, b2, b3, e1, e2, e3; auto 10].
  destruct Km as (Hm & norm & ex & it & _ & _ & Ht). pose proof (turns_hess n norm _ _ Ht) as G. cbn [fst] in G. apply G. intros i j Hj Hij. unfold hs_tabH. zbq; auto.
Qed.
End AnyOps.
#[local] Existing Instance ROps.
Lemma sc_factor (x : @RealMatrix ROps) n A d : library x -> MatIs x n n A -> 1 <= n -> 1010 * (n * (n + 8)) <= 9007199254740992 ->
  (exists i j, 0 <= i < n /\ 0 <= j < n /\ A i j <> 0%R) -> sc_of x d ->
  exists Pm Qm Tm P Q T d1 d2 d3, sc_getP d = Ok (Pm, d1) /\ sc_getPT d = Ok (Qm, d2) /\ sc_getT d = Ok (Tm, d3) /\
    MatIs Pm n n P /\ MatIs Qm n n Q /\ MatIs Tm n n T /\ orthogonal n P /\ meq n n Q (trm P) /\
    (nF n (msub A (mmul n (mmul n P T) (trm P))) <= sc_tol n (nF n A))%R /\ schur_form n (sc_tol n (nF n A)) T.
Proof.
  intros Hl Hx Hn Hsz Ha Hd. destruct (sc_access (O := ROps) x n A d Hl Hx Hn Hd) as (Pm & Qm & Tm & P & Q & T & d1 & d2 & d3 & E1 & E2 & E3 & H1 & H2 & H3 & HQ & _ & Hm).
  exists Pm, Qm, Tm, P, Q, T, d1, d2, d3. do 6 (split; [auto|]).
  destruct (sc_real n A T P Hn) as (R1 & R2 & R3); auto.
  { rewrite deps_eq. apply IZR_le in Hsz. rewrite !mult_IZR, plus_IZR in Hsz. apply Rmult_le_reg_r with 9007199254740992%R; [lra|]. rewrite Rmult_assoc, Rinv_l by lra. lra. }
Qed.

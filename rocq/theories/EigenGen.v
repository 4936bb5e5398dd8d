(** The eigen decomposition of matrices that are not symmetric, for arbitrary
    scalar operations. *)
From Coq Require Import ZArith QArith List Lia Bool.
From Verif Require Import Base BaseLemmas Wpe Scalar Vector VecSpec VectorFacts Matrix MatSpec MatFacts Array2D BlockM Diagonal RealMatrixM Array2DFacts MatrixOps MatHist MatProps BlockFacts RealMat2 RealMat3 TabTac FSum CholFacts LUFacts2 QRFacts Hess Tridiag Schur Eigen DiagSpec EigenSpec EigenGenSpec HessSpec SchurSpec SchurFacts SchurFacts2 SchurProps EigenFacts EigenFacts2.
Import ListNotations.
Open Scope Z_scope.

Section EigenGen.
Context {O : Ops}.

Definition split_upto (n k : Z) (T : Z -> Z -> F) (skip : bool) (pr : Z -> bool) (Re Im : Z -> F) : Prop :=
  skip = pr (k - 1) /\
  (forall i, pr i = true -> 0 <= i /\ i + 1 < n /\ i < k /\ pr (i + 1) = false) /\
  (forall i, 0 <= i < k -> pr i = false -> pr (i - 1) = false ->
     Re i = T i i /\ Im i = fzero /\ (i + 1 < n -> equalsWithError (T (i + 1) i) fzero eps_ed = true)) /\
  (forall i, pr i = true ->
     let p := (flit (1 # 2) * (T i i - T (i + 1)%Z (i + 1)%Z))%f in
     let z := fsqrt (fabs (p * p + T (i + 1)%Z i * T i (i + 1)%Z)%f) in
     equalsWithError (T (i + 1) i) fzero eps_ed = false /\
     Re i = (T (i + 1)%Z (i + 1)%Z + p)%f /\ Im i = z /\ Re (i + 1) = (T (i + 1)%Z (i + 1)%Z + p)%f /\ Im (i + 1) = fneg z) /\
  (forall j, k <= j -> (skip = true -> k < j) -> Im j = fzero).

Lemma ed_schurValues_ok n T Tf : RTab T n n Tf -> 0 <= n ->
  wp (ed_schurValues T) (fun r => exists pr Re Im, VTab (fst r) n Re /\ VTab (snd r) n Im /\ split_of n Tf pr Re Im).
Proof.
  intros HT Hn. unfold ed_schurValues. rewrite (RTab_len _ _ _ _ HT). destruct (make_VTab n Hn) as (z0 & -> & Hz). cbn [bind]. apply wp_bind.
  apply (wp_for (fun k s => exists pr Re Im, VTab (fst (fst s)) n Re /\ VTab (snd (fst s)) n Im /\ split_upto n k Tf (snd s) pr Re Im)); [lia| | |].
  - exists (fun _ => false), (fun _ => fzero), (fun _ => fzero). cbn [fst snd]. split; [auto|]. split; [auto|]. unfold split_upto.
    split; [auto|]. split; [discriminate|]. split; [intros; lia|]. split; [discriminate|auto].
  - intros k [[re im] skip] Hk (pr & Re & Im & HR & HI & S1 & S2 & S3 & S4 & S5). cbn [fst snd] in *.
    destruct skip.
    + apply wp_ok. exists pr, Re, Im. cbn [fst snd]. split; [auto|]. split; [auto|]. symmetry in S1. destruct (S2 _ S1) as (_ & _ & _ & S1').
      replace (k - 1 + 1) with k in S1' by lia. unfold split_upto. replace (k + 1 - 1) with k by lia. rewrite S1'.
      split; [auto|]. split; [intros i Hi; destruct (S2 i Hi) as (? & ? & ? & ?); repeat split; auto; lia|].
      split; [|split; [auto|intros j Hj _; apply S5; intros; lia]].
      intros i Hi H1 H2. destruct (Z.eq_dec i k) as [->|]; [congruence|]. apply S3; auto. lia.
    + assert (Hpk : forall j, k <= j -> pr j = false) by (intros j Hj; destruct (pr j) eqn:E; auto; destruct (S2 j E) as (? & ? & ? & ?); lia).
      assert (W : wp (if k =? n - 1 then Ok true else let* x := mget T (k + 1) k in Ok (equalsWithError x fzero eps_ed))
        (fun b => if b then (k + 1 < n -> equalsWithError (Tf (k + 1) k) fzero eps_ed = true) else k + 1 < n /\ equalsWithError (Tf (k + 1) k) fzero eps_ed = false)).
      { destruct (Z.eqb_spec k (n - 1)); [apply wp_ok; intros; lia|]. tget. apply wp_ok. destruct (equalsWithError (Tf (k + 1) k) fzero eps_ed); auto. split; [lia|auto]. }
      apply wp_bind. eapply wp_conseq; [exact W|]. clear W. intros [|] Hb.
      * tget. vput re1 HR1. apply wp_ok. exists pr, (fun i => if i =? k then Tf k k else Re i), Im. cbn [fst snd]. split; [auto|]. split; [auto|].
        unfold split_upto. replace (k + 1 - 1) with k by lia. split; [symmetry; apply Hpk; lia|].
        split; [intros i Hi; destruct (S2 i Hi) as (? & ? & ? & ?); repeat split; auto; lia|].
        split; [|split].
        -- intros i Hi H1 H2. destruct (Z.eqb_spec i k) as [->|]; [|apply S3; auto; lia]. split; [auto|]. split; [apply S5; [lia|discriminate]|auto].
        -- intros i Hi. destruct (S2 i Hi) as (? & ? & ? & ?). assert (i + 1 <> k) by (intros Ek; rewrite <- Ek in S1; replace (i + 1 - 1) with i in S1 by lia; congruence).
           destruct (Z.eqb_spec i k); [lia|]. destruct (Z.eqb_spec (i + 1) k); [lia|]. apply S4; auto.
        -- intros j Hj _. apply S5; [lia|discriminate].
      * destruct Hb as [Hk1 Hb]. tget. tget. cbv zeta. tget. tget.
        set (p := (flit (1 # 2) * (Tf k k - Tf (k + 1)%Z (k + 1)%Z))%f). set (z := fsqrt (fabs (p * p + Tf (k + 1)%Z k * Tf k (k + 1)%Z)%f)).
        vput re1 HR1. vput im1 HI1. vput re2 HR2. vput im2 HI2. apply wp_ok.
        exists (fun i => if i =? k then true else pr i). eexists. eexists. cbn [fst snd]. split; [exact HR2|]. split; [exact HI2|].
        unfold split_upto. cbv beta. replace (k + 1 - 1) with k by lia. rewrite Z.eqb_refl. split; [auto|]. split; [|split; [|split]].
        -- intros i Hi. revert Hi. destruct (Z.eqb_spec i k) as [->|]; intros Hi.
           ++ destruct (Z.eqb_spec (k + 1) k); [lia|]. split; [lia|]. split; [lia|]. split; [lia|]. apply Hpk. lia.
           ++ destruct (S2 i Hi) as (? & ? & ? & ?). assert (i + 1 <> k) by (intros Ek; rewrite <- Ek in S1; replace (i + 1 - 1) with i in S1 by lia; congruence).
              destruct (Z.eqb_spec (i + 1) k); [lia|]. repeat split; auto; lia.
        -- intros i Hi. destruct (Z.eqb_spec i k) as [->|]; [discriminate|]. intros H1. destruct (Z.eqb_spec (i - 1) k); [discriminate|]. intros H2.
           destruct (Z.eqb_spec i (k + 1)); [lia|]. apply S3; auto. lia.
        -- intros i Hi. revert Hi. destruct (Z.eqb_spec i k) as [->|]; intros Hi.
           ++ destruct (Z.eqb_spec k (k + 1)); [lia|]. rewrite Z.eqb_refl. fold p. fold z. auto.
           ++ destruct (S2 i Hi) as (? & ? & ? & ?). assert (i + 1 <> k) by (intros Ek; rewrite <- Ek in S1; replace (i + 1 - 1) with i in S1 by lia; congruence).
              destruct (Z.eqb_spec (i + 1) k); [lia|]. destruct (Z.eqb_spec i (k + 1)); [lia|]. destruct (Z.eqb_spec (i + 1) (k + 1)); [lia|]. apply S4. auto.
        -- intros j Hj Hs. specialize (Hs eq_refl). destruct (Z.eqb_spec j (k + 1)); [lia|]. destruct (Z.eqb_spec j k); [lia|]. apply S5; [lia|discriminate].
  - intros [[re im] skip] (pr & Re & Im & HR & HI & S1 & S2 & S3 & S4 & S5). cbn [fst snd] in *. apply wp_ok. cbn [fst snd]. exists pr, Re, Im.
    split; [auto|]. split; [auto|]. split; [|split]; auto. intros i Hi. destruct (S2 i Hi) as (? & ? & ? & ?); auto.
Qed.

(** ** Shapes, when no square root is negative *)
Definition sh (n : Z) (st : mat * F * F * F) : Prop := exists Tf, RTab (fst (fst (fst st))) n n Tf.
Lemma ed_rescale_sh n i idx col t T Tf : RTab T n n Tf -> 0 <= i -> i <= idx + 1 -> idx < n -> 0 <= col < n -> wp (ed_rescale i idx col t T) (fun T' => exists Tf', RTab T' n n Tf').
Proof.
  intros HT Hi Hx Hc. unfold ed_rescale. intros Hcol. apply (wp_for (fun _ T => exists Tf, RTab T n n Tf)); [lia|eauto| |auto].
  intros j T1 Hj (Tf1 & H1). tget. tput T2 H2. apply wp_ok. eauto.
Qed.
Lemma ed_realVector_sh n norm re im idx p st Re Im : VTab re n Re -> VTab im n Im -> sh n st -> 0 <= idx < n -> wp (ed_realVector norm re im idx p st) (sh n).
Proof.
  intros HR HI Hs Hi. destruct st as [[[T r] s] z]. destruct Hs as (Tf & HT). cbn [fst] in HT. unfold ed_realVector. tput T1 H1. apply wp_bind.
  apply (wp_for_down (fun k (q : mat * F * F * F * Z) => sh n (fst q) /\ k <= snd q <= idx)); [lia| | |].
  - cbn [fst snd]. split; [eexists; exact H1|lia].
  - intros i [[[[T2 r2] s2] z2] l] Hk [(Tf2 & H2) Hl]. cbn [fst snd] in *. tget. cbv zeta. apply wp_bind.
    apply (wp_for (fun _ _ => True)); [lia|auto| |]. { intros j x Hj _. tget. tget. apply wp_ok. auto. }
    intros x _. vget. destruct (compareTo (Im i) fzero eps_ed <? 0). { apply wp_ok. cbn [fst snd]. split; [eexists; exact H2|lia]. }
    apply wp_bind.
    apply (wp_conseq _ (fun T => exists Tf, RTab T n n Tf)).
    { destruct (fulp1 (Im i) fzero). { destruct (fne _ _);
        match goal with |- wp (mset T2 i idx ?v) _ => destruct (RTab_set T2 n n Tf2 i idx v H2) as (T3 & -> & H3); [lia|lia|apply wp_ok; eauto] end. }
      tget. tget. vget. tput T3 H3.
      destruct (fgt _ _); match goal with |- wp (mset T3 ?a idx ?v) _ => destruct (RTab_set T3 n n _ a idx v H3) as (T4 & -> & H4); [lia|lia|apply wp_ok; eauto] end. }
    intros T3 (Tf3 & H3). tget. apply wp_bind.
    apply (wp_conseq _ (fun T => exists Tf, RTab T n n Tf)). { destruct (fgt _ _); [eapply ed_rescale_sh; eauto; lia|apply wp_ok; eauto]. }
    intros T4 (Tf4 & H4). apply wp_ok. cbn [fst snd]. split; [exists Tf4; exact H4|lia].
  - intros [[[[T2 r2] s2] z2] l] [H2 _]. apply wp_ok. exact H2.
Qed.
Lemma ed_complexVector_sh n norm re im idx p q st Re Im : VTab re n Re -> VTab im n Im -> sh n st -> 1 <= idx < n -> wp (ed_complexVector norm re im idx p q st) (sh n).
Proof.
  intros HR HI Hs Hi. destruct st as [[[T r] s] z]. destruct Hs as (Tf & HT). cbn [fst] in HT. unfold ed_complexVector. tget. tget. apply wp_bind.
  apply (wp_conseq _ (fun T => exists Tf, RTab T n n Tf)).
  { destruct (fgt _ _).
    - repeat tget. tput T1 H1. repeat tget. match goal with |- wp (mset T1 ?a idx ?v) _ => destruct (RTab_set T1 n n _ a idx v H1) as (T4 & -> & H4); [lia|lia|apply wp_ok; eauto] end.
    - repeat tget. destruct (cdiv _ _ _ _) as [r1 i1]. tput T1 H1. match goal with |- wp (mset T1 ?a idx ?v) _ => destruct (RTab_set T1 n n _ a idx v H1) as (T4 & -> & H4); [lia|lia|apply wp_ok; eauto] end. }
  clear T Tf HT. intros T (Tf & HT). tput T1 H1. tput T2 H2. apply wp_bind. clear HT H1. 
  apply (wp_for_down (fun k (q : mat * F * F * F * Z) => sh n (fst q) /\ k <= snd q <= idx)); [lia| | |].
  - cbn [fst snd]. split; [eexists; exact H2|lia].
  - clear T2 H2. intros i [[[[T2 r2] s2] z2] l] Hk [(Tf2 & H2) Hl]. cbn [fst snd] in *. apply wp_bind.
    apply (wp_for (fun _ _ => True)); [lia|auto| |]. { intros j [x y] Hj _. tget. tget. tget. apply wp_ok. auto. }
    intros [ra sa] _. tget. cbv zeta. vget. destruct (compareTo (Im i) fzero eps_ed <? 0). { apply wp_ok. cbn [fst snd]. split; [eexists; exact H2|lia]. }
    apply wp_bind.
    apply (wp_conseq _ (fun T => exists Tf, RTab T n n Tf)).
    { destruct (fulp1 (Im i) fzero).
      - destruct (cdiv _ _ _ _) as [r1 i1]. tput T3 H3. match goal with |- wp (mset T3 ?a idx ?v) _ => destruct (RTab_set T3 n n _ a idx v H3) as (T4 & -> & H4); [lia|lia|apply wp_ok; eauto] end.
      - tget. tget. vget. destruct (cdiv _ _ _ _) as [r1 i1]. tput T3 H3. tput T4 H4. destruct (fgt _ _).
        + tput T5 H5. match goal with |- wp (mset T5 ?a idx ?v) _ => destruct (RTab_set T5 n n _ a idx v H5) as (T6 & -> & H6); [lia|lia|apply wp_ok; eauto] end.
        + destruct (cdiv _ _ _ _) as [r3 i3]. tput T5 H5. match goal with |- wp (mset T5 ?a idx ?v) _ => destruct (RTab_set T5 n n _ a idx v H5) as (T6 & -> & H6); [lia|lia|apply wp_ok; eauto] end. }
    intros T3 (Tf3 & H3). tget. tget. apply wp_bind.
    apply (wp_conseq _ (fun T => exists Tf, RTab T n n Tf)).
    { destruct (fgt _ _); [|apply wp_ok; eauto]. apply wp_bind. eapply wp_conseq; [eapply (ed_rescale_sh n i idx (idx - 1)); eauto; lia|]. intros T4 (Tf4 & H4). eapply ed_rescale_sh; eauto; lia. }
    intros T4 (Tf4 & H4). apply wp_ok. cbn [fst snd]. split; [exists Tf4; exact H4|lia].
  - clear T2 H2. intros [[[[T2 r2] s2] z2] l] [H2 _]. apply wp_ok. exact H2.
Qed.
Lemma ed_schurVectors_go n re im T P Tf Pf Re Im pr norm : 1 <= n -> RTab T n n Tf -> RTab P n n Pf -> VTab re n Re -> VTab im n Im -> split_of n Tf pr Re Im ->
  (forall x, flt (fsqrt x) fzero = false) -> flt fzero fzero = false -> sc_norm T = Ok norm ->
  if equalsWithError norm fzero eps_ed then ed_schurVectors re im T P = Err EArithmetic else wp (ed_schurVectors re im T P) (fun vs => exists Vt, RTab vs n n Vt).
Proof.
  intros Hn HT HP HR HI (S1 & S2 & S3) Hsq H0 En. unfold ed_schurVectors. rewrite (RTab_len _ _ _ _ HT), En. cbn [bind]. destruct (equalsWithError norm fzero eps_ed); [reflexivity|].
  apply wp_bind.
  apply (wp_for_down (fun _ => sh n)); [lia|exists Tf; exact HT| |].
  - intros idx st Hi Hs. vget. vget. destruct (fulp1 (Im idx) fzero); [eapply ed_realVector_sh; eauto; lia|]. destruct (flt (Im idx) fzero) eqn:E; [|apply wp_ok; auto].
    eapply ed_complexVector_sh; eauto. enough (idx <> 0) by lia. intros ->. destruct (pr 0) eqn:E0.
    + destruct (S3 _ E0) as (_ & _ & Ez & _). rewrite Ez, Hsq in E. discriminate.
    + destruct (S2 0) as (_ & Ez & _); [lia|auto|destruct (pr (0 - 1)) eqn:E1; auto; apply S1 in E1; lia|]. rewrite Ez, H0 in E. discriminate.
  - intros [[[T1 r1] s1] z1] (Tf1 & H1). cbn [fst] in H1. apply wp_bind.
    apply (wp_for_down (fun _ P => exists Pf, RTab P n n Pf)); [lia|eauto| |].
    + intros j P1 Hj HP1. apply (wp_for (fun _ P => exists Pf, RTab P n n Pf)); [lia|auto| |auto]. intros i P2 Hi (Pf2 & HP2). apply wp_bind.
      apply (wp_for (fun _ _ => True)); [lia|auto| |]. { intros k x Hk _. tget. tget. apply wp_ok. auto. }
      intros x _. match goal with |- wp (mset P2 ?a ?b ?v) _ => destruct (RTab_set P2 n n _ a b v HP2) as (P3 & -> & H3); [lia|lia|apply wp_ok; eauto] end.
    + intros P1 (Pf1 & HP1). eapply wp_conseq; [apply (ed_columns_ok n P1 Pf1 HP1); lia|]. intros vs Hvs. eexists. exact Hvs.
Qed.
Lemma ed_schurVectors_sh n re im T P Tf Pf Re Im pr : 1 <= n -> RTab T n n Tf -> RTab P n n Pf -> VTab re n Re -> VTab im n Im -> split_of n Tf pr Re Im ->
  (forall x, flt (fsqrt x) fzero = false) -> flt fzero fzero = false ->
  wpe (ed_schurVectors re im T P) (fun vs => exists Vt, RTab vs n n Vt) (fun e => e = EArithmetic).
Proof.
  intros Hn HT HP HR HI S Hsq H0. pose proof (sc_norm_total n T Tf HT ltac:(lia)) as (norm & En & _).
  pose proof (ed_schurVectors_go n re im T P Tf Pf Re Im pr norm Hn HT HP HR HI S Hsq H0 En) as Q. destruct (equalsWithError norm fzero eps_ed); [rewrite Q; apply wpe_err; auto|apply wpe_wp; exact Q].
Qed.

(** The other branch of the constructor. *)
Lemma ed_new_gen x n A : library x -> MatIs x n n A -> 1 <= n -> isSymmetric x (symtol n) = Ok false ->
  NewEigenDecomposition x = match NewSchurTransformer x with Ok sc =>
      let* (re, im) := ed_schurValues (sc_T sc) in let* vs := ed_schurVectors re im (sc_T sc) (sc_P sc) in Ok (mkEdD re im vs false None None None)
    | Err e => Err e | Panic e => Panic e end.
Proof.
  intros Hl Hx Hn Hs. unfold NewEigenDecomposition. rewrite (MatIs_rows _ _ _ _ Hx), (MatIs_cols _ _ _ _ Hx). cbn [bind].
  change (flit 10 * flit (inject_Z n) * flit (inject_Z n) * doubleeps)%f with (symtol n). rewrite Hs. cbn [bind].
  destruct (NewSchurTransformer x) as [sc|e|e] eqn:E; cbn [bind]; auto.
  destruct (sc_state x n A sc Hl Hx Hn) as (T & P & K & _); [exists sc; split; [auto|constructor]|].
  pose proof K as (KT & KP & _).
  destruct (sc_T_ok n T P sc Hn K) as ([t s1] & -> & G1 & M1 & K1). cbn [bind fst snd] in *. destruct (m_Data_ok t n n _ (gen_lib _ G1) M1) as (d1 & -> & D1). cbn [bind].
  destruct (sc_T_ok n T P s1 Hn K1) as ([t' s2] & -> & G2 & M2 & K2). cbn [bind fst snd] in *.
  destruct (m_Data_ok t' n n _ (gen_lib _ G2) M2) as (d2 & E2 & D2).
  destruct (sc_P_ok n T P s2 Hn K2) as ([p s3] & E3 & G3 & M3 & K3). cbn [bind fst snd] in *. destruct (m_Data_ok p n n _ (gen_lib _ G3) M3) as (d3 & E4 & D3).
  rewrite (RTab_unique _ _ _ _ _ D1 KT). destruct (ed_schurValues (sc_T sc)) as [[re im]|e|e]; cbn [bind]; auto.
  rewrite E2. cbn [bind]. rewrite E3. cbn [bind]. rewrite E4. cbn [bind]. rewrite (RTab_unique _ _ _ _ _ D2 KT), (RTab_unique _ _ _ _ _ D3 KP). reflexivity.
Qed.
End EigenGen.

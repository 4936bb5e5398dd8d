(** Square root and solver of the eigen decomposition, in any arithmetic. *)
From Coq Require Import ZArith List Lia Bool.
From Verif Require Import Base BaseLemmas Wpe Scalar Vector VecSpec VectorFacts Matrix MatSpec MatFacts Array2D Array2DFacts MatrixOps BlockM Diagonal DiagSpec DiagFacts RealMatrixM TabTac FSum CholFacts LUFacts2 QRFacts Eigen EigenSpec EigenFacts EigenFacts2.
Import ListNotations.
Open Scope Z_scope.

Section EigenSolve.
Context {O : Ops}.

(** Square root. *)
Lemma ed_sqrt_list n re Re s0 : VTab re n Re -> 0 <= n -> VTab s0 n (fun _ => fzero) ->
  ((exists i, 0 <= i < n /\ fle (Re i) fzero = true) -> for_ 0 n (fun i sq => let* x := zget re i in if fle x fzero then Panic EUnsupported else zset sq i (fsqrt x)) s0 = Panic EUnsupported) /\
  ((forall i, 0 <= i < n -> fle (Re i) fzero = false) -> wp (for_ 0 n (fun i sq => let* x := zget re i in if fle x fzero then Panic EUnsupported else zset sq i (fsqrt x)) s0) (fun sq => VTab sq n (fun i => fsqrt (Re i)))).
Proof.
  intros HR Hn Hs0. split.
  - intros (w & Hw & Ew). set (body := fun i sq => _).
    enough (G : forall lo l, 0 <= lo <= w -> VTab l n (fun i => if i <? lo then fsqrt (Re i) else fzero) -> for_ lo n body l = Panic EUnsupported).
    { apply G; [lia|]. eapply VTab_ext; [exact Hs0|]. intros. cbn beta. zbq; auto. }
    intros lo. remember (Z.to_nat (w - lo)) as t eqn:Et. revert lo Et. induction t as [|t IH]; intros lo Et l Hlo Hl.
    + assert (lo = w) by lia. subst lo. rewrite for_step by lia. unfold body at 1. vget. rewrite Ew. auto.
    + rewrite for_step by lia. unfold body at 1. vget. destruct (fle (Re lo) fzero) eqn:El; [auto|].
      destruct (VTab_set _ n _ lo (fsqrt (Re lo)) Hl) as (l1 & -> & Hl1); [lia|]. cbn [bind]. apply IH; try lia.
      eapply VTab_ext; [exact Hl1|]. intros; cbn beta; zbq; subst; auto.
  - intros Hp. apply (wp_vecloop (fun i => fsqrt (Re i)) s0 n (fun _ => fzero)); auto; try lia.
    + intros k l' Hk Hl'. vget. rewrite Hp by lia. auto.
    + intros l' Hl'. eapply VTab_ext; [exact Hl'|]. intros. unfold vecpart. cbn beta. zbq; auto.
Qed.
Lemma ed_SquareRoot_nonsym d : ed_sym d = false -> ed_SquareRoot d = Panic EUnsupported.
Proof. intros H. unfold ed_SquareRoot. rewrite H. auto. Qed.
Lemma ed_SquareRoot_nonpos n Re Im Vt sym d : 1 <= n -> ed_ok n Re Im Vt sym d -> (exists i, 0 <= i < n /\ fle (Re i) fzero = true) -> ed_SquareRoot d = Panic EUnsupported.
Proof.
  intros Hn H He. pose proof H as (HR & _ & _ & HS & _). unfold ed_SquareRoot. rewrite HS. destruct sym; auto. cbn [negb].
  rewrite (VTab_len _ _ _ HR). destruct (make_VTab n ltac:(lia)) as (s0 & -> & Hs0). cbn [bind].
  destruct (ed_sqrt_list n (ed_re d) Re s0 HR ltac:(lia) Hs0) as [G _]. rewrite (G He). auto.
Qed.
Lemma ed_SquareRoot_ok n Re Im Vt d : 1 <= n -> ed_ok n Re Im Vt true d -> (forall i, 0 <= i < n -> fle (Re i) fzero = false) ->
  wp (ed_SquareRoot d) (fun r => exists a b a' b', MatIs (fst r) n n (fun i j => msum a b n (fun t => msum a' b' n (fun u => Vt u i * diagonal (fun k => fsqrt (Re k)) u t) * Vt t j))%f /\
    library (fst r) /\ ed_ok n Re Im Vt true (snd r)).
Proof.
  intros Hn H Hp. pose proof H as (HR & _ & _ & HS & _). unfold ed_SquareRoot. rewrite HS. cbn [negb].
  rewrite (VTab_len _ _ _ HR). destruct (make_VTab n ltac:(lia)) as (s0 & -> & Hs0). cbn [bind].
  destruct (ed_sqrt_list n (ed_re d) Re s0 HR ltac:(lia) Hs0) as [_ G]. destruct (G Hp) as (sq & -> & Hsq). cbn [bind].
  unfold NewRealDiagonalMatrix, NewDiagonalMatrix. cbn [liftD orpanic bind].
  assert (HD : DIs (mkDiag ([] ++ sq)) n (fun k => fsqrt (Re k))) by exact Hsq.
  pose proof (DIs_MatIs _ _ _ HD) as HM.
  destruct (ed_V_ok n Re Im Vt true d Hn H) as ([v d1] & -> & Gv & Mv & H1). cbn [bind fst snd] in *.
  destruct (ed_VT_ok n Re Im Vt true d1 Hn H1) as ([vt d2] & -> & Gt & Mt & H2). cbn [bind fst snd] in *.
  destruct (m_Multiply_ok v (MDiag (mkDiag ([] ++ sq))) n n n _ _ Gv Mv HM Hn) as (m1 & -> & G1 & M1). cbn [bind].
  destruct (m_Multiply_ok m1 vt n n n _ _ G1 M1 Mt Hn) as (m2 & -> & G2 & M2). cbn [bind].
  apply wp_ok. cbn [fst snd]. exists m1, vt, v, (MDiag (mkDiag ([] ++ sq))). split; [exact M2|]. split; [destruct m2; try contradiction; exact I|auto].
Qed.

(** Solver. *)
Definition nrm (Re Im : Z -> F) (i : Z) : F := fsqrt (Re i * Re i + Im i * Im i)%f.
Definition ed_big (n : Z) (Re Im : Z -> F) : F := accum (fun i mx => fmax mx (nrm Re Im i)) (Z.to_nat n) fzero.
Lemma eds_norm_ok n Re Im Vt sym d i : ed_ok n Re Im Vt sym d -> 0 <= i < n -> eds_norm d i = Ok (nrm Re Im i).
Proof. intros (HR & HI & _) Hi. unfold eds_norm. rewrite (VTab_get _ _ _ i HR), (VTab_get _ _ _ i HI) by lia. auto. Qed.
Lemma eds_IsNonSingular_ok n Re Im Vt sym d : 0 <= n -> ed_ok n Re Im Vt sym d -> exists b, eds_IsNonSingular d = Ok b /\
  (b = true <-> feq (ed_big n Re Im) fzero = false /\ forall i, 0 <= i < n -> equalsWithError (nrm Re Im i / ed_big n Re Im)%f fzero eps_ed = false).
Proof.
  intros Hn H. pose proof H as (HR & _). unfold eds_IsNonSingular. rewrite (VTab_len _ _ _ HR).
  rewrite (for_accum (fun i mx => fmax mx (nrm Re Im i)) n) by solve [auto | intros k s Hk; rewrite (eds_norm_ok n Re Im Vt sym d k H Hk); auto].
  cbn [bind]. fold (ed_big n Re Im). destruct (feq (ed_big n Re Im) fzero) eqn:E.
  { exists false. split; auto. split; [discriminate|]. intros [? _]. congruence. }
  set (mx := ed_big n Re Im) in *. set (t := fun i => equalsWithError (nrm Re Im i / mx)%f fzero eps_ed).
  assert (W : wp (for_brk 0 n (fun i (_ : unit) => let* x := eds_norm d i in Ok (equalsWithError (x / mx)%f fzero eps_ed, tt)) tt)
    (fun r => if fst r then exists i, 0 <= i < n /\ t i = true else forall i, 0 <= i < n -> t i = false)).
  { apply (wp_for_brk (fun k _ => forall i, 0 <= i < k -> t i = false) (fun _ => exists i, 0 <= i < n /\ t i = true)); auto; [intros; lia|].
    intros k s Hk Hs. rewrite (eds_norm_ok n Re Im Vt sym d k H Hk). cbn [bind]. fold (t k). apply wp_ok. cbn [fst snd]. destruct (t k) eqn:Et; eauto.
    intros i Hi. destruct (Z.eq_dec i k) as [->|]; auto. apply Hs. lia. }
  destruct W as ([b u] & -> & W). cbn [bind fst] in *. exists (negb b). split; auto. destruct b; cbn [negb].
  - split; [discriminate|]. intros [_ K]. destruct W as (i & Hi & Ei). unfold t in Ei. rewrite (K i Hi) in Ei. discriminate.
  - split; auto.
Qed.
Lemma eds_SolveVector_dim n Re Im Vt sym d b k B : ed_ok n Re Im Vt sym d -> VecIs b k B -> k <> n -> eds_SolveVector d b = Panic EDimMismatch.
Proof. intros (HR & _) Hb Hk. unfold eds_SolveVector. rewrite (VTab_len _ _ _ HR). destruct Hb as (-> & _). destruct (Z.eqb_spec k n); [contradiction|auto]. Qed.
Lemma eds_SolveVector_sing n Re Im Vt sym d b B : ed_ok n Re Im Vt sym d -> VecIs b n B -> eds_IsNonSingular d = Ok false -> eds_SolveVector d b = Panic ESingular.
Proof. intros (HR & _) Hb Hk. unfold eds_SolveVector. rewrite (VTab_len _ _ _ HR). destruct Hb as (-> & _). rewrite Z.eqb_refl, Hk. auto. Qed.
Lemma eds_SolveVector_ok n Re Im Vt sym d b B : 0 <= n -> ed_ok n Re Im Vt sym d -> VecIs b n B -> eds_IsNonSingular d = Ok true ->
  wp (eds_SolveVector d b) (fun r => VecIs r n (fun j => fadds fzero 0 n (fun i => fsum n (fun k => Vt i k * B k) / Re i * Vt i j)%f)).
Proof.
  intros Hn H Hb Hk. pose proof H as (HR & _ & HV & _). unfold eds_SolveVector. rewrite (VTab_len _ _ _ HR). rewrite (proj1 Hb). rewrite Z.eqb_refl, Hk. cbn [negb bind].
  destruct (make_VTab n Hn) as (s0 & -> & Hs0). cbn [bind]. apply wp_bind.
  apply (wp_for (fun i bp => VTab bp n (fun j => fadds fzero 0 i (fun i => fsum n (fun k => Vt i k * B k) / Re i * Vt i j)%f))); [lia|auto| |].
  - intros i bp Hi Hbp. destruct (RTab_row _ _ _ _ i HV Hi) as (v & -> & Hv). cbn [bind].
    rewrite (VecDotProduct_spec (VArr v) b n (Vt i) B); [|apply VTab_VecIs; auto|auto]. cbn [bind]. vget.
    eapply (wp_vecloop (fun j => fadds fzero 0 (i + 1) (fun i => fsum n (fun k => Vt i k * B k) / Re i * Vt i j)%f) bp n); [exact Hbp|lia|lia| |].
    + intros k l' Hk' Hl'. vget. rewrite (VTab_get _ _ _ k Hv) by lia. cbn [bind]. unfold vecpart. rewrite fadds_S by lia. rewrite Z.ltb_irrefl, andb_false_r. auto.
    + intros l' Hl'. eapply VTab_ext; [exact Hl'|]. intros j Hj. unfold vecpart. cbn beta. zbq. auto.
  - intros bp Hbp. apply wp_ok. apply VTab_VecIs. auto.
Qed.
Lemma eds_SolveMatrix_dim n Re Im Vt sym d b k c B : ed_ok n Re Im Vt sym d -> MatIs b k c B -> k <> n -> eds_SolveMatrix d b = Panic EDimMismatch.
Proof. intros (HR & _) Hb Hk. unfold eds_SolveMatrix. rewrite (VTab_len _ _ _ HR), (MatIs_rows _ _ _ _ Hb). destruct (Z.eqb_spec k n); [contradiction|auto]. Qed.
Lemma eds_SolveMatrix_sing n Re Im Vt sym d b c B : ed_ok n Re Im Vt sym d -> MatIs b n c B -> eds_IsNonSingular d = Ok false -> eds_SolveMatrix d b = Panic ESingular.
Proof. intros (HR & _) Hb Hk. unfold eds_SolveMatrix. rewrite (VTab_len _ _ _ HR), (MatIs_rows _ _ _ _ Hb), Z.eqb_refl, Hk. auto. Qed.
Lemma eds_SolveMatrix_ok n Re Im Vt sym d b c B : 1 <= n -> 1 <= c -> ed_ok n Re Im Vt sym d -> MatIs b n c B -> eds_IsNonSingular d = Ok true ->
  wp (eds_SolveMatrix d b) (fun r => general r /\ MatIs r n c (fun j k => fadds fzero 0 n (fun i => fadds fzero 0 n (fun q => Vt i q * B q k) / Re i * Vt i j)%f)).
Proof.
  intros Hn Hc H Hb Hk. pose proof H as (HR & _ & HV & _). unfold eds_SolveMatrix. rewrite (VTab_len _ _ _ HR), (MatIs_rows _ _ _ _ Hb), Z.eqb_refl, Hk. cbn [negb bind].
  rewrite (MatIs_cols _ _ _ _ Hb). cbn [bind].
  destruct (make2_spec n c ltac:(lia) ltac:(lia)) as (b0 & -> & Hb0). cbn [bind]. destruct (make_VTab n ltac:(lia)) as (s0 & -> & Hs0). cbn [bind]. apply wp_bind.
  set (X := fun (hi : Z) (j k : Z) => fadds fzero 0 hi (fun i => fadds fzero 0 n (fun q => Vt i q * B q k) / Re i * Vt i j)%f).
  apply (wp_for (fun k st => (exists T, VTab (snd st) n T) /\ RTab (fst st) n c (fun j q => if q <? k then X n j q else fzero))); [lia| | |].
  - split; [eexists; exact Hs0|]. eapply RTab_ext; [exact Hb0|]. intros. cbn beta. zbq; auto.
  - intros k [bp tmp] Hk' [[T HT] Hbp]. cbn [fst snd] in *. apply wp_bind.
    apply (wp_for (fun i st => VTab (snd st) n (fun q => if q <? i then B q k else T q) /\ RTab (fst st) n c (fun j q => if q <? k then X n j q else fzero))); [lia| | |].
    + split; auto. eapply VTab_ext; [exact HT|]. intros; cbn beta; zbq; auto.
    + intros i [bp1 tmp1] Hi [Ht1 Hb1]. cbn [fst snd] in *. rewrite (MatIs_At _ _ _ _ i k Hb) by lia. cbn [bind]. vput t2 Ht2. tput b2 Hb2. apply wp_ok. cbn [fst snd]. split.
      * eapply VTab_ext; [exact Ht2|]. intros; cbn beta; zbq; subst; auto.
      * eapply RTab_ext; [exact Hb2|]. intros p q Hp Hq. cbn beta. unfold tset. zbq; auto.
    + intros [bp1 tmp1] [Ht1 Hb1]. cbn [fst snd] in *.
      assert (Ht : VTab tmp1 n (fun q => B q k)) by (eapply VTab_ext; [exact Ht1|]; intros; cbn beta; zbq; auto). clear Ht1. apply wp_bind.
      apply (wp_for (fun i bp => RTab bp n c (fun j q => if q <? k then X n j q else if q =? k then X i j q else fzero))); [lia| | |].
      * eapply RTab_ext; [exact Hb1|]. intros p q Hp Hq. cbn beta. unfold X. zbq; auto.
      * intros i bp2 Hi Hb2. destruct (RTab_row _ _ _ _ i HV Hi) as (v & -> & Hv). cbn [bind].
        rewrite (for_adds (fun q => Vt i q * B q k)%f 0 n) by solve [lia | intros q s Hq; rewrite (VTab_get _ _ _ q Hv), (VTab_get _ _ _ q Ht) by lia; auto]. cbn [bind]. vget.
        eapply (wp_colloop (fun j => X (i + 1) j k) bp2 n c _ k); [exact Hb2|lia|lia|lia| |].
        -- intros j bp3 Hj Hb3. tget. rewrite (VTab_get _ _ _ j Hv) by lia. cbn [bind]. unfold colpart. zbq. unfold X at 2. rewrite fadds_S by lia. auto.
        -- intros bp3 Hb3. eapply RTab_ext; [exact Hb3|]. intros p q Hp Hq. cbn beta. unfold colpart. zbq; subst; auto.
      * intros bp2 Hb2. apply wp_ok. cbn [fst snd]. split; [eexists; exact Ht|]. eapply RTab_ext; [exact Hb2|]. intros p q Hp Hq. cbn beta. zbq; auto.
  - intros [bp tmp] [_ Hbp]. cbn [fst snd] in *. apply wp_bind. eapply wp_conseq; [apply (a2_copyIn_spec bp n c _ Hn Hc Hbp)|]. intros a Ha. apply wp_ok. split; [exact I|].
    eapply MatIs_ext; [exact Ha|]. intros j k Hj Hk'. cbn beta. zbq. auto.
Qed.
Lemma eds_Inverse_sing d : eds_IsNonSingular d = Ok false -> eds_Inverse d = Panic ESingular.
Proof. intros H. unfold eds_Inverse. rewrite H. auto. Qed.
Lemma eds_Inverse_ok n Re Im Vt sym d : 1 <= n -> ed_ok n Re Im Vt sym d -> eds_IsNonSingular d = Ok true ->
  gives (eds_Inverse d) n n (fun i j => fadds fzero 0 n (fun k => Vt k i * Vt k j / Re k)%f).
Proof.
  intros Hn H Hk. pose proof H as (HR & _ & HV & _). unfold eds_Inverse. rewrite Hk. cbn [bind negb]. rewrite (VTab_len _ _ _ HR).
  set (X := fun i j => fadds fzero 0 n (fun k => Vt k i * Vt k j / Re k)%f).
  rewrite make_ok by lia. cbn [bind].
  match goal with |- gives (bind ?a _) _ _ _ => assert (W : wp a (fun inv => RTab inv n n X)) end.
  { apply (wp_build_rows _ n n X); [lia|apply len_repeat; lia| |auto].
    intros i z Hi Hl _. destruct (make_VTab n ltac:(lia)) as (row & -> & Hr). cbn [bind]. apply wp_bind.
    eapply (wp_vecloop (X i) row n); [exact Hr|lia|lia| |].
    - intros j l' Hj Hl'. unfold X. erewrite for_adds; [reflexivity|lia|]. intros k s Hk'. destruct (RTab_row _ _ _ _ k HV Hk') as (v & -> & Hv). cbn [bind]. rewrite (VTab_get _ _ _ i Hv), (VTab_get _ _ _ j Hv) by lia. cbn [bind]. vget. auto.
    - intros l' Hl'. rewrite zset_ok by lia. apply wp_ok. exists l'. split; auto. eapply VTab_ext; [exact Hl'|]. intros; cbn beta; unfold vecpart; zbq; auto. }
  destruct W as (inv & -> & HI). cbn [bind]. destruct (FromSlices_RTab inv n n _ Hn Hn HI) as (m & -> & Hg & Hm). cbn [orpanic]. exists m. auto.
Qed.
End EigenSolve.

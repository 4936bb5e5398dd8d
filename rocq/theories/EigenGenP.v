(** The eigen decomposition of matrices that are not symmetric, in every
    arithmetic. *)
From Coq Require Import ZArith QArith List Lia Bool Floats.SpecFloat.
From Verif Require Import Base BaseLemmas Wpe Scalar Vector VecSpec VectorFacts Matrix MatSpec MatFacts Array2D BlockM Diagonal RealMatrixM Array2DFacts MatrixOps MatHist MatProps BlockFacts RealMat2 RealMat3 TabTac FSum CholFacts LUFacts2 QRFacts Hess Tridiag Schur Eigen DiagSpec EigenSpec EigenGenSpec HessSpec SchurSpec SchurFacts SchurFacts2 SchurProps EigenFacts EigenFacts2 EigenProps2 EigenGen Float64.
Import ListNotations.
Open Scope Z_scope.

Section Any.
Context {O : Ops}.
Lemma not_sym x n A : library x -> MatIs x n n A -> 1 <= n -> ~ passes_symmetry n A -> isSymmetric x (symtol n) = Ok false.
Proof.
  intros Hl Hx Hn Hs. destruct (isSymmetric_ok x n A (symtol n) Hl Hx ltac:(lia)) as ([|] & Eb & Hb); auto.
  exfalso. apply Hs. intros i j Hi Hj. apply (proj1 Hb eq_refl i j Hi Hj).
Qed.

(** ** The accessors without the cache of D *)
Definition strip (d : EdD) : EdD := mkEdD (ed_re d) (ed_im d) (ed_vecs d) (ed_sym d) (ed_cachedV d) None (ed_cachedVt d).
Lemma strip_V d : ed_V (strip d) = match ed_V d with Ok (m, d1) => Ok (m, strip d1) | Err e => Err e | Panic e => Panic e end.
Proof.
  unfold ed_V, strip. cbn [ed_re ed_im ed_vecs ed_sym ed_cachedV ed_cachedD ed_cachedVt]. destruct (ed_cachedV d) eqn:E; [unfold strip; rewrite E; auto|].
  destruct (orpanic _); cbn [bind]; auto. destruct (for_ _ _ _ _); cbn [bind]; auto.
Qed.
Lemma strip_VT d : ed_VT (strip d) = match ed_VT d with Ok (m, d1) => Ok (m, strip d1) | Err e => Err e | Panic e => Panic e end.
Proof.
  unfold ed_VT, strip. cbn [ed_re ed_im ed_vecs ed_sym ed_cachedV ed_cachedD ed_cachedVt]. destruct (ed_cachedVt d) eqn:E; [unfold strip; rewrite E; auto|].
  destruct (orpanic _); cbn [bind]; auto. destruct (for_ _ _ _ _); cbn [bind]; auto.
Qed.
Lemma strip_D d m d1 : ed_D d = Ok (m, d1) -> strip d1 = strip d.
Proof.
  unfold ed_D. destruct (ed_cachedD d); [intros [= _ <-]; auto|]. destruct (orpanic _); cbn [bind]; try discriminate. destruct (for_ _ _ _ _); cbn [bind]; try discriminate.
  intros [= _ <-]. reflexivity.
Qed.
Lemma strip_calls n Re Im Vt d d' : 1 <= n -> ed_ok n Re Im Vt false (strip d) -> ed_calls d d' -> ed_ok n Re Im Vt false (strip d').
Proof.
  intros Hn Hd Hc. induction Hc as [d|d d1 d2 x E _ IH|d d1 d2 x E _ IH|d d1 d2 x E _ IH|d d1 d2 x E _ IH]; auto; apply IH.
  - destruct (ed_V_ok n Re Im Vt false (strip d) Hn Hd) as ([x' d1'] & E' & _ & _ & K). rewrite strip_V, E in E'. injection E' as <- <-. exact K.
  - rewrite (strip_D _ _ _ E). auto.
  - destruct (ed_VT_ok n Re Im Vt false (strip d) Hn Hd) as ([x' d1'] & E' & _ & _ & K). rewrite strip_VT, E in E'. injection E' as <- <-. exact K.
  - unfold ed_SquareRoot in E. destruct Hd as (_ & _ & _ & Hs & _). cbn in Hs. rewrite Hs in E. discriminate.
Qed.
Lemma calls_trans d d1 d2 : sc_calls d d1 -> sc_calls d1 d2 -> sc_calls d d2.
Proof. intros H. induction H; intros; auto; [eapply scc_P|eapply scc_PT|eapply scc_T]; eauto. Qed.

(** ** The constructor *)
Lemma gen_new x n A : (forall x, flt (fsqrt x) fzero = false) -> flt fzero fzero = false -> library x -> MatIs x n n A -> 1 <= n -> ~ passes_symmetry n A ->
  (exists d, NewEigenDecomposition x = Ok d) \/ NewEigenDecomposition x = Err EArithmetic \/ (3 <= n /\ NewEigenDecomposition x = Panic EMaxIter).
Proof.
  intros Hsq H0 Hl Hx Hn Hs. rewrite (ed_new_gen x n A Hl Hx Hn (not_sym x n A Hl Hx Hn Hs)). destruct (sc_total x n A Hl Hx Hn) as [(sc & E)|[H3 E]]; rewrite E; [|auto].
  destruct (sc_state x n A sc Hl Hx Hn) as (T & P & (KT & KP & _) & _); [exists sc; split; [auto|constructor]|].
  destruct (ed_schurValues_ok n (sc_T sc) T KT ltac:(lia)) as ([re im] & -> & pr & Re & Im & V1 & V2 & V3). cbn [bind fst snd] in *.
  pose proof (ed_schurVectors_sh n re im (sc_T sc) (sc_P sc) T P Re Im pr Hn KT KP V1 V2 V3 Hsq H0) as W. destruct (ed_schurVectors _ _ _ _) as [vs|e|e]; cbn [wpe] in W; cbn [bind].
  - left. eauto.
  - subst. auto.
  - contradiction.
Qed.
Lemma gen_made x n A d0 : (forall x, flt (fsqrt x) fzero = false) -> flt fzero fzero = false -> library x -> MatIs x n n A -> 1 <= n -> ~ passes_symmetry n A -> NewEigenDecomposition x = Ok d0 ->
  exists sc T P pr Re Im Vt, NewSchurTransformer x = Ok sc /\ sc_ok n T P sc /\ split_of n T pr Re Im /\ ed_ok n Re Im Vt false d0 /\ ed_schurVectors (ed_re d0) (ed_im d0) (sc_T sc) (sc_P sc) = Ok (ed_vecs d0).
Proof.
  intros Hsq H0 Hl Hx Hn Hs E0. rewrite (ed_new_gen x n A Hl Hx Hn (not_sym x n A Hl Hx Hn Hs)) in E0. destruct (NewSchurTransformer x) as [sc|e|e] eqn:E; try discriminate.
  destruct (sc_state x n A sc Hl Hx Hn) as (T & P & K & _); [exists sc; split; [auto|constructor]|]. pose proof K as (KT & KP & _).
  destruct (ed_schurValues_ok n (sc_T sc) T KT ltac:(lia)) as ([re im] & Ev & pr & Re & Im & V1 & V2 & V3). rewrite Ev in E0. cbn [bind fst snd] in *.
  pose proof (ed_schurVectors_sh n re im (sc_T sc) (sc_P sc) T P Re Im pr Hn KT KP V1 V2 V3 Hsq H0) as W. destruct (ed_schurVectors _ _ _ _) as [vs|e|e] eqn:Es; cbn [wpe] in W; cbn [bind] in E0; try discriminate.
  injection E0 as <-. destruct W as (Vt & HV). exists sc, T, P, pr, Re, Im, Vt. split; [auto|]. split; [auto|]. split; [auto|]. split; [|exact Es].
  unfold ed_ok. cbn. refine (conj _ (conj _ (conj _ (conj _ (conj _ (conj _ _)))))); auto; try exact I.
Qed.
Lemma gen_fresh x n A d0 : library x -> MatIs x n n A -> 1 <= n -> ~ passes_symmetry n A -> NewEigenDecomposition x = Ok d0 ->
  ed_cachedV d0 = None /\ ed_cachedD d0 = None /\ ed_cachedVt d0 = None.
Proof.
  intros Hl Hx Hn Hs E0. rewrite (ed_new_gen x n A Hl Hx Hn (not_sym x n A Hl Hx Hn Hs)) in E0. destruct (NewSchurTransformer x) as [sc|e|e] eqn:E; try discriminate.
  destruct (ed_schurValues _) as [[re im]|e|e]; cbn [bind] in E0; try discriminate. destruct (ed_schurVectors _ _ _ _); cbn [bind] in E0; try discriminate. injection E0 as <-. auto.
Qed.
Lemma gen_outcome x n A sc T P : (forall x, flt (fsqrt x) fzero = false) -> flt fzero fzero = false -> library x -> MatIs x n n A -> 1 <= n -> ~ passes_symmetry n A ->
  NewSchurTransformer x = Ok sc -> sc_ok n T P sc ->
  exists norm, sc_norm (sc_T sc) = Ok norm /\ if equalsWithError norm fzero eps_ed then NewEigenDecomposition x = Err EArithmetic else exists d, NewEigenDecomposition x = Ok d.
Proof.
  intros Hsq H0 Hl Hx Hn Hs E K. pose proof K as (KT & KP & _). rewrite (ed_new_gen x n A Hl Hx Hn (not_sym x n A Hl Hx Hn Hs)), E.
  destruct (ed_schurValues_ok n (sc_T sc) T KT ltac:(lia)) as ([re im] & -> & pr & Re & Im & V1 & V2 & V3). cbn [bind fst snd] in *.
  pose proof (sc_norm_total n (sc_T sc) T KT ltac:(lia)) as (norm & En & _). exists norm. split; auto.
  pose proof (ed_schurVectors_go n re im (sc_T sc) (sc_P sc) T P Re Im pr norm Hn KT KP V1 V2 V3 Hsq H0 En) as Q. destruct (equalsWithError norm fzero eps_ed); [rewrite Q; reflexivity|].
  destruct Q as (vs & -> & _). eexists. reflexivity.
Qed.
Lemma gen_state x n A d sc : (forall x, flt (fsqrt x) fzero = false) -> flt fzero fzero = false -> library x -> MatIs x n n A -> 1 <= n -> ~ passes_symmetry n A -> ed_of x d -> sc_of x sc ->
  exists T P pr Re Im Vt, sc_ok n T P sc /\ split_of n T pr Re Im /\ ed_ok n Re Im Vt false (strip d).
Proof.
  intros Hsq H0 Hl Hx Hn Hs (d0 & E0 & Hc) (s0 & F0 & Hc'). destruct (gen_made x n A d0 Hsq H0 Hl Hx Hn Hs E0) as (s1 & T & P & pr & Re & Im & Vt & E1 & K & Hsp & Hd & _).
  rewrite F0 in E1. injection E1 as <-. exists T, P, pr, Re, Im, Vt. split; [eapply sc_calls_ok; eauto|]. split; [auto|]. apply (strip_calls n Re Im Vt d0 d Hn); auto.
  destruct Hd as (D1 & D2 & D3 & D4 & D5 & D6 & D7). unfold ed_ok, strip. cbn. refine (conj _ (conj _ (conj _ (conj _ (conj _ (conj _ _)))))); auto; try exact I.
Qed.
Lemma gen_access x n A d sc : (forall x, flt (fsqrt x) fzero = false) -> flt fzero fzero = false -> library x -> MatIs x n n A -> 1 <= n -> ~ passes_symmetry n A -> ed_of x d -> sc_of x sc ->
  exists Tm T sc1 pr Re Im Vm Wm V d1 d2, sc_getT sc = Ok (Tm, sc1) /\ MatIs Tm n n T /\ split_of n T pr Re Im /\
    VecIs (VArr (ed_RealEigenvalues d)) n Re /\ VecIs (VArr (ed_ImagEigenvalues d)) n Im /\
    ed_V d = Ok (Vm, d1) /\ ed_VT d = Ok (Wm, d2) /\ MatIs Vm n n V /\ MatIs Wm n n (fun i j => V j i) /\
    (forall k, 0 <= k < n -> ed_RealEigenvalueAt d k = Ok (Re k) /\ ed_ImagEigenvalue d k = Ok (Im k) /\ exists v, ed_EigenvectorAt d k = Ok v /\ VecIs v n (fun i => V i k)).
Proof.
  intros Hsq H0 Hl Hx Hn Hs Hd Hsc. destruct (gen_state x n A d sc Hsq H0 Hl Hx Hn Hs Hd Hsc) as (T & P & pr & Re & Im & Vt & K & Hsp & He).
  destruct (sc_T_ok n T P sc Hn K) as ([Tm sc1] & ET & _ & HT & _). destruct (ed_V_ok n Re Im Vt false (strip d) Hn He) as ([Vm d1'] & EV & _ & HV & _). destruct (ed_VT_ok n Re Im Vt false (strip d) Hn He) as ([Wm d2'] & EW & _ & HW & _).
  rewrite strip_V in EV. rewrite strip_VT in EW. destruct (ed_V d) as [[Vm1 d1]|e|e]; try discriminate. destruct (ed_VT d) as [[Wm1 d2]|e|e]; try discriminate.
  injection EV as <- <-. injection EW as <- <-. cbn [fst snd] in *. destruct He as (D1 & D2 & D3 & _). cbn [strip ed_re ed_im ed_vecs] in *.
  exists Tm, T, sc1, pr, Re, Im, Vm1, Wm1, (fun i j => Vt j i), d1, d2. split; [auto|]. split; [auto|]. split; [auto|].
  split; [apply VTab_VecIs; exact D1|]. split; [apply VTab_VecIs; exact D2|]. split; [auto|]. split; [auto|]. split; [auto|]. split; [auto|].
  intros k Hk. split; [apply (VTab_zgets _ n); auto|]. split; [apply (VTab_zgets _ n); auto|]. unfold ed_EigenvectorAt. destruct (RTab_row _ _ _ _ _ D3 Hk) as (row & -> & Hr). cbn [bind].
  eexists. split; [reflexivity|]. apply VTab_VecIs. exact Hr.
Qed.
End Any.

(** ** The hypotheses on float64 *)
Lemma sqrt_not_neg c (x : @F (SFOps c)) : flt (fsqrt x) fzero = false.
Proof.
  change (SFltb (SFsqrt 53 1024 x) (S754_zero false) = false). destruct x as [s|s| |s m e]; try destruct s; auto.
  unfold SFsqrt. destruct (SFsqrt_core_binary 53 1024 _ _) as [[mz ez] lz].
  enough (K : forall mz ez lz, SFltb (binary_round_aux 53 1024 false mz ez lz) (S754_zero false) = false) by apply K.
  clear. intros mz ez lz. unfold binary_round_aux. destruct (shr_fexp 53 1024 mz ez lz) as [m1 e1]. destruct (shr_fexp 53 1024 _ e1 loc_Exact) as [m2 e2].
  destruct (shr_m m2); auto. destruct (e2 <=? _); auto.
Qed.
Lemma zero_not_lt c : flt (@fzero (SFOps c)) fzero = false.
Proof. reflexivity. Qed.

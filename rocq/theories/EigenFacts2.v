(** The eigen decomposition, for arbitrary scalar operations: constructors and
    accessors. *)
From Coq Require Import ZArith QArith List Lia Bool.
From Verif Require Import Base BaseLemmas Wpe Scalar Vector VecSpec VectorFacts Matrix MatSpec MatFacts Array2D BlockM Diagonal RealMatrixM Array2DFacts MatrixOps MatHist MatProps BlockFacts RealMat2 RealMat3 TabTac FSum CholFacts LUFacts2 QRFacts Hess Tridiag Schur Eigen DiagSpec EigenSpec HessSpec TridiagFacts EigenFacts.
Import ListNotations.
Open Scope Z_scope.

Lemma upd_nat_upd_nat {A} (l : list A) k x y : upd_nat (upd_nat l k x) k y = upd_nat l k y.
Proof. revert k. induction l as [|a l IH]; intros [|k]; cbn; auto. rewrite IH. auto. Qed.
Lemma upd_upd {A} (l : list A) i x y : upd (upd l i x) i y = upd l i y.
Proof. unfold upd. destruct (0 <=? i); auto. apply upd_nat_upd_nat. Qed.

Section EigenFacts2.
Context {O : Ops}.

Section State.
Variable n : Z.
Variables Re Im : Z -> F.
Variable Vt : Z -> Z -> F.   (** row k: eigenvector k *)
Variable sym : bool.
Definition ed_tabD (i j : Z) : F :=
  if i =? j then Re i else
  if (0 <? compareTo (Im i) fzero eps_ed) && (j =? i + 1) then Im i else
  if (compareTo (Im i) fzero eps_ed <? 0) && (j =? i - 1) then Im i else fzero.
Definition ed_okD : Prop := forall i, 0 <= i < n -> (0 < compareTo (Im i) fzero eps_ed -> i + 1 < n) /\ (compareTo (Im i) fzero eps_ed < 0 -> 0 < i).
Definition ed_ok (d : EdD) : Prop :=
  VTab (ed_re d) n Re /\ VTab (ed_im d) n Im /\ RTab (ed_vecs d) n n Vt /\ ed_sym d = sym /\
  tcache (ed_cachedV d) n n (fun i j => Vt j i) /\ tcache (ed_cachedD d) n n ed_tabD /\ tcache (ed_cachedVt d) n n Vt.
End State.
Ltac edok := refine (conj _ (conj _ (conj _ (conj _ (conj _ (conj _ _)))))); auto; try (split; auto; fail).

Lemma ed_V_ok n Re Im Vt sym d : 1 <= n -> ed_ok n Re Im Vt sym d ->
  wp (ed_V d) (fun r => general (fst r) /\ MatIs (fst r) n n (fun i j => Vt j i) /\ ed_ok n Re Im Vt sym (snd r)).
Proof.
  intros Hn (HR & HI & HV & HS & CV & CD & CVt). unfold ed_V. destruct (ed_cachedV d) as [r|] eqn:Ec.
  - apply wp_ok. cbn [fst snd]. destruct CV as [G1 G2]. refine (conj G1 (conj G2 _)). unfold ed_ok. rewrite Ec. edok.
  - rewrite (RTab_len _ _ _ _ HV). destruct (new_zero n n Hn Hn) as (_ & _ & (v0 & -> & Hg0 & H0)). cbn [orpanic bind]. apply wp_bind.
    apply (wp_for (fun k v => general v /\ MatIs v n n (fun i j => if j <? k then Vt j i else fzero))); [lia| | |].
    + split; auto. eapply MatIs_ext; [exact H0|]. intros. cbn beta. zbq; auto.
    + intros k v Hk [Hg Hv]. vrow l Hl. destruct (m_SetColumnVector_ok v n n _ k (VArr l) (Vt k) Hg Hv Hk) as (v1 & -> & Hg1 & Hv1).
      { apply VTab_VecIs. exact Hl. } { left. eauto. }
      apply wp_ok. split; auto. eapply MatIs_ext; [exact Hv1|]. intros i j Hi Hj. cbn beta. unfold colset. zbq; subst; auto.
    + intros v [Hg Hv]. apply wp_ok. cbn [fst snd].
      assert (Hv' : MatIs v n n (fun i j => Vt j i)) by (eapply MatIs_ext; [exact Hv|]; intros; cbn beta; zbq; auto).
      refine (conj Hg (conj Hv' _)). unfold ed_ok. cbn. edok.
Qed.
Lemma ed_VT_ok n Re Im Vt sym d : 1 <= n -> ed_ok n Re Im Vt sym d ->
  wp (ed_VT d) (fun r => general (fst r) /\ MatIs (fst r) n n Vt /\ ed_ok n Re Im Vt sym (snd r)).
Proof.
  intros Hn (HR & HI & HV & HS & CV & CD & CVt). unfold ed_VT. destruct (ed_cachedVt d) as [r|] eqn:Ec.
  - apply wp_ok. cbn [fst snd]. destruct CVt as [G1 G2]. refine (conj G1 (conj G2 _)). unfold ed_ok. rewrite Ec. edok.
  - rewrite (RTab_len _ _ _ _ HV). destruct (new_zero n n Hn Hn) as (_ & _ & (v0 & -> & Hg0 & H0)). cbn [orpanic bind]. apply wp_bind.
    apply (wp_for (fun k v => general v /\ MatIs v n n (fun i j => if i <? k then Vt i j else fzero))); [lia| | |].
    + split; auto. eapply MatIs_ext; [exact H0|]. intros. cbn beta. zbq; auto.
    + intros k v Hk [Hg Hv]. vrow l Hl. destruct (m_SetRowVector_ok v n n _ k (VArr l) (Vt k) Hg Hv Hk) as (v1 & -> & Hg1 & Hv1).
      { apply VTab_VecIs. exact Hl. } { left. eauto. }
      apply wp_ok. split; auto. eapply MatIs_ext; [exact Hv1|]. intros i j Hi Hj. cbn beta. unfold rowset. zbq; subst; auto.
    + intros v [Hg Hv]. apply wp_ok. cbn [fst snd].
      assert (Hv' : MatIs v n n Vt) by (eapply MatIs_ext; [exact Hv|]; intros; cbn beta; zbq; auto).
      refine (conj Hg (conj Hv' _)). unfold ed_ok. cbn. edok.
Qed.
Lemma ed_D_ok n Re Im Vt sym d : 1 <= n -> ed_okD n Im -> ed_ok n Re Im Vt sym d ->
  wp (ed_D d) (fun r => general (fst r) /\ MatIs (fst r) n n (ed_tabD Re Im) /\ ed_ok n Re Im Vt sym (snd r)).
Proof.
  intros Hn HC (HR & HI & HV & HS & CV & CD & CVt). unfold ed_D. destruct (ed_cachedD d) as [r|] eqn:Ec.
  - apply wp_ok. cbn [fst snd]. destruct CD as [G1 G2]. refine (conj G1 (conj G2 _)). unfold ed_ok. rewrite Ec. edok.
  - rewrite (VTab_len _ _ _ HI). destruct (withdiag_ok (ed_re d) n Re Hn ltac:(apply VTab_VecIs; auto)) as (v0 & -> & Hg0 & H0). cbn [orpanic bind]. apply wp_bind.
    apply (wp_for (fun k v => general v /\ MatIs v n n (fun i j => if i <? k then ed_tabD Re Im i j else if i =? j then Re i else fzero))); [lia| | |].
    + split; auto. eapply MatIs_ext; [exact H0|]. intros. cbn beta. unfold diagonal. zbq; auto.
    + intros k v Hk [Hg Hv]. vget. destruct (HC k Hk) as [C1 C2].
      destruct (Z.ltb_spec 0 (compareTo (Im k) fzero eps_ed)).
      * eapply wp_setentry; [exact Hg|exact Hv|lia|lia|]. intros v1 Hg1 Hv1. split; auto.
        eapply MatIs_ext; [exact Hv1|]. intros i j Hi Hj. cbn beta. unfold tset, ed_tabD.
        destruct (Z.eqb_spec i k) as [->|]; cbn [andb]; [|zbq; auto].
        rewrite Z.ltb_irrefl. replace (k <? k + 1) with true by (symmetry; apply Z.ltb_lt; lia). zbq; subst; auto.
      * destruct (Z.ltb_spec (compareTo (Im k) fzero eps_ed) 0).
        -- eapply wp_setentry; [exact Hg|exact Hv|lia|lia|]. intros v1 Hg1 Hv1. split; auto.
           eapply MatIs_ext; [exact Hv1|]. intros i j Hi Hj. cbn beta. unfold tset, ed_tabD.
           destruct (Z.eqb_spec i k) as [->|]; cbn [andb]; [|zbq; auto].
           rewrite Z.ltb_irrefl. replace (k <? k + 1) with true by (symmetry; apply Z.ltb_lt; lia). zbq; subst; auto.
        -- apply wp_ok. split; auto. eapply MatIs_ext; [exact Hv|]. intros i j Hi Hj. cbn beta. unfold ed_tabD.
           destruct (Z.eq_dec i k) as [->|]; [|zbq; auto].
           rewrite Z.ltb_irrefl. replace (k <? k + 1) with true by (symmetry; apply Z.ltb_lt; lia). zbq; subst; auto.
    + intros v [Hg Hv]. apply wp_ok. cbn [fst snd].
      assert (Hv' : MatIs v n n (ed_tabD Re Im)) by (eapply MatIs_ext; [exact Hv|]; intros; cbn beta; zbq; auto).
      refine (conj Hg (conj Hv' _)). unfold ed_ok. cbn. edok.
Qed.

Lemma ed_SquareRoot_state n Re Im Vt sym d r d' : 1 <= n -> ed_ok n Re Im Vt sym d -> ed_SquareRoot d = Ok (r, d') ->
  ed_ok n Re Im Vt sym d' /\ sym = true /\ (forall i, 0 <= i < n -> fle (Re i) fzero = false).
Proof.
  intros Hn H. pose proof H as (HR & _ & _ & HS & _). unfold ed_SquareRoot. rewrite HS. destruct sym; [|discriminate]. cbn [negb].
  rewrite (VTab_len _ _ _ HR). destruct (make_VTab n ltac:(lia)) as (s0 & -> & Hs0). cbn [bind].
  assert (W : match for_ 0 n (fun i sq => let* x := zget (ed_re d) i in if fle x fzero then Panic EUnsupported else zset sq i (fsqrt x)) s0 with
    | Ok sq => VTab sq n (fun i => fsqrt (Re i)) /\ forall i, 0 <= i < n -> fle (Re i) fzero = false | _ => True end).
  { destruct (for_ 0 n _ s0) as [sq| |] eqn:Ef; auto.
    enough (G : forall lo l, 0 <= lo <= n -> VTab l n (fun i => if i <? lo then fsqrt (Re i) else fzero) -> (forall i, 0 <= i < lo -> fle (Re i) fzero = false) ->
      for_ lo n (fun i sq => let* x := zget (ed_re d) i in if fle x fzero then Panic EUnsupported else zset sq i (fsqrt x)) l = Ok sq ->
      VTab sq n (fun i => fsqrt (Re i)) /\ forall i, 0 <= i < n -> fle (Re i) fzero = false).
    { apply (G 0 s0); auto; try lia. eapply VTab_ext; [exact Hs0|]. intros. cbn beta. zbq; auto. }
    intros lo. remember (Z.to_nat (n - lo)) as t eqn:Et. revert lo Et. induction t as [|t IH]; intros lo Et l Hlo Hl Hp.
    - rewrite for_nil by lia. intros [= <-]. assert (lo = n) by lia. subst lo. split; auto. eapply VTab_ext; [exact Hl|]. intros; cbn beta; zbq; auto.
    - rewrite for_step by lia. vget. destruct (fle (Re lo) fzero) eqn:El; [discriminate|].
      destruct (VTab_set _ n _ lo (fsqrt (Re lo)) Hl) as (l1 & -> & Hl1); [lia|]. cbn [bind]. apply IH; try lia.
      + eapply VTab_ext; [exact Hl1|]. intros; cbn beta; zbq; subst; auto.
      + intros i Hi. destruct (Z.eq_dec i lo) as [->|]; auto. apply Hp. lia. }
  destruct (for_ 0 n _ s0) as [sq| |]; try discriminate. cbn [bind]. destruct W as [Hsq Hp].
  destruct (orpanic _) as [sm| |]; try discriminate. cbn [bind].
  destruct (ed_V_ok n Re Im Vt true d Hn H) as ([v d1] & -> & _ & _ & H1). cbn [bind fst snd] in *.
  destruct (ed_VT_ok n Re Im Vt true d1 Hn H1) as ([vt d2] & -> & _ & _ & H2). cbn [bind fst snd] in *.
  destruct (m_Multiply v sm) as [m1| |]; try discriminate. cbn [bind]. destruct (m_Multiply m1 vt) as [m2| |]; try discriminate. cbn [bind].
  intros [= _ <-]. auto.
Qed.
Lemma ed_calls_ok n Re Im Vt sym d d' : 1 <= n -> ed_okD n Im -> ed_ok n Re Im Vt sym d -> ed_calls d d' -> ed_ok n Re Im Vt sym d'.
Proof.
  intros Hn HC Hd Hc. induction Hc as [d|d d1 d2 x E _ IH|d d1 d2 x E _ IH|d d1 d2 x E _ IH|d d1 d2 x E _ IH]; auto; apply IH.
  - destruct (ed_V_ok n Re Im Vt sym d Hn Hd) as ([x' d1'] & E' & _ & _ & K). rewrite E in E'. injection E' as <- <-. exact K.
  - destruct (ed_D_ok n Re Im Vt sym d Hn HC Hd) as ([x' d1'] & E' & _ & _ & K). rewrite E in E'. injection E' as <- <-. exact K.
  - destruct (ed_VT_ok n Re Im Vt sym d Hn Hd) as ([x' d1'] & E' & _ & _ & K). rewrite E in E'. injection E' as <- <-. exact K.
  - eapply ed_SquareRoot_state; eauto.
Qed.

(** ** Constructors *)
Definition ed_E0 (n : Z) (Sc : Z -> F) (i : Z) : F := if i <? n - 1 then Sc i else fzero.
Definition ed_nul (mx x : F) : F := if fne mx fzero then nullv doubleeps mx x else x.
Definition ed_fin (n : Z) (D2 : Z -> F) (i : Z) : F :=
  let D3 := fun j => D2 (ed_perm n D2 n j) in let mx := maxabs1 n D3 in
  if fne mx fzero then (if flt (fabs (D3 i)) (doubleeps * mx)%f then fzero else D3 i) else D3 i.

Lemma ed_findEV_ok (Ee : err -> Prop) (P : (Z -> F) -> (Z -> Z -> F) -> Prop) n mn sec z Mn Sc Zf : 1 <= n -> VTab mn n Mn -> (forall i, 0 <= i < n - 1 -> zget sec i = Ok (Sc i)) -> RTab z n n Zf ->
  (let E0 := ed_E0 n Sc in let mx := maxabs n Mn E0 in
   forall d e, VTab d n (fun i => ed_nul mx (Mn i)) -> VTab e n (fun i => ed_nul mx (E0 i)) ->
     wpe (ed_ql n (d, e, z)) (fun st => exists D2 E2 Z2, VTab (fst (fst st)) n D2 /\ VTab (snd (fst st)) n E2 /\ RTab (snd st) n n Z2 /\ P D2 Z2) Ee) ->
  wpe (ed_findEigenVectors mn sec z) (fun r => exists D2 Z2, P D2 Z2 /\
    ed_ok n (ed_fin n D2) (fun _ => fzero) (fun k j => Z2 j (ed_perm n D2 n k)) true r) Ee.
Proof.
  intros Hn Hm Hs Hz HQ. unfold ed_findEigenVectors. rewrite (VTab_len _ _ _ Hm). cbv zeta in HQ.
  destruct (make_VTab n ltac:(lia)) as (d0 & -> & Hd0). cbn [bind]. apply wpe_bind_wp.
  apply (wp_for (fun k de => VTab (fst de) n (fun i => if i <? k then Mn i else fzero) /\ VTab (snd de) n (fun i => if i <? k then Sc i else fzero))); [lia| | |].
  - cbn [fst snd]. split; (eapply VTab_ext; [exact Hd0|]; intros; cbn beta; zbq; auto).
  - intros i [d1 e1] Hi [Hd1 He1]. cbn [fst snd] in *. rewrite Hs by lia. cbn [bind]. vget. vput d2 Hd2. vput e2 He2. apply wp_ok. cbn [fst snd].
    split; (eapply VTab_ext; [eassumption|]; intros; cbn beta; zbq; subst; auto).
  - intros [d1 e1] [Hd1 He1]. cbn [fst snd] in *. vget. vput d2 Hd2. vput e2 He2.
    assert (Hd3 : VTab d2 n Mn). { eapply VTab_ext; [exact Hd2|]. intros j Hj; cbn beta; zbq; subst; auto. }
    assert (He3 : VTab e2 n (ed_E0 n Sc)). { eapply VTab_ext; [exact He2|]. intros j Hj; cbn beta; unfold ed_E0; zbq; subst; auto. }
    rewrite (ed_maxabs_ok n d2 e2 _ _ Hd3 He3) by lia. cbn [bind]. apply wpe_bind_wp.
    eapply wp_conseq; [apply (ed_null_ok n (maxabs n Mn (ed_E0 n Sc)) d2 e2 _ _ Hd3 He3); lia|]. intros [d4 e4] [Hd4 He4]. cbn [fst snd] in *.
    apply wpe_bind. eapply wpe_conseq; [apply (HQ d4 e4 Hd4 He4)| |auto]. intros [[d5 e5] z5] (D2 & E2 & Z2 & Hd5 & He5 & Hz5 & HP). cbn [fst snd] in *.
    apply wpe_bind_wp. eapply wp_conseq; [apply (ed_sort_ok n d5 z5 D2 Z2 Hd5 Hz5); lia|]. intros [d6 z6] [Hd6 Hz6]. cbn [fst snd] in *.
    apply wpe_bind_wp. eapply wp_conseq; [apply (ed_null2_ok n d6 _ Hd6); lia|]. cbv zeta. intros d7 Hd7.
    apply wpe_bind_wp. eapply wp_conseq; [apply (ed_columns_ok n z6 _ Hz6); lia|]. intros vs Hvs. apply wpe_ok.
    exists D2, Z2. split; auto. unfold ed_ok. cbn. edok.
Qed.

(** Whatever the arithmetic: a decomposition or the iteration error. *)
Lemma ed_findEV_total n mn sec z Mn Sc Zf : 1 <= n -> VTab mn n Mn -> (forall i, 0 <= i < n - 1 -> zget sec i = Ok (Sc i)) -> RTab z n n Zf ->
  wpe (ed_findEigenVectors mn sec z) (fun r => exists Re Vt, ed_ok n Re (fun _ => fzero) Vt true r) (fun x => x = EMaxIter).
Proof.
  intros Hn Hm Hs Hz. eapply wpe_conseq; [apply (ed_findEV_ok (fun x => x = EMaxIter) (fun _ _ => True) n mn sec z Mn Sc Zf); auto| |auto].
  - intros E0 mx d e Hd He. eapply wpe_conseq; [apply (ed_ql_total n (d, e, z)); [do 3 eexists; eauto|lia]| |auto].
    intros [[d1 e1] z1] (D1 & E1 & Z1 & H1 & H2 & H3). exists D1, E1, Z1. auto.
  - intros r (D2 & Z2 & _ & H). eauto.
Qed.

(** isSymmetric *)
Definition symtol (n : Z) : F := (flit 10 * flit (inject_Z n) * flit (inject_Z n) * doubleeps)%f.
Definition asymm (tol : F) (A : Z -> Z -> F) (i j : Z) : bool := fgt (fabs (A i j - A j i)%f) (fmax (fabs (A i j)) (fabs (A j i)) * tol)%f.
Lemma isSymmetric_ok x n A tol : library x -> MatIs x n n A -> 0 <= n ->
  exists b, isSymmetric x tol = Ok b /\ (b = true <-> forall i j, 0 <= i < j -> j < n -> asymm tol A i j = false).
Proof.
  intros Hl Hx Hn. unfold isSymmetric. rewrite (MatIs_rows _ _ _ _ Hx), (MatIs_cols _ _ _ _ Hx). cbn [bind]. rewrite Z.eqb_refl. cbn [negb].
  enough (W : wp (for_brk 0 n (fun i _ => for_brk (i + 1) n (fun j _ => let* mij := m_At x i j in let* mji := m_At x j i in
      Ok (fgt (fabs (mij - mji)%f) (fmax (fabs mij) (fabs mji) * tol)%f, tt)) tt) tt)
    (fun r => if fst r then exists i j, 0 <= i < j /\ j < n /\ asymm tol A i j = true else forall i j, 0 <= i < j -> j < n -> asymm tol A i j = false)).
  { destruct W as ([b []] & -> & H). cbn [bind fst]. exists (negb b). split; auto. cbn [fst] in H. destruct b; cbn [negb]; split; auto; try discriminate.
    intros K. destruct H as (i & j & H1 & H2 & H3). rewrite K in H3 by auto. discriminate. }
  apply (wp_for_brk (fun k _ => forall i j, 0 <= i < j -> j < n -> i < k -> asymm tol A i j = false) (fun _ => exists i j, 0 <= i < j /\ j < n /\ asymm tol A i j = true)); auto; [intros; lia| |].
  - intros i [] Hi H.
    apply (wp_for_brk (fun k _ => forall j, i < j < k -> asymm tol A i j = false) (fun _ => exists i j, 0 <= i < j /\ j < n /\ asymm tol A i j = true)); [lia|intros; lia| | |].
    + intros j [] Hj Hk. rewrite (MatIs_At _ _ _ _ i j Hx), (MatIs_At _ _ _ _ j i Hx) by lia. cbn [bind]. apply wp_ok. cbn [fst snd]. fold (asymm tol A i j).
      destruct (asymm tol A i j) eqn:Ea. { exists i, j. repeat split; auto; lia. }
      intros j' Hj'. destruct (Z.eq_dec j' j) as [->|]; auto. apply Hk. lia.
    + intros [] Hk. cbn [fst snd]. intros a b Ha Hb Hak. destruct (Z.eq_dec a i) as [->|]; [apply Hk; lia|apply H; lia].
    + intros [] Hk. exact Hk.
  - intros [] H. cbn [fst]. intros. apply H; auto; lia.
Qed.

Lemma td_Ref_ok m M D Sc d : td_ok m M D Sc d -> VTab (td_MainDiagonalRef d) m D /\ VTab (td_SecondaryDiagonalRef d) (m - 1) Sc.
Proof. intros (_ & H1 & H2 & _). auto. Qed.

(** The symmetric branch of the constructor. *)
Lemma ed_new_sym x n A : library x -> MatIs x n n A -> 1 <= n -> isSymmetric x (symtol n) = Ok true ->
  exists mn sec z, NewEigenDecomposition x = ed_findEigenVectors mn sec z /\
    let '(M, D, Sc) := td_fin n A in VTab mn n D /\ VTab sec (n - 1) Sc /\ RTab z n n (fun i j => td_tabQT n M Sc j i).
Proof.
  intros Hl Hx Hn Hs. unfold NewEigenDecomposition. rewrite (MatIs_rows _ _ _ _ Hx), (MatIs_cols _ _ _ _ Hx). cbn [bind].
  change (flit 10 * flit (inject_Z n) * flit (inject_Z n) * doubleeps)%f with (symtol n). rewrite Hs. cbn [bind].
  pose proof (td_new_spec x n A Hl Hx Hn) as W. pose proof (td_state x n A) as St. destruct (td_fin n A) as [[M D] Sc].
  destruct W as (d0 & E & _). rewrite E. cbn [bind].
  assert (Hd0 : td_ok n M D Sc d0) by (apply St; auto; exists d0; split; [exact E|constructor]).
  destruct (td_Ref_ok _ _ _ _ _ Hd0) as [H1 H2].
  destruct (td_Q_ok n M D Sc d0 Hn Hd0) as ([q d1] & -> & Hg & Hq & _). cbn [bind fst snd] in *.
  destruct (m_Data_ok q n n _ (gen_lib _ Hg) Hq) as (z & -> & Hz). cbn [bind]. exists (td_MainDiagonalRef d0), (td_SecondaryDiagonalRef d0), z. auto.
Qed.
Lemma VTab_zgets l n f : VTab l n f -> forall i, 0 <= i < n -> zget l i = Ok (f i).
Proof. intros H i Hi. apply (VTab_get l n); auto. Qed.

(** The arrays of NewEigenDecompositionFromTridiagonal. *)
Lemma ed_new_tri mn sec n Mn : 1 <= n -> VTab mn n Mn -> exists z, NewEigenDecompositionFromTridiagonal mn sec = ed_findEigenVectors mn sec z /\
  RTab z n n (fun i j => if i =? j then fone else fzero).
Proof.
  intros Hn Hm. unfold NewEigenDecompositionFromTridiagonal. cbn [app]. rewrite (VTab_len _ _ _ Hm). rewrite make_ok by lia. cbn [bind].
  assert (W : wp (for_ 0 n (fun i z => let* row := make fzero n in let* z := zset z i row in mset z i i fone) (repeat [] (Z.to_nat n))) (fun z => RTab z n n (fun i j => if i =? j then fone else fzero))).
  { apply (wp_build_rows _ n n (fun i j => if i =? j then fone else fzero)); [lia|apply len_repeat; lia| |auto].
    intros i z Hi Hl _. destruct (make_VTab n ltac:(lia)) as (row & -> & Hr). cbn [bind]. rewrite zset_ok by lia. cbn [bind].
    unfold mset. rewrite zget_ok by (rewrite len_upd; lia). cbn [bind]. rewrite nthZ_upd by lia. rewrite Z.eqb_refl.
    destruct (VTab_set row n _ i fone Hr Hi) as (row' & -> & Hr'). cbn [bind]. rewrite zset_ok by (rewrite len_upd; lia). apply wp_ok.
    exists row'. split; [|eapply VTab_ext; [exact Hr'|]; intros; cbn beta; zbq; subst; auto].
    apply upd_upd. }
  destruct W as (z & -> & Hz). cbn [bind]. eauto.
Qed.
End EigenFacts2.

(** The eigen decomposition in every arithmetic and on float64. *)
From Coq Require Import ZArith QArith List Lia Bool Floats.SpecFloat.
From Verif Require Import Base BaseLemmas Wpe Scalar Vector VecSpec VectorFacts Matrix MatSpec MatFacts Array2D Array2DFacts MatrixOps BlockM Diagonal DiagSpec RealMatrixM TabTac FSum CholFacts QRFacts Tridiag TridiagFacts Schur Eigen EigenSpec EigenFacts EigenFacts2 EigenSort Float64 FloatOrder.
Import ListNotations.
Open Scope Z_scope.

(** The test of symmetry passes. *)
Definition passes_symmetry {O : Ops} (n : Z) (A : Z -> Z -> F) : Prop :=
  forall i j, 0 <= i < j -> j < n -> fgt (fabs (A i j - A j i)%f) (fmax (fabs (A i j)) (fabs (A j i)) * (flit 10 * flit (inject_Z n) * flit (inject_Z n) * doubleeps))%f = false.

Section Any.
Context {O : Ops}.
Lemma passes_is x n A : library x -> MatIs x n n A -> 1 <= n -> passes_symmetry n A -> isSymmetric x (symtol n) = Ok true.
Proof.
  intros Hl Hx Hn Hs. destruct (isSymmetric_ok x n A (symtol n) Hl Hx ltac:(lia)) as (b & Eb & Hb).
  assert (b = true) by (apply Hb; intros i j Hi Hj; apply Hs; auto). subst. auto.
Qed.
Lemma new_sym_wpe x n A (P : EdD -> Prop) : library x -> MatIs x n n A -> 1 <= n -> passes_symmetry n A ->
  (forall mn sec z Mn Sc Zf, VTab mn n Mn -> (forall i, 0 <= i < n - 1 -> zget sec i = Ok (Sc i)) -> RTab z n n Zf -> wpe (ed_findEigenVectors mn sec z) P (fun x => x = EMaxIter)) ->
  wpe (NewEigenDecomposition x) P (fun x => x = EMaxIter).
Proof.
  intros Hl Hx Hn Hs K. destruct (ed_new_sym x n A Hl Hx Hn (passes_is _ _ _ Hl Hx Hn Hs)) as (mn & sec & z & -> & H).
  destruct (td_fin n A) as [[M D] Sc]. destruct H as (H1 & H2 & H3). apply (K mn sec z D Sc _ H1) with (2 := H3). intros i Hi. apply (VTab_zgets sec (n - 1)); auto.
Qed.
Lemma new_tri_wpe mn sec n ns Mn Sc (P : EdD -> Prop) : 1 <= n -> n - 1 <= ns -> VecIs (VArr mn) n Mn -> VecIs (VArr sec) ns Sc ->
  (forall mn sec z Mn Sc Zf, VTab mn n Mn -> (forall i, 0 <= i < n - 1 -> zget sec i = Ok (Sc i)) -> RTab z n n Zf -> wpe (ed_findEigenVectors mn sec z) P (fun x => x = EMaxIter)) ->
  wpe (NewEigenDecompositionFromTridiagonal mn sec) P (fun x => x = EMaxIter).
Proof.
  intros Hn Hns Hm Hs K. apply VecIs_VTab in Hm. apply VecIs_VTab in Hs. destruct (ed_new_tri mn sec n Mn Hn Hm) as (z & -> & Hz). apply (K mn sec z Mn Sc _ Hm) with (2 := Hz).
  intros i Hi. apply (VTab_zgets sec ns); auto. lia.
Qed.
Lemma sym_total x n A : library x -> MatIs x n n A -> 1 <= n -> passes_symmetry n A -> (exists d, NewEigenDecomposition x = Ok d) \/ NewEigenDecomposition x = Err EMaxIter.
Proof.
  intros Hl Hx Hn Hs. pose proof (new_sym_wpe x n A (fun _ => True) Hl Hx Hn Hs) as K. destruct (NewEigenDecomposition x) as [d|e|e]; cbn [wpe] in K.
  - left. eauto.
  - right. f_equal. apply K. intros mn sec z Mn Sc Zf H1 H2 H3. eapply wpe_conseq; [apply (ed_findEV_total n mn sec z Mn Sc Zf); auto|auto|auto].
  - exfalso. apply K. intros mn sec z Mn Sc Zf H1 H2 H3. eapply wpe_conseq; [apply (ed_findEV_total n mn sec z Mn Sc Zf); auto|auto|auto].
Qed.
Lemma tri_total mn sec n ns Mn Sc : 1 <= n -> n - 1 <= ns -> VecIs (VArr mn) n Mn -> VecIs (VArr sec) ns Sc ->
  (exists d, NewEigenDecompositionFromTridiagonal mn sec = Ok d) \/ NewEigenDecompositionFromTridiagonal mn sec = Err EMaxIter.
Proof.
  intros Hn Hns Hm Hs. pose proof (new_tri_wpe mn sec n ns Mn Sc (fun _ => True) Hn Hns Hm Hs) as K. destruct (NewEigenDecompositionFromTridiagonal mn sec) as [d|e|e]; cbn [wpe] in K.
  - left. eauto.
  - right. f_equal. apply K. intros m2 s2 z M2 S2 Zf H1 H2 H3. eapply wpe_conseq; [apply (ed_findEV_total n m2 s2 z M2 S2 Zf); auto|auto|auto].
  - exfalso. apply K. intros m2 s2 z M2 S2 Zf H1 H2 H3. eapply wpe_conseq; [apply (ed_findEV_total n m2 s2 z M2 S2 Zf); auto|auto|auto].
Qed.

(** No more than thirty-one turns on one eigenvalue. *)
Lemma for_brk_more {S} (P : S -> Prop) body k1 k2 : forall lo (s : S), lo + Z.of_nat k1 = 31 -> (k1 <= k2)%nat -> 0 <= lo -> P s ->
  (forall i s, 0 <= i <= 30 -> P s -> match body i s with Ok (b, s') => P s' /\ (i = 30 -> b = true) | _ => True end) ->
  (k1 <> 0)%nat -> iter_brk k2 lo body s = iter_brk k1 lo body s.
Proof.
  revert k2. induction k1 as [|k1 IH]; intros k2 lo s Hlo Hk H0 HP HB Hne; [congruence|].
  destruct k2 as [|k2]; [lia|]. cbn [iter_brk]. pose proof (HB lo s ltac:(lia) HP) as K. destruct (body lo s) as [[b s']|e|e]; cbn [bind]; auto. destruct K as [K1 K2].
  destruct b; auto. destruct (Nat.eq_dec k1 0) as [->|]; [assert (false = true) by (apply K2; lia); discriminate|]. apply IH; auto; lia.
Qed.
Lemma ed_turn_bound n j st K : tabs n st -> 0 <= j < n -> 31 <= K -> for_brk 0 K (ed_turn n j) st = for_brk 0 31 (ed_turn n j) st.
Proof.
  intros Ht Hj HK. unfold for_brk. apply (for_brk_more (tabs n)); auto; try lia.
  intros i s Hi Hs. pose proof (ed_turn_total n j i s Hs Hj Hi) as W. destruct (ed_turn n j i s) as [[b s']|e|e]; auto.
Qed.
Lemma ed_thirty n K st : tabs n st -> 0 <= n -> 31 <= K ->
  for_ 0 n (fun j st => let* (_, st) := for_brk 0 K (ed_turn n j) st in Ok st) st = ed_ql n st.
Proof.
  intros Ht Hn HK. unfold ed_ql.
  assert (G : forall k lo s, lo + Z.of_nat k = n -> 0 <= lo -> tabs n s ->
    iter_up k lo (fun j st => let* (_, st) := for_brk 0 K (ed_turn n j) st in Ok st) s = iter_up k lo (fun j st => let* (_, st) := for_brk 0 31 (ed_turn n j) st in Ok st) s).
  { induction k as [|k IH]; intros lo s Hk Hlo Hs; auto. cbn [iter_up]. rewrite (ed_turn_bound n lo s K) by (auto; lia).
    assert (W : wpe (for_brk 0 31 (ed_turn n lo) s) (fun r => tabs n (snd r)) (fun x => x = EMaxIter)).
    { apply (wpe_for_brk (fun _ => tabs n) (tabs n)); auto; [lia|]. intros i s1 Hi Hs1. eapply wpe_conseq; [apply (ed_turn_total n lo i s1); auto; lia| |auto].
      intros [b s2] [K1 _]. cbn [fst snd] in *. destruct b; auto. }
    destruct (for_brk 0 31 (ed_turn n lo) s) as [[b s2]|e|e]; cbn [bind] in *; auto. apply IH; auto; lia. }
  unfold for_. apply G; auto; lia.
Qed.

(** Determinant: the product of the real parts of the eigenvalues, in order. *)
Fixpoint prod_up (acc : F) (l : list F) : F := match l with [] => acc | x :: t => prod_up (acc * x)%f t end.
Lemma prod_loop (l pre : list F) acc : for_ (len pre) (len (pre ++ l)) (fun i det => let* x := zget (pre ++ l) i in Ok (det * x)%f) acc = Ok (prod_up acc l).
Proof.
  revert pre acc. induction l as [|x l IH]; intros pre acc.
  - rewrite app_nil_r, for_nil by lia. auto.
  - rewrite for_step by (rewrite len_app, len_cons; pose proof (len_nonneg l); lia).
    assert (E : zget (pre ++ x :: l) (len pre) = Ok x). { unfold zget. rewrite (proj2 (inb_true _ _)) by (rewrite len_app, len_cons; pose proof (len_nonneg l); pose proof (len_nonneg pre); lia).
      unfold len. rewrite Nat2Z.id, nth_error_app2 by lia. rewrite Nat.sub_diag. auto. }
    rewrite E. cbn [bind prod_up]. specialize (IH (pre ++ [x]) (acc * x)%f). rewrite <- app_assoc in IH. cbn [app] in IH. rewrite len_app in IH. change (len [x]) with 1 in IH. exact IH.
Qed.
Lemma det_is_product d : ed_Determinant d = Ok (prod_up fone (ed_RealEigenvalues d)).
Proof. exact (prod_loop (ed_re d) [] fone). Qed.
Lemma det_is_fold d : ed_Determinant d = Ok (fold_left fmul (ed_RealEigenvalues d) fone).
Proof. rewrite det_is_product. f_equal. generalize fone. induction (ed_RealEigenvalues d) as [|a l IH]; intros acc; cbn [prod_up fold_left]; auto. Qed.
End Any.

(** Order on float64. *)
Section Float.
Variable c : Z.
Notation FO := (SFOps c).
Lemma okD_F n : ed_okD (O := FO) n (fun _ => @fzero FO).
Proof. intros i Hi. assert (E : compareTo (O := FO) (@fzero FO) (@fzero FO) (eps_ed (O := FO)) = 0) by (vm_compute; reflexivity). rewrite E. lia. Qed.
Lemma fin_sorted n D2 : (forall i, 0 <= i < n -> sf_isnan (ed_fin (O := FO) n D2 i) = false) ->
  forall i j, 0 <= i -> i <= j -> j < n -> SFltb (ed_fin (O := FO) n D2 i) (ed_fin (O := FO) n D2 j) = false.
Proof.
  intros Hnan i j Hi Hij Hj. unfold ed_fin in *. change (@F FO) with spec_float in *. set (D3 := fun j => D2 (ed_perm (O := FO) n D2 n j)) in *. set (mx := maxabs1 (O := FO) n D3) in *.
  change (@flt FO) with SFltb in *. change (@fabs FO) with SFabs in *. change (@fzero FO) with sf_zero in *.
  assert (H3 : forall k, 0 <= k < n -> sf_isnan (D3 k) = false).
  { intros k Hk. specialize (Hnan k Hk). cbv beta zeta in Hnan. destruct (@fne FO mx sf_zero); [|exact Hnan]. match type of Hnan with context [if ?b then _ else _] => destruct b eqn:E end; [|exact Hnan]. apply SFltb_nan in E. destruct E as [E _]. change (sf_isnan (SFabs (D3 k)) = false) in E. destruct (D3 k); auto. }
  assert (H2 : forall k, 0 <= k < n -> sf_isnan (D2 k) = false).
  { intros k Hk. destruct (ed_perm_permutes (O := FO) n D2 n ltac:(lia)) as [(_ & _ & P) _]. destruct (P k Hk) as (q & Hq & <-). apply (H3 q Hq). }
  assert (HS : SFltb (D3 i) (D3 j) = false).
  { apply (ed_perm_sorted (O := FO) (fun x => sf_isnan x = false)) with (n := n) (D := D2); auto; try lia.
    - intros x y _ _. apply SFltb_asym.
    - intros x _. apply SFltb_irr.
    - intros x y z. apply SFltb_negtrans. }
  cbv beta zeta. destruct (@fne FO mx sf_zero); auto. apply sf_null_mono; auto; apply H3; lia.
Qed.
Definition fsorted (n : Z) (d : EdD (O := FO)) : Prop :=
  (forall i x, ed_RealEigenvalueAt d i = Ok x -> sf_isnan x = false) ->
  forall i j x y, 0 <= i -> i <= j -> ed_RealEigenvalueAt d i = Ok x -> ed_RealEigenvalueAt d j = Ok y -> SFltb x y = false.
Lemma fsorted_ok n Re Im Vt d : 1 <= n -> ed_ok (O := FO) n Re Im Vt true d ->
  ((forall i, 0 <= i < n -> sf_isnan (Re i) = false) -> forall i j, 0 <= i -> i <= j -> j < n -> SFltb (Re i) (Re j) = false) -> fsorted n d.
Proof.
  intros Hn (HR & _) K Hnan i j x y Hi Hij E1 E2. unfold ed_RealEigenvalueAt in *.
  assert (Hj : j < n). { destruct (Z_lt_ge_dec j n); auto. exfalso. pose proof (VTab_len _ _ _ HR) as L. unfold zget in E2. destruct (inb j (len (ed_re d))) eqn:Ej; [apply inb_true in Ej; lia|discriminate]. }
  rewrite (VTab_zgets (O := FO) _ _ _ HR) in E1 by lia. rewrite (VTab_zgets (O := FO) _ _ _ HR) in E2 by lia. inversion E1; inversion E2; subst. apply K; auto.
  intros k Hk. apply (Hnan k). apply (VTab_zgets (O := FO) _ _ _ HR); auto.
Qed.
Lemma findEV_sorted n mn sec z Mn Sc Zf : 1 <= n -> VTab (O := FO) mn n Mn -> (forall i, 0 <= i < n - 1 -> zget sec i = Ok (Sc i)) -> RTab (O := FO) z n n Zf ->
  wpe (ed_findEigenVectors (O := FO) mn sec z) (fun r => forall d, ed_calls r d -> fsorted n d) (fun x => x = EMaxIter).
Proof.
  intros Hn Hm Hs Hz. eapply wpe_conseq; [apply (ed_findEV_ok (O := FO) (fun x => x = EMaxIter) (fun _ _ => True) n mn sec z Mn Sc Zf); auto| |auto].
  - intros E0 mx d e Hd He. eapply wpe_conseq; [apply (ed_ql_total (O := FO) n (d, e, z)); [do 3 eexists; eauto|lia]| |auto].
    intros [[d1 e1] z1] (D1 & E1 & Z1 & H1 & H2 & H3). exists D1, E1, Z1. auto.
  - intros r (D2 & Z2 & _ & H) d Hc. apply (ed_calls_ok (O := FO) _ _ _ _ _ _ _ Hn (okD_F n) H) in Hc. eapply fsorted_ok; [exact Hn|exact Hc|]. apply fin_sorted.
Qed.
Lemma sym_sorted x n A d : library (O := FO) x -> MatIs (O := FO) x n n A -> 1 <= n -> passes_symmetry (O := FO) n A -> ed_of (O := FO) x d -> fsorted n d.
Proof.
  intros Hl Hx Hn Hs (d0 & E0 & Hc). pose proof (new_sym_wpe (O := FO) x n A (fun r => forall d, ed_calls r d -> fsorted n d) Hl Hx Hn Hs) as K. rewrite E0 in K. apply K; auto.
  intros. eapply findEV_sorted; eauto.
Qed.
Lemma tri_sorted mn sec n ns Mn Sc d : 1 <= n -> n - 1 <= ns -> VecIs (O := FO) (VArr mn) n Mn -> VecIs (O := FO) (VArr sec) ns Sc -> ed_of_tri (O := FO) mn sec d -> fsorted n d.
Proof.
  intros Hn Hns Hm Hs (d0 & E0 & Hc). pose proof (new_tri_wpe (O := FO) mn sec n ns Mn Sc (fun r => forall d, ed_calls r d -> fsorted n d) Hn Hns Hm Hs) as K. rewrite E0 in K. apply K; auto.
  intros. eapply findEV_sorted; eauto.
Qed.
End Float.

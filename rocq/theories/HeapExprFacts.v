(** Expressions with receivers of any kind, and diagonal matrices with operands
    of another kind. *)
From Coq Require Import ZArith List Lia Bool.
From Verif Require Import Base BaseLemmas Scalar Vector Matrix VecSpec MatSpec MatFacts DiagSpec Array2D Array2DFacts BlockM BlockFacts BlockFacts2.
From Verif Require Import Heap HeapSpec HeapFacts HeapIndep HeapSim HeapSim2 HeapSim3 HeapSim4 HeapMain HeapProps HeapDec HeapAtom HeapRefSpec HeapRef2 HeapRef4 HeapRef6 HeapRef8 HeapRef9
  HeapSolve HeapDecFacts HeapSolveFacts HeapArith HeapArithSpec HeapArithFacts HeapArithMain HeapArithProps
  HeapBlkArith HeapBlkArithSpec HeapBlkArithFacts HeapBlkArithMain HeapBlkArithProps HeapExpr HeapExprSpec.
Import ListNotations.
Open Scope Z_scope.

Section HeapExprFacts.
Context {O : Ops}.

(** The call returns with [Q], or panics with [e], and then [N]. *)
Definition ends {A} (N : Prop) (m : M A) (h : heap) (e : err) (Q : A -> heap -> Prop) : Prop := goes m h Q \/ (N /\ exists h', m h = (Panic e, h')).
Lemma e_bind {A B} (m : M A) (f : A -> M B) h e N Q : ends N m h e (fun a h1 => ends N (f a) h1 e Q) -> ends N (mbind m f) h e Q.
Proof.
  intros [(a & h1 & R & [G|(X & h2 & E)])|(X & h' & E)].
  - left. apply g_bind. exists a, h1. auto.
  - right. split; auto. exists h2. unfold runs in R. unfold mbind. rewrite R. exact E.
  - right. split; auto. exists h'. unfold mbind. rewrite E. reflexivity.
Qed.
Lemma e_imp {A} (m : M A) h e N (Q Q' : A -> heap -> Prop) : ends N m h e Q -> (forall a h', Q a h' -> Q' a h') -> ends N m h e Q'.
Proof. intros [(a & h' & R & H)|H] I; [left; exists a, h'; auto|right; auto]. Qed.
Lemma e_for (Inv : Z -> heap -> Prop) e N (B : Z -> unit -> M unit) : forall n lo h, Inv lo h ->
  (forall i h, lo <= i < lo + Z.of_nat n -> Inv i h -> ends N (B i tt) h e (fun _ => Inv (i + 1))) ->
  ends N (mup n lo B tt) h e (fun _ => Inv (lo + Z.of_nat n)).
Proof.
  induction n as [|n IH]; intros lo h H0 HB.
  - left. exists tt, h. split; [reflexivity|]. replace (lo + Z.of_nat 0) with lo by lia. auto.
  - cbn [mup]. apply e_bind. eapply e_imp; [apply HB; [lia|auto]|]. intros [] h1 H1. cbv beta in H1.
    replace (lo + Z.of_nat (S n)) with (lo + 1 + Z.of_nat n) by lia. apply IH; auto. intros i h2 Hi. apply HB. lia.
Qed.
Lemma e_mfor (Inv : Z -> heap -> Prop) e N (B : Z -> unit -> M unit) n h : 0 <= n -> Inv 0 h ->
  (forall i h, 0 <= i < n -> Inv i h -> ends N (B i tt) h e (fun _ => Inv (i + 1))) -> ends N (mfor 0 n B tt) h e (fun _ => Inv n).
Proof.
  intros Hn H0 HB. unfold mfor. pose proof (e_for Inv e N B (Z.to_nat (n - 0)) 0 h H0) as G. replace (0 + Z.of_nat (Z.to_nat (n - 0))) with n in G by lia. auto.
Qed.

(** The loops of a diagonal receiver: every entry goes through SetEntry. *)
Lemma e_table h n (E : Z -> Z -> F) (body : slice -> Z -> Z -> M unit) : 1 <= n ->
  (forall o i j h', Ext h h' -> 0 <= i < n -> 0 <= j < n -> body o i j h' = hd_SetEntry o i j (E i j) h') ->
  ends (~ offzero n E) (let! out := mpan (hd_NewDim n) in
        let! _ := mfor 0 n (fun row (_ : unit) => mfor 0 n (fun col (_ : unit) => body out row col) tt) tt in ret out) h ETooLarge
    (fun o h' => HVecIs h' o n (fun i => E i i) /\ offzero n E).
Proof.
  intros Hn HB. apply e_bind. left. apply g_mpan. unfold hd_NewDim. replace (n <? 1) with false by lia.
  eapply g_imp; [apply (g_makeF _ _ _ _ (Ext_refl _) (make_ok _ n ltac:(lia)))|]. nx t h1 HO.
  set (Inv := fun (i j : Z) (h' : heap) => (exists q, OwnE h t q h' /\ len q = n /\ forall k, 0 <= k < n -> k < i \/ (k = i /\ i < j) -> zget q k = Ok (E k k)) /\
    forall k l, 0 <= k < n -> 0 <= l < n -> k < i \/ (k = i /\ l < j) -> k <> l -> zero_like (E k l)).
  apply e_bind. eapply e_imp.
  { apply (e_mfor (fun i h' => Inv i 0 h')); [lia| |].
    - split; [|intros; lia]. exists (repeat fzero (Z.to_nat n)). split; [exact HO|]. split; [apply len_repeat; lia|intros; lia].
    - intros i h2 Hi HI. eapply e_imp.
      + apply (e_mfor (fun j h' => Inv i j h')); [lia|exact HI|]. intros j h3 Hj ((q & HO3 & Lq & Hq) & HZ).
        unfold ends, goes, runs. rewrite HB by (auto; apply HO3). unfold hd_SetEntry. destruct (Z.eqb_spec i j) as [->|N].
        * left. pose proof HO3 as [(W1 & W2 & W3) W4]. assert (Elt : sl_len t = len q) by (rewrite W2; reflexivity).
          change (goes (let! _ := hcheck t j in wrF t j (E j j)) h3 (fun _ => Inv j (j + 1))).
          eapply g_step; [apply (HeapUpd.hcheck_ok t j h3); lia|]. eapply g_imp; [eapply g_wrF; [exact HO3|apply zset_ok; lia]|]. nxu h4 HO4. split.
          -- exists (upd q j (E j j)). split; [exact HO4|]. split; [rewrite len_upd; auto|].
             intros k Hk Hc. destruct (Z.eq_dec k j) as [->|Nk]; [rewrite zget_upd_same by lia; reflexivity|rewrite zget_upd_other by auto; apply Hq; lia].
          -- intros k l Hk Hl Hc Nkl. apply HZ; auto; lia.
        * destruct (fulp1 fzero (E i j)) eqn:EZ; [left|right; split; [intros HN; specialize (HN i j Hi Hj N); red in HN; congruence|eexists; reflexivity]]. exists tt, h3. split; [reflexivity|]. split.
          -- exists q. split; [auto|]. split; [auto|]. intros k Hk Hc. apply Hq; lia.
          -- intros k l Hk Hl Hc Nkl. destruct (Z.eq_dec k i) as [->|]; [destruct (Z.eq_dec l j) as [->|]; [exact EZ|]|]; apply HZ; auto; lia.
      + intros u h3 ((q & A & B & C) & D). split; [exists q; split; [auto|]; split; [auto|]; intros k Hk Hc; apply C; lia|]. intros k l Hk Hl Hc. apply D; auto; lia. }
  intros u h2 ((q & A & B & C) & D). left. apply g_ret. split.
  - eapply HVecIs_intro; [eapply OwnE_VRep; eauto|]. split; auto. intros j Hj. specialize (C j Hj ltac:(lia)). rewrite zget_ok in C by lia. congruence.
  - intros k l Hk Hl Nkl. apply D; auto. lia.
Qed.
Lemma hd_reads h d n f : 1 <= n -> HVecIs h d n f -> forall h' i j, Ext h h' -> 0 <= i < n -> 0 <= j < n -> hd_At d i j h' = (Ok (diag_of (fun i _ => f i) i j), h').
Proof. intros Hn Hd h' i j He Hi Hj. apply (mat_At h (HD d) n n (fun i j => if i =? j then f i else fzero)); auto. apply HVec_diag; auto. Qed.
Lemma de_scalar h d n f x : 1 <= n -> HVecIs h d n f ->
  ends (~ offzero n (fun i j => (diag_of (fun i _ => f i) i j + x)%f)) (hd_ScalarAdd d x) h ETooLarge (fun o h' => HVecIs h' o n (fun i => (diag_of (fun i _ => f i) i i + x)%f) /\ offzero n (fun i j => (diag_of (fun i _ => f i) i j + x)%f)) /\
  ends (~ offzero n (fun i j => (diag_of (fun i _ => f i) i j * x)%f)) (hd_ScalarMultiply d x) h ETooLarge (fun o h' => HVecIs h' o n (fun i => (diag_of (fun i _ => f i) i i * x)%f) /\ offzero n (fun i j => (diag_of (fun i _ => f i) i j * x)%f)).
Proof.
  intros Hn Hd. destruct (vec_rd _ _ _ _ Hd) as [Ld _]. unfold hd_ScalarAdd, hd_ScalarMultiply. rewrite Ld.
  split; [apply (e_table h n (fun i j => (diag_of (fun i _ => f i) i j + x)%f) (fun o row col => let! y := hd_At d row col in hd_SetEntry o row col (y + x)%f))
    |apply (e_table h n (fun i j => (diag_of (fun i _ => f i) i j * x)%f) (fun o row col => let! y := hd_At d row col in hd_SetEntry o row col (y * x)%f))]; auto;
  intros o i j h' He Hi Hj; unfold mbind; rewrite (hd_reads h d n f Hn Hd) by auto; reflexivity.
Qed.
Lemma de_add h d m n f g : HVecIs h d n f -> HMatIs h m n n g -> kind_of m <> Diag ->
  ends (~ offzero n (fun i j => (diag_of (fun i _ => f i) i j + g i j)%f)) (hd_Add d m) h ETooLarge (fun o h' => HVecIs h' o n (fun i => (diag_of (fun i _ => f i) i i + g i i)%f) /\ offzero n (fun i j => (diag_of (fun i _ => f i) i j + g i j)%f)) /\
  ends (~ offzero n (fun i j => (diag_of (fun i _ => f i) i j - g i j)%f)) (hd_Subtract d m) h ETooLarge (fun o h' => HVecIs h' o n (fun i => (diag_of (fun i _ => f i) i i - g i i)%f) /\ offzero n (fun i j => (diag_of (fun i _ => f i) i j - g i j)%f)).
Proof.
  intros Hd Hm N. destruct (HMat_pos _ _ _ _ _ Hm) as [Hn _]. destruct (HMat_dims _ _ _ _ _ Hm) as [D1 D2].
  assert (S : forall (op : F -> F -> F), ends (~ offzero n (fun i j => op (diag_of (fun i _ => f i) i j) (g i j))) (let! columnCount := hm_cols m in
      if negb (hm_rows m =? columnCount) then mpanic EDimMismatch else
      let! out := mpan (hd_NewDim (hm_rows m)) in
      let! _ := mfor 0 (hm_rows m) (fun row (_ : unit) =>
        mfor 0 columnCount (fun col (_ : unit) =>
          let! x := hd_At d row col in
          let! y := hm_At m row col in
          hd_SetEntry out row col (op x y)) tt) tt in
      ret out) h ETooLarge (fun o h' => HVecIs h' o n (fun i => op (diag_of (fun i _ => f i) i i) (g i i)) /\ offzero n (fun i j => op (diag_of (fun i _ => f i) i j) (g i j)))).
  { intros op. apply e_bind. left. exists n, h. split; [exact D2|]. rewrite D1, Z.eqb_refl. cbn [negb].
    apply (e_table h n (fun i j => op (diag_of (fun i _ => f i) i j) (g i j)) (fun o row col => let! x := hd_At d row col in let! y := hm_At m row col in hd_SetEntry o row col (op x y))); auto.
    intros o i j h' He Hi Hj. unfold mbind. rewrite (hd_reads h d n f Hn Hd) by auto. rewrite (mat_At _ _ _ _ _ Hm) by auto. reflexivity. }
  assert (C : h_ckAdd (HD d) m h = (Ok tt, h)) by (eapply ckAdd_ok; [apply HVec_diag; eauto|eauto]).
  split; [unfold hd_Add|unfold hd_Subtract]; (apply e_bind; left; exists tt, h; split; [exact C|]); destruct m as [b|b|b]; try (exfalso; apply N; reflexivity);
    [apply (S fadd)|apply (S fadd)|apply (S fsub)|apply (S fsub)].
Qed.
Lemma HDiag h d n c f : HMatIs h (HD d) n c f -> n = c /\ 1 <= n /\ exists u, HVecIs h d n u /\ forall i j, 0 <= i < n -> 0 <= j < n -> f i j = diag_of (fun i _ => u i) i j.
Proof. intros (E & Hn & u & HV & H). split; auto. split; auto. exists u. split; auto. Qed.
Lemma diag_H h o n E : 1 <= n -> HVecIs h o n (fun i => E i i) -> HMatIs h (HD o) n n (diag_of E).
Proof. intros Hn H. split; auto. split; auto. exists (fun i => E i i). split; auto. Qed.
Lemma settle h (m : M slice) n E E' : 1 <= n -> ends (~ offzero n E) m h ETooLarge (fun o h' => HVecIs h' o n (fun i => E i i) /\ offzero n E) ->
  (forall i j, 0 <= i < n -> 0 <= j < n -> E' i j = E i j) ->
  (offzero n E' -> returns m h (fun h' o => HMatIs h' (HD o) n n (diag_of E'))) /\ (~ offzero n E' -> exists h', m h = (Panic ETooLarge, h')).
Proof.
  intros Hn H HE. assert (Z1 : offzero n E' <-> offzero n E) by (split; intros Z0 i j Hi Hj N; [rewrite <- HE by auto|rewrite HE by auto]; auto).
  destruct H as [(o & h' & R & HV & HZ)|(NZ & HP)]; split; intros Z0; try (exfalso; tauto); auto.
  exists o, h'. split; [exact R|]. apply (HMat_ext h' (HD o) n n (diag_of E)); [|apply diag_H; auto].
  intros i j Hi Hj. unfold diag_of. destruct (Z.eqb_spec i j); auto. subst. symmetry. auto.
Qed.
Lemma diag_any h d m n f g : HMatIs h (HD d) n n f -> HMatIs h m n n g -> kind_of m <> Diag ->
  (((offzero n (fun i j => (f i j + g i j)%f) -> returns (hd_Add d m) h (fun h' o => HMatIs h' (HD o) n n (diag_of (fun i j => (f i j + g i j)%f)))) /\
    (~ offzero n (fun i j => (f i j + g i j)%f) -> exists h', hd_Add d m h = (Panic ETooLarge, h'))) /\
   ((offzero n (fun i j => (f i j - g i j)%f) -> returns (hd_Subtract d m) h (fun h' o => HMatIs h' (HD o) n n (diag_of (fun i j => (f i j - g i j)%f)))) /\
    (~ offzero n (fun i j => (f i j - g i j)%f) -> exists h', hd_Subtract d m h = (Panic ETooLarge, h')))).
Proof.
  intros Hd Hm N. destruct (HDiag _ _ _ _ _ Hd) as (_ & Hn & u & HV & Hf). destruct (de_add h d m n u g HV Hm N) as [A B].
  split; (eapply settle; [auto|first [exact A|exact B]|]); intros i j Hi Hj; cbv beta; rewrite Hf by auto; reflexivity.
Qed.
Lemma diag_scalar h d n f x : HMatIs h (HD d) n n f ->
  (((offzero n (fun i j => (f i j + x)%f) -> returns (hd_ScalarAdd d x) h (fun h' o => HMatIs h' (HD o) n n (diag_of (fun i j => (f i j + x)%f)))) /\
    (~ offzero n (fun i j => (f i j + x)%f) -> exists h', hd_ScalarAdd d x h = (Panic ETooLarge, h'))) /\
   ((offzero n (fun i j => (f i j * x)%f) -> returns (hd_ScalarMultiply d x) h (fun h' o => HMatIs h' (HD o) n n (diag_of (fun i j => (f i j * x)%f)))) /\
    (~ offzero n (fun i j => (f i j * x)%f) -> exists h', hd_ScalarMultiply d x h = (Panic ETooLarge, h')))).
Proof.
  intros Hd. destruct (HDiag _ _ _ _ _ Hd) as (_ & Hn & u & HV & Hf). destruct (de_scalar h d n u x Hn HV) as [A B].
  split; (eapply settle; [auto|first [exact A|exact B]|]); intros i j Hi Hj; cbv beta; rewrite Hf by auto; reflexivity.
Qed.
(** Two diagonal matrices: only the diagonals are read. *)
Lemma diag_diag h d e n f g : HMatIs h (HD d) n n f -> HMatIs h (HD e) n n g ->
  returns (hd_Add d (HD e)) h (fun h' o => HMatIs h' (HD o) n n (diag_of (fun i j => (f i j + g i j)%f))) /\
  returns (hd_Subtract d (HD e)) h (fun h' o => HMatIs h' (HD o) n n (diag_of (fun i j => (f i j - g i j)%f))) /\
  returns (hd_Multiply d (HD e)) h (fun h' o => kind_of o = Diag /\ HMatIs h' o n n (diag_of (fun i j => (f i j * g i j)%f))).
Proof.
  intros Hd He. destruct (HDiag _ _ _ _ _ Hd) as (_ & Hn & u & HV & Hf). destruct (HDiag _ _ _ _ _ He) as (_ & _ & v & HW & Hg).
  destruct (md_binop h d e n u v Hn HV HW) as (A & B & C).
  assert (S : forall (op : F -> F -> F) h' o, HVecIs h' o n (fun i => op (u i) (v i)) -> HMatIs h' (HD o) n n (diag_of (fun i j => op (f i j) (g i j)))).
  { intros op h' o H. apply (HMat_ext h' (HD o) n n (diag_of (fun i j => op (u i) (v i)))); [|apply (diag_H h' o n (fun i _ => op (u i) (v i))); auto].
    intros i j Hi Hj. unfold diag_of. destruct (Z.eqb_spec i j); auto. subst. rewrite Hf, Hg by auto. unfold diag_of. rewrite Z.eqb_refl. reflexivity. }
  split; [|split].
  - destruct A as (o & h' & E & H). exists o, h'. split; [exact E|]. apply (S fadd). exact H.
  - destruct B as (o & h' & E & H). exists o, h'. split; [exact E|]. apply (S fsub). exact H.
  - destruct C as (o & h' & E & s & -> & H). exists (HD s), h'. split; [exact E|]. split; [reflexivity|]. apply (S fmul). exact H.
Qed.

(** ** The calls, by the kind of the receiver *)
Definition made (m : M HMat) (h : heap) (k : kind) (r c : Z) (f : Z -> Z -> F) : Prop := returns m h (fun h' o => kind_of o = k /\ HMatIs h' o r c f).
Lemma made_A h (m : M slice) r c f : returns m h (fun h' o => HTab h' o r c f) -> made (let! o := m in ret (HA o)) h Dense r c f.
Proof. intros (o & h' & E & H). exists (HA o), h'. unfold mbind. rewrite E. auto. Qed.
Lemma made_B h (m : M HBlk) r c f : returns m h (fun h' o => HBlkIs h' o r c f) -> made (let! o := m in ret (HB o)) h Blocks r c f.
Proof. intros (o & h' & E & H). exists (HB o), h'. unfold mbind. rewrite E. auto. Qed.
Lemma made_D h (m : M slice) r c f : returns m h (fun h' o => HMatIs h' (HD o) r c f) -> made (let! o := m in ret (HD o)) h Diag r c f.
Proof. intros (o & h' & E & H). exists (HD o), h'. unfold mbind. rewrite E. auto. Qed.
Lemma kind_dec x : {kind_of x = Diag} + {kind_of x <> Diag}.
Proof. destruct (kind_of x); auto; right; discriminate. Qed.
Lemma is_diag x : kind_of x = Diag -> exists d, x = HD d.
Proof. destruct x; try discriminate. eauto. Qed.
Lemma c_Add h x y r c f g : HMatIs h x r c f -> HMatIs h y r c g -> (kind_of y <> Diag -> takes (kind_of x) r (fun i j => (f i j + g i j)%f)) ->
  made (hm_Add x y) h (kind_of x) r c (held (kind_of x) (fun i j => (f i j + g i j)%f)).
Proof.
  intros Hx Hy Ht. destruct x as [a|d|b]; cbn [hm_Add kind_of held takes] in *.
  - apply made_A. apply m2_Add; auto.
  - apply made_D. destruct (HDiag _ _ _ _ _ Hx) as (<- & _). destruct (kind_dec y) as [K|K].
    + apply is_diag in K. destruct K as (e & ->). apply diag_diag; auto.
    + apply (diag_any h d y r f g); auto.
  - apply made_B. apply (mb_entries h b y r c f g fzero); auto.
Qed.
Lemma c_Subtract h x y r c f g : HMatIs h x r c f -> HMatIs h y r c g -> (kind_of y <> Diag -> takes (kind_of x) r (fun i j => (f i j - g i j)%f)) ->
  made (hm_Subtract x y) h (kind_of x) r c (held (kind_of x) (fun i j => (f i j - g i j)%f)).
Proof.
  intros Hx Hy Ht. destruct x as [a|d|b]; cbn [hm_Subtract kind_of held takes] in *.
  - apply made_A. apply m2_Subtract; auto.
  - apply made_D. destruct (HDiag _ _ _ _ _ Hx) as (<- & _). destruct (kind_dec y) as [K|K].
    + apply is_diag in K. destruct K as (e & ->). apply diag_diag; auto.
    + apply (diag_any h d y r f g); auto.
  - apply made_B. apply (mb_entries h b y r c f g fzero); auto.
Qed.
Lemma c_Multiply h x y r n c f g : HMatIs h x r n f -> HMatIs h y n c g ->
  made (hm_Multiply x y) h (kproduct (kind_of x) (kind_of y)) r c (product (kind_of x) (kind_of y) n f g).
Proof.
  intros Hx Hy. destruct x as [a|d|b]; cbn [hm_Multiply kind_of].
  - apply made_A. apply m2_Multiply; auto.
  - destruct (HDiag _ _ _ _ _ Hx) as (<- & Hn & u & HV & Hf). destruct (kind_dec y) as [K|K].
    + apply is_diag in K. destruct K as (e & ->). destruct (HDiag _ _ _ _ _ Hy) as (<- & _). apply diag_diag; auto.
    + destruct (md_table h d y r c u g HV Hy) as (o & h' & E & s & -> & H); [intros s ->; apply K; reflexivity|].
      exists (HA s), h'. split; auto. replace (kproduct Diag (kind_of y)) with Dense by (destruct y; auto; exfalso; apply K; reflexivity). split; auto.
      replace (product Diag (kind_of y) r f g) with (fun i j => (f i i * g i j)%f) by (destruct y; auto; exfalso; apply K; reflexivity).
      apply (HMat_ext h' (HA s) r c (fun i j => (u i * g i j)%f)); auto. intros i j Hi Hj. rewrite Hf by auto. unfold diag_of. rewrite Z.eqb_refl. reflexivity.
  - pose proof (made_B h _ _ _ _ (mb_product h b y r n c f g Hx Hy)) as H. destruct y; exact H.
Qed.
Lemma c_ScalarAdd h x r c f k : HMatIs h x r c f -> takes (kind_of x) r (fun i j => (f i j + k)%f) ->
  made (hm_ScalarAdd x k) h (kind_of x) r c (held (kind_of x) (fun i j => (f i j + k)%f)).
Proof.
  intros Hx Ht. destruct x as [a|d|b]; cbn [hm_ScalarAdd kind_of held takes] in *.
  - apply made_A. apply m2_ScalarAdd; auto.
  - apply made_D. destruct (HDiag _ _ _ _ _ Hx) as (<- & _). apply diag_scalar; auto.
  - apply made_B. apply (mb_entries h b (HB b) r c f f k); auto.
Qed.
Lemma c_ScalarMultiply h x r c f k : HMatIs h x r c f -> takes (kind_of x) r (fun i j => (f i j * k)%f) ->
  made (hm_ScalarMultiply x k) h (kind_of x) r c (held (kind_of x) (fun i j => (f i j * k)%f)).
Proof.
  intros Hx Ht. destruct x as [a|d|b]; cbn [hm_ScalarMultiply kind_of held takes] in *.
  - apply made_A. apply m2_ScalarMultiply; auto.
  - apply made_D. destruct (HDiag _ _ _ _ _ Hx) as (<- & _). apply diag_scalar; auto.
  - apply made_B. apply (mb_entries h b (HB b) r c f f k); auto.
Qed.
Lemma kept_kind x h h' t : hm_Transpose x h = (Ok t, h') -> kind_of t = kind_of x.
Proof. destruct x as [a|d|b]; cbn [hm_Transpose]; unfold mbind; [destruct (h2_Transpose a h) as [[]]|destruct (hd_Transpose d h) as [[]]|destruct (hb_Transpose b h) as [[]]]; intros E; inversion E; reflexivity. Qed.
Lemma c_Transpose h x r c f : HMatIs h x r c f -> (kind_of x = Diag -> zero_like fzero) -> made (hm_Transpose x) h (kind_of x) c r (fun i j => f j i).
Proof.
  intros Hx Hz. destruct x as [a|d|b].
  - apply made_A. apply m2_Transpose; auto.
  - destruct (HMat_transpose h (HD d) r c f (Hz eq_refl) Hx) as (t & h' & E & H). exists t, h'. split; auto. split; auto. apply (kept_kind _ _ _ _ E).
  - apply made_B. destruct (HBlkIs_elim _ _ _ _ _ Hx) as (v & HBv & HI). destruct (b_Transpose_spec _ _ _ _ HI) as (v' & E & HI').
    destruct (sb_Transpose _ _ _ _ HBv E) as (t & h' & R & HBv'). exists t, h'. split; [exact R|]. eapply HBlkIs_intro; eauto.
Qed.

(** ** Expressions *)
Lemma k_A h0 hm (m : M slice) : keeps h0 hm m (isnewS h0) -> keeps h0 hm (let! o := m in ret (HA o)) any.
Proof. intros H. eapply keeps_bind; [exact H|]. intros. apply keeps_ret. exact (fun _ _ => I). Qed.
Lemma k_D h0 hm (m : M slice) : keeps h0 hm m (isnewF h0) -> keeps h0 hm (let! o := m in ret (HD o)) any.
Proof. intros H. eapply keeps_bind; [exact H|]. intros. apply keeps_ret. exact (fun _ _ => I). Qed.
Lemma k_B h0 hm (m : M HBlk) : keeps h0 hm m (isnewB h0) -> keeps h0 hm (let! o := m in ret (HB o)) any.
Proof. intros H. eapply keeps_bind; [exact H|]. intros. apply keeps_ret. exact (fun _ _ => I). Qed.
Lemma calls_Ext e : forall h0 hm, keeps h0 hm (calls e) any.
Proof.
  induction e; intros h0 hm; cbn [calls].
  - apply keeps_ret. exact (fun _ _ => I).
  - eapply keeps_bind; [apply IHe1|]. intros x h1 _ _. eapply keeps_bind; [apply IHe2|]. intros y h2 _ _.
    destruct x; cbn [hm_Add]; [apply k_A, ka_Add|apply k_D, kad_Add|apply k_B, kc_Add].
  - eapply keeps_bind; [apply IHe1|]. intros x h1 _ _. eapply keeps_bind; [apply IHe2|]. intros y h2 _ _.
    destruct x; cbn [hm_Subtract]; [apply k_A, ka_Subtract|apply k_D, kad_Subtract|apply k_B, kc_Subtract].
  - eapply keeps_bind; [apply IHe1|]. intros x h1 _ _. eapply keeps_bind; [apply IHe2|]. intros y h2 _ _.
    destruct x; cbn [hm_Multiply]; [apply k_A, ka_Multiply| |apply k_B, kc_Multiply]. eapply keeps_any, kad_Multiply.
  - eapply keeps_bind; [apply IHe|]. intros y h1 _ _. destruct y; cbn [hm_ScalarAdd]; [apply k_A, ka_ScalarAdd|apply k_D, kad_ScalarAdd|apply k_B, kc_ScalarAdd].
  - eapply keeps_bind; [apply IHe|]. intros y h1 _ _. destruct y; cbn [hm_ScalarMultiply]; [apply k_A, ka_ScalarMultiply|apply k_D, kad_ScalarMultiply|apply k_B, kc_ScalarMultiply].
  - eapply keeps_bind; [apply IHe|]. intros y h1 _ _. eapply keeps_any, km_Transpose.
Qed.
Lemma called h e x h' : calls e h = (Ok x, h') -> Ext h h'.
Proof. intros E. exact (proj1 (calls_Ext e h h h (Ext_refl _) (hle_refl _) _ _ E)). Qed.
Lemma stands_Ext h0 h e k r c f : Ext h0 h -> stands h0 e k r c f -> stands h e k r c f.
Proof. intros He H. induction H; try (econstructor; eauto; fail). constructor. eapply HMat_Ext; eauto. Qed.
Lemma calls_ok h e k r c f : stands h e k r c f -> forall h1, Ext h h1 -> made (calls e) h1 k r c f.
Proof.
  intros H. induction H; intros h1 He; cbn [calls].
  - exists x, h1. split; [reflexivity|]. split; auto. eapply HMat_Ext; eauto.
  - destruct (IHstands1 h1 He) as (x & h2 & E2 & <- & X). pose proof (called _ _ _ _ E2) as X2.
    destruct (IHstands2 h2 (Ext_trans _ _ _ He X2)) as (y & h3 & E3 & <- & Y). pose proof (called _ _ _ _ E3) as X3.
    destruct (c_Add h3 x y r c f g (HMat_Ext _ _ _ _ _ _ X3 X) Y H1) as (o & h4 & E4 & Z4). exists o, h4. unfold mbind. rewrite E2, E3, E4. auto.
  - destruct (IHstands1 h1 He) as (x & h2 & E2 & <- & X). pose proof (called _ _ _ _ E2) as X2.
    destruct (IHstands2 h2 (Ext_trans _ _ _ He X2)) as (y & h3 & E3 & <- & Y). pose proof (called _ _ _ _ E3) as X3.
    destruct (c_Subtract h3 x y r c f g (HMat_Ext _ _ _ _ _ _ X3 X) Y H1) as (o & h4 & E4 & Z4). exists o, h4. unfold mbind. rewrite E2, E3, E4. auto.
  - destruct (IHstands1 h1 He) as (x & h2 & E2 & <- & X). pose proof (called _ _ _ _ E2) as X2.
    destruct (IHstands2 h2 (Ext_trans _ _ _ He X2)) as (y & h3 & E3 & <- & Y). pose proof (called _ _ _ _ E3) as X3.
    destruct (c_Multiply h3 x y r n c f g (HMat_Ext _ _ _ _ _ _ X3 X) Y) as (o & h4 & E4 & Z4). exists o, h4. unfold mbind. rewrite E2, E3, E4. auto.
  - destruct (IHstands h1 He) as (y & h2 & E2 & <- & X). destruct (c_ScalarAdd h2 y r c f x X H0) as (o & h4 & E4 & Z4). exists o, h4. unfold mbind. rewrite E2, E4. auto.
  - destruct (IHstands h1 He) as (y & h2 & E2 & <- & X). destruct (c_ScalarMultiply h2 y r c f x X H0) as (o & h4 & E4 & Z4). exists o, h4. unfold mbind. rewrite E2, E4. auto.
  - destruct (IHstands h1 He) as (y & h2 & E2 & <- & X). destruct (c_Transpose h2 y r c f X H0) as (o & h4 & E4 & Z4). exists o, h4. unfold mbind. rewrite E2, E4. auto.
Qed.
Lemma any_expression h e k r c f : wfheap h -> stands h e k r c f ->
  exists x h', calls e h = (Ok x, h') /\ kind_of x = k /\ HMatIs h' x r c f /\ only_adds h h' /\ wfheap h'.
Proof.
  intros Hw H. destruct (calls_ok h e k r c f H h (Ext_refl _)) as (x & h' & E & K & A). exists x, h'. pose proof (called _ _ _ _ E) as He.
  split; auto. split; auto. split; auto. split; [apply Ext_only_adds; auto|eapply Ext_wfheap; eauto].
Qed.
(** Whatever the outcome. *)
Lemma any_calls h e : wfheap h -> only_adds h (snd (calls e h)) /\ wfheap (snd (calls e h)).
Proof.
  intros Hw. destruct (calls e h) as [r h'] eqn:E. destruct (calls_Ext e h h h (Ext_refl _) (hle_refl _) _ _ E) as (He & _ & _). cbn [snd].
  split; [apply Ext_only_adds; auto|eapply Ext_wfheap; eauto].
Qed.
Lemma diag_any_fresh h d m n f g : wfheap h -> HMatIs h (HD d) n n f -> HMatIs h m n n g -> kind_of m <> Diag ->
  (((offzero n (fun i j => (f i j + g i j)%f) -> fresh (hd_Add d m) OF h (fun h' o => HMatIs h' (HD o) n n (diag_of (fun i j => (f i j + g i j)%f)))) /\
    (~ offzero n (fun i j => (f i j + g i j)%f) -> exists h', hd_Add d m h = (Panic ETooLarge, h'))) /\
   ((offzero n (fun i j => (f i j - g i j)%f) -> fresh (hd_Subtract d m) OF h (fun h' o => HMatIs h' (HD o) n n (diag_of (fun i j => (f i j - g i j)%f)))) /\
    (~ offzero n (fun i j => (f i j - g i j)%f) -> exists h', hd_Subtract d m h = (Panic ETooLarge, h')))).
Proof.
  intros Hw Hd Hm N. destruct (arith_separate_diag d m fzero d (HArr d)) as ((A & B & _) & _). destruct (diag_any h d m n f g Hd Hm N) as ((X & X') & (Y & Y')).
  split; (split; [intros Hz; apply fresh_of; auto|auto]).
Qed.
Lemma diag_scalar_fresh h d n f x : wfheap h -> HMatIs h (HD d) n n f ->
  (((offzero n (fun i j => (f i j + x)%f) -> fresh (hd_ScalarAdd d x) OF h (fun h' o => HMatIs h' (HD o) n n (diag_of (fun i j => (f i j + x)%f)))) /\
    (~ offzero n (fun i j => (f i j + x)%f) -> exists h', hd_ScalarAdd d x h = (Panic ETooLarge, h'))) /\
   ((offzero n (fun i j => (f i j * x)%f) -> fresh (hd_ScalarMultiply d x) OF h (fun h' o => HMatIs h' (HD o) n n (diag_of (fun i j => (f i j * x)%f)))) /\
    (~ offzero n (fun i j => (f i j * x)%f) -> exists h', hd_ScalarMultiply d x h = (Panic ETooLarge, h')))).
Proof.
  intros Hw Hd. destruct (arith_separate_diag d (HD d) x d (HArr d)) as (_ & (A & B) & _). destruct (diag_scalar h d n f x Hd) as ((X & X') & (Y & Y')).
  split; (split; [intros Hz; apply fresh_of; auto|auto]).
Qed.
End HeapExprFacts.

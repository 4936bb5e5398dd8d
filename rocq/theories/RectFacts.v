(** The rectangular Cholesky decomposition, for arbitrary scalar operations. *)
From Coq Require Import ZArith List Lia Bool.
From Verif Require Import Base BaseLemmas Wpe Scalar Vector VecSpec VectorFacts Matrix MatSpec MatFacts Array2D BlockM Diagonal RealMatrixM Array2DFacts MatrixOps MatHist MatProps BlockLoops BlockFacts RealMat2 RealMat3 TabTac FSum CholFacts LUSpec LUFacts LUFacts2 QRFacts QRFacts3 RectChol.
Import ListNotations.
Open Scope Z_scope.

Lemma wpe_for_brk {S} (P : Z -> S -> Prop) (B : S -> Prop) lo hi body (s : S) (Q : bool * S -> Prop) E :
  lo <= hi -> P lo s ->
  (forall i s, lo <= i < hi -> P i s ->
     wpe (body i s) (fun bs : bool * S => if fst bs then B (snd bs) else P (i + 1) (snd bs)) E) ->
  (forall s, P hi s -> Q (false, s)) ->
  (forall s, B s -> Q (true, s)) ->
  wpe (for_brk lo hi body s) Q E.
Proof.
  intros Hle HP Hb HQ HB. remember (Z.to_nat (hi - lo)) as n eqn:En.
  revert lo s Hle HP Hb En. induction n; intros.
  - rewrite for_brk_nil by lia. apply HQ. replace hi with lo by lia. auto.
  - rewrite for_brk_step by lia. apply wpe_bind. eapply wpe_conseq; [apply Hb; [lia|auto]| |auto].
    intros [b s'] HP'. simpl in *. destruct b.
    + apply wpe_ok; auto.
    + apply IHn; auto; try lia. intros; apply Hb; auto; lia.
Qed.

Section RectFacts.
Context {O : Ops}.

(** [index] lists the values of [p]. *)
Definition ITab (l : list Z) (n : Z) (p : Z -> Z) : Prop := len l = n /\ forall i, 0 <= i < n -> nthZ l i = p i.
Lemma ITab_get l n p i : ITab l n p -> 0 <= i < n -> zget l i = Ok (p i).
Proof. intros [H1 H2] Hi. rewrite zget_ok by lia. rewrite H2 by auto. auto. Qed.
Lemma ITab_set l n p i x : ITab l n p -> 0 <= i < n -> exists l', zset l i x = Ok l' /\ ITab l' n (fun k => if k =? i then x else p k).
Proof.
  intros [H1 H2] Hi. rewrite zset_ok by lia. eexists. split; [reflexivity|]. split; [rewrite len_upd; auto|].
  intros k Hk. rewrite nthZ_upd by lia. zbq; subst; auto.
Qed.
Lemma ITab_ext l n p q : ITab l n p -> (forall i, 0 <= i < n -> p i = q i) -> ITab l n q.
Proof. intros [H1 H2] H. split; auto. intros. rewrite H2 by auto. auto. Qed.

(** Entries of [c] seen through a permutation. *)
Definition PTab (c : mat) (n : Z) (p : Z -> Z) (D : Z -> Z -> F) : Prop :=
  exists C, RTab c n n C /\ forall i j, 0 <= i < n -> 0 <= j < n -> C (p i) (p j) = D i j.
Lemma PTab_get c n p D i j : permutes n p -> PTab c n p D -> 0 <= i < n -> 0 <= j < n -> mget c (p i) (p j) = Ok (D i j).
Proof. intros (P1 & _) (C & HC & E) Hi Hj. rewrite (RTab_get _ _ _ _ _ _ HC) by auto. rewrite E by auto. auto. Qed.
Lemma PTab_set c n p D i j x : permutes n p -> PTab c n p D -> 0 <= i < n -> 0 <= j < n ->
  exists c', mset c (p i) (p j) x = Ok c' /\ PTab c' n p (tset D i j x).
Proof.
  intros (P1 & P2 & _) (C & HC & E) Hi Hj. destruct (RTab_set _ _ _ _ (p i) (p j) x HC (P1 i Hi) (P1 j Hj)) as (c' & E' & H'). exists c'. split; auto.
  eexists. split; [exact H'|]. intros a b Ha Hb. unfold tset. cbn beta.
  destruct (Z.eqb_spec a i) as [->|Na].
  - rewrite Z.eqb_refl. destruct (Z.eqb_spec b j) as [->|Nb]; [rewrite Z.eqb_refl; auto|].
    destruct (Z.eqb_spec (p b) (p j)) as [Eb|]; [apply P2 in Eb; lia|]. cbn [andb]. auto.
  - destruct (Z.eqb_spec (p a) (p i)) as [Ea|]; [apply P2 in Ea; lia|]. cbn [andb]. auto.
Qed.
Lemma PTab_ext c n p D D' : PTab c n p D -> (forall i j, 0 <= i < n -> 0 <= j < n -> D i j = D' i j) -> PTab c n p D'.
Proof. intros (C & HC & E) H. exists C. split; auto. intros. rewrite <- H by auto. auto. Qed.
Lemma PTab_perm c n p q D D' : PTab c n p D -> (forall i, 0 <= i < n -> 0 <= q i < n) ->
  (forall i j, 0 <= i < n -> 0 <= j < n -> D' i j = D (q i) (q j)) -> PTab c n (fun i => p (q i)) D'.
Proof. intros (C & HC & E) Hq H. exists C. split; auto. intros. rewrite H by auto. apply E; auto. Qed.

(** The pivot. *)
Lemma rc_pick_spec n r index c p D : ITab index n p -> permutes n p -> PTab c n p D -> 0 <= r < n ->
  wp (rc_pick n r index c) (fun s => r <= s < n /\
    s = accum (fun t s => if fgt (D (r + 1 + t)%Z (r + 1 + t)%Z) (D s s) then r + 1 + t else s) (Z.to_nat (n - (r + 1))) r).
Proof.
  intros Hix Hp Hc Hr. unfold rc_pick.
  apply (wp_for (fun k s => r <= s < n /\ s = accum (fun t s => if fgt (D (r + 1 + t)%Z (r + 1 + t)%Z) (D s s) then r + 1 + t else s) (Z.to_nat (k - (r + 1))) r)); [lia| | |auto].
  - rewrite Z.sub_diag. cbn. lia.
  - intros i s Hi [Hs E]. rewrite !(ITab_get _ _ _ _ Hix) by lia. cbn [bind]. rewrite !(PTab_get c n p D) by (auto; lia). cbn [bind]. apply wp_ok.
    replace (i + 1 - (r + 1)) with (i - (r + 1) + 1) by lia. rewrite accum_S by lia. rewrite <- E. replace (r + 1 + (i - (r + 1))) with i by lia.
    destruct (fgt (D i i) (D s s)); split; auto; lia.
Qed.
Lemma rc_swap_spec n r s index b p B : ITab index n p -> RTab b n n B -> 0 <= r < n -> 0 <= s < n ->
  wp (rc_swap r s index b) (fun x => ITab (fst x) n (fun i => p (swp r s i)) /\ RTab (snd x) n n (fun i j => B (swp r s i) j)).
Proof.
  intros Hi Hb Hr Hs. unfold rc_swap. destruct (Z.eqb_spec s r) as [->|Hne]; cbn [negb].
  - apply wp_ok. cbn [fst snd]. split; [eapply ITab_ext; [exact Hi|]|eapply RTab_ext; [exact Hb|]]; intros; cbn beta; unfold swp; zbq; subst; auto.
  - rewrite !(ITab_get _ _ _ _ Hi) by lia. cbn [bind].
    destruct (ITab_set _ _ _ r (p s) Hi Hr) as (i1 & -> & Hi1). cbn [bind]. destruct (ITab_set _ _ _ s (p r) Hi1 Hs) as (i2 & -> & Hi2). cbn [bind].
    destruct (RTab_row _ _ _ _ r Hb ltac:(lia)) as (ra & -> & Hla & Hra). destruct (RTab_row _ _ _ _ s Hb ltac:(lia)) as (rb & -> & Hlb & Hrb). cbn [bind].
    destruct (RTab_setrow _ _ _ _ r rb _ Hb ltac:(lia) Hlb Hrb) as (q1 & -> & H1). cbn [bind].
    destruct (RTab_setrow _ _ _ _ s ra _ H1 ltac:(lia) Hla Hra) as (q2 & -> & H2). cbn [bind]. apply wp_ok. cbn [fst snd]. split.
    + eapply ITab_ext; [exact Hi2|]. intros. cbn beta. unfold swp. zbq; subst; auto.
    + eapply RTab_ext; [exact H2|]. intros. cbn beta. unfold swp. zbq; subst; auto.
Qed.

(** The transformation in closed form. *)
Definition rc_e (D : Z -> Z -> F) (r i : Z) : F := (fone / fsqrt (D r r) * D i r)%f.
Definition rc_D (D : Z -> Z -> F) (r i j : Z) : F :=
  if (r <? i) && (r <? j) then
    if i =? j then (D i i - D i r * D i r * (fone / D r r))%f
    else (D (Z.max i j) (Z.min i j) - rc_e D r (Z.max i j) * rc_e D r (Z.min i j))%f
  else D i j.
Definition rc_B (D B : Z -> Z -> F) (r i j : Z) : F :=
  if j =? r then if i =? r then fsqrt (D r r) else if r <? i then rc_e D r i else B i j else B i j.

Lemma rc_transform_spec n r index b c p D B : ITab index n p -> permutes n p -> PTab c n p D -> RTab b n n B -> 0 <= r < n ->
  wp (rc_transform n r (p r) index b c) (fun x => RTab (fst x) n n (rc_B D B r) /\ PTab (snd x) n p (rc_D D r)).
Proof.
  intros Hix Hp Hc Hb Hr. unfold rc_transform. rewrite !(PTab_get c n p D) by (auto; lia). cbn [bind]. tput b1 Hb1.
  set (inv := (fone / fsqrt (D r r))%f). set (inv2 := (fone / D r r)%f).
  apply (wp_for (fun k x => RTab (fst x) n n (fun i j => if i <? k then rc_B D B r i j else B i j) /\
     PTab (snd x) n p (fun i j => if (i <? k) && (j <? k) then rc_D D r i j else D i j))); [lia| | |].
  - cbn [fst snd]. split.
    + eapply RTab_ext; [exact Hb1|]. intros i j Hi Hj. cbn beta. unfold tset, rc_B. zbq; subst; auto.
    + eapply PTab_ext; [exact Hc|]. intros i j Hi Hj. cbn beta. unfold rc_D. zbq; subst; auto.
  - intros i [b2 c2] Hi [Hb2 Hc2]. cbn [fst snd] in *. rewrite (ITab_get _ _ _ _ Hix) by lia. cbn [bind].
    rewrite (PTab_get c2 n p _ i r Hp Hc2) by lia. cbn [bind]. tput b3 Hb3.
    rewrite (PTab_get c2 n p _ i i Hp Hc2) by lia. cbn [bind].
    replace (i <? i) with false by (zbq; auto). cbn [andb] in *.
    destruct (PTab_set c2 n p _ i i (D i i - D i r * D i r * inv2)%f Hp Hc2) as (c3 & E & Hc3); [lia|lia|]. rewrite E. cbn [bind]. clear E.
    apply (wp_for (fun k x => RTab (fst x) n n (fun a j => if a <? i + 1 then rc_B D B r a j else B a j) /\
     PTab (snd x) n p (fun a j => if ((a <? i) && (j <? i)) || ((a =? i) && (j =? i)) || ((a =? i) && (j <? k)) || ((j =? i) && (a <? k)) then rc_D D r a j else D a j))); [lia| | |].
    + cbn [fst snd]. split.
      * eapply RTab_ext; [exact Hb3|]. intros a j Ha Hj. cbn beta. unfold tset, rc_B, rc_e. fold inv. zbq; subst; auto.
      * eapply PTab_ext; [exact Hc3|]. intros a j Ha Hj. cbn beta. unfold tset, rc_D. fold inv2. zbq; subst; auto.
    + intros j [b4 c4] Hj [Hb4 Hc4]. cbn [fst snd] in *. rewrite (ITab_get _ _ _ _ Hix) by lia. cbn [bind].
      rewrite (PTab_get c4 n p _ i j Hp Hc4) by lia. cbn [bind]. tget.
      match goal with |- context [mset c4 (p i) (p j) ?v] => destruct (PTab_set c4 n p _ i j v Hp Hc4) as (c5 & E & Hc5); [lia|lia|]; rewrite E; cbn [bind]; clear E end.
      match goal with |- context [mset c5 (p j) (p i) ?v] => destruct (PTab_set c5 n p _ j i v Hp Hc5) as (c6 & E & Hc6); [lia|lia|]; rewrite E; cbn [bind]; clear E end.
      apply wp_ok. cbn [fst snd]. split; [exact Hb4|]. eapply PTab_ext; [exact Hc6|]. intros a q Ha Hq. cbn beta. unfold tset.
      assert (Ev : forall x, x = D i j -> (x - inv * D i r * (if (j <? i + 1)%Z then rc_B D B r j r else B j r))%f = (D i j - rc_e D r i * rc_e D r j)%f).
      { intros x ->. unfold rc_B, rc_e. fold inv. zbq; subst; auto. }
      rewrite Ev by (zbq; auto).
      destruct (Z.eqb_spec a j), (Z.eqb_spec q i); subst; cbn [andb].
      * unfold rc_D. rewrite (Z.max_r j i), (Z.min_l j i) by lia. zbq; auto.
      * zbq; subst; auto.
      * destruct (Z.eqb_spec a i); subst; cbn [andb]; zbq; subst; auto.
      * destruct (Z.eqb_spec a i), (Z.eqb_spec q j); subst; cbn [andb]; [|zbq; subst; auto..].
        unfold rc_D. rewrite (Z.max_l i j), (Z.min_r i j) by lia. zbq; auto.
    + intros [b4 c4] [Hb4 Hc4]. cbn [fst snd] in *. split; [exact Hb4|]. eapply PTab_ext; [exact Hc4|]. intros a j Ha Hj. cbn beta. unfold rc_D. zbq; subst; auto.
  - intros [b2 c2] [Hb2 Hc2]. cbn [fst snd] in *. split; [eapply RTab_ext; [exact Hb2|]|eapply PTab_ext; [exact Hc2|]]; intros; cbn beta; zbq; auto.
Qed.

(** The pivot as a function of the diagonal; [D] comes from a table by bringing
    its pivot to position [r]. *)
Definition rc_argmax (n r : Z) (D : Z -> Z -> F) : Z := accum (fun t s => if fgt (D (r + 1 + t)%Z (r + 1 + t)%Z) (D s s) then r + 1 + t else s) (Z.to_nat (n - (r + 1))) r.
Definition pivoted_at (n r : Z) (D : Z -> Z -> F) : Prop := exists D0, r <= rc_argmax n r D0 < n /\ forall i j, D i j = D0 (swp r (rc_argmax n r D0) i) (swp r (rc_argmax n r D0) j).

Section Loop.
Variables (n : Z) (small : F) (J : Z -> (Z -> Z) -> (Z -> Z -> F) -> (Z -> Z -> F) -> Prop).
Hypothesis Jswap : forall r s p D B, 0 <= r < n -> r <= s < n -> permutes n p -> J r p D B ->
  J r (fun i => p (swp r s i)) (fun i j => D (swp r s i) (swp r s j)) (fun i j => B (swp r s i) j).
Hypothesis Jstep : forall r p D B, 0 <= r < n -> permutes n p -> J r p D B -> fle (D r r) small = false -> J (r + 1) p (rc_D D r) (rc_B D B r).

Definition rc_state (r : Z) (p : Z -> Z) (D B : Z -> Z -> F) (s : list Z * mat * mat * Z) : Prop :=
  permutes n p /\ J r p D B /\ ITab (fst (fst (fst s))) n p /\ RTab (snd (fst (fst s))) n n B /\ PTab (snd (fst s)) n p D /\ snd s = r.
(** Leaving the loop at rank [r] < [n]; failing at [r]. *)
Definition rc_stop (r : Z) (D : Z -> Z -> F) : Prop :=
  1 <= r < n /\ pivoted_at n r D /\ fle (D r r) small = true /\ forall i, r <= i < n -> flt (D i i) (- small)%f = false.
Definition rc_fail (r : Z) (D : Z -> Z -> F) : Prop :=
  0 <= r < n /\ pivoted_at n r D /\ fle (D r r) small = true /\ (r = 0 \/ exists i, r <= i < n /\ flt (D i i) (- small)%f = true).
Definition rc_err (e : err) : Prop := e = ENonPosDef /\ exists r p D B, permutes n p /\ J r p D B /\ rc_fail r D.

Lemma rc_turn_spec r p D B s : 0 <= r < n -> rc_state r p D B s ->
  wpe (rc_turn n small r s) (fun bs => if fst bs then exists p D B, rc_state r p D B (snd bs) /\ rc_stop r D else exists p D B, rc_state (r + 1) p D B (snd bs)) rc_err.
Proof.
  destruct s as [[[index b] c] r0]. intros Hr (Hp & HJ & Hi & Hb & Hc & _). cbn [fst snd] in *. unfold rc_turn.
  apply wpe_bind_wp. eapply wp_conseq; [apply (rc_pick_spec n r index c p D Hi Hp Hc Hr)|]. cbn beta. fold (rc_argmax n r D). intros s [Hs Es].
  apply wpe_bind_wp. eapply wp_conseq; [apply (rc_swap_spec n r s index b p B Hi Hb Hr); lia|]. cbn beta. intros [i1 b1] [Hi1 Hb1]. cbn [fst snd] in *.
  pose proof (Jswap r s p D B Hr Hs Hp HJ) as HJ1. pose proof (permutes_swp n p r s Hp Hr ltac:(lia)) as Hp1.
  assert (Hc1 : PTab c n (fun i => p (swp r s i)) (fun i j => D (swp r s i) (swp r s j))).
  { eapply PTab_perm; [exact Hc| |intros; reflexivity]. intros. apply swp_range; auto; lia. }
  assert (Hpv : pivoted_at n r (fun i j => D (swp r s i) (swp r s j))) by (exists D; rewrite <- Es; auto).
  clear Hc Hi Hb HJ. set (p1 := fun i => p (swp r s i)) in *. set (D1 := fun i j => D (swp r s i) (swp r s j)) in *. set (B1 := fun i j => B (swp r s i) j) in *. clearbody p1 D1 B1.
  rewrite (ITab_get _ _ _ _ Hi1) by lia. cbn [bind]. rewrite (PTab_get _ _ _ _ r r Hp1 Hc1) by lia. cbn [bind].
  destruct (fle (D1 r r) small) eqn:El.
  - destruct (Z.eqb_spec r 0).
    + apply wpe_err. split; auto. exists r, p1, D1, B1. split; [auto|]. split; [auto|]. split; auto.
    + apply wpe_bind. apply (wpe_for (fun k (_ : unit) => forall i, r <= i < k -> flt (D1 i i) (- small)%f = false)); [lia|intros; lia| |].
      * intros i [] Hi2 IH. rewrite (ITab_get _ _ _ _ Hi1) by lia. cbn [bind]. rewrite (PTab_get _ _ _ _ i i Hp1 Hc1) by lia. cbn [bind].
        destruct (flt (D1 i i) (- small)%f) eqn:Ef.
        -- apply wpe_err. split; auto. exists r, p1, D1, B1. split; [auto|]. split; [auto|]. split; [auto|]. split; [auto|]. split; [auto|]. right. exists i. split; [lia|auto].
        -- apply wpe_ok. intros k Hk. destruct (Z.eq_dec k i) as [->|]; auto. apply IH; lia.
      * intros [] H. apply wpe_ok. cbn [fst snd]. exists p1, D1, B1. split; [unfold rc_state; cbn [fst snd]; auto 10|]. split; [lia|]. split; [auto|]. split; [auto|]. auto.
  - apply wpe_bind_wp. eapply wp_conseq; [apply (rc_transform_spec n r i1 b1 c p1 D1 B1); auto|]. cbn beta. intros [b2 c2] [Hb2 Hc2]. cbn [fst snd] in *. apply wpe_ok. cbn [fst snd].
    exists p1, (rc_D D1 r), (rc_B D1 B1 r). unfold rc_state. cbn [fst snd]. split; [auto|]. split; [apply Jstep; auto|]. auto.
Qed.

Definition rc_result (d : RCD) : Prop := exists r p D B W, permutes n p /\ J r p D B /\ 1 <= r <= n /\ (r = n \/ rc_stop r D) /\
  rc_rank d = r /\ general (rc_root d) /\ MatIs (rc_root d) n r W /\ forall i j, 0 <= i < n -> 0 <= j < r -> W (p i) j = B i j.

Lemma rc_finish s : 1 <= n -> (exists r p D B, rc_state r p D B s /\ 1 <= r <= n /\ (r = n \/ rc_stop r D)) ->
  wpe (let '(index, b, c, r) := s in let* root := NewRealMatrixWithDimension n r in
    let* root := for_ 0 n (fun i root => for_ 0 r (fun j root => let* ii := zget index i in let* x := mget b i j in m_SetEntry root ii j x) root) root in Ok (mkRCD root r)) rc_result rc_err.
Proof.
  intros Hn (r & p & D & B & Hs & Hr & Hst). destruct s as [[[index b] c] r0]. destruct Hs as (Hp & HJ & Hix & Hb & _ & Er). cbn [fst snd] in *. subst r0.
  pose proof Hp as (P1 & P2 & _).
  destruct (proj2 (proj2 (new_zero n r Hn ltac:(lia)))) as (root & -> & Hg & Hroot). cbn [bind]. apply wpe_wp. apply wp_bind.
  apply (wp_for (fun k m => general m /\ exists W, MatIs m n r W /\ forall i j, 0 <= i < k -> 0 <= j < r -> W (p i) j = B i j)); [lia| | |].
  - split; auto. eexists. split; [exact Hroot|]. intros; lia.
  - intros i m Hi (Hgm & W & Hm & HW).
    apply (wp_for (fun q m => general m /\ exists W, MatIs m n r W /\ (forall k j, 0 <= k < i -> 0 <= j < r -> W (p k) j = B k j) /\ forall j, 0 <= j < q -> W (p i) j = B i j)); [lia| | |].
    + split; auto. exists W. split; [auto|]. split; [auto|]. intros; lia.
    + intros j m1 Hj (Hg1 & W1 & Hm1 & HW1 & HW2). rewrite (ITab_get _ _ _ _ Hix) by lia. cbn [bind]. tget.
      eapply wp_setentry; [exact Hg1|exact Hm1|apply P1; lia|lia|]. intros m2 Hg2 Hm2. split; auto. eexists. split; [exact Hm2|]. unfold tset. split.
      * intros k q Hk Hq. destruct (Z.eqb_spec (p k) (p i)) as [E|]; [apply P2 in E; lia|]. cbn [andb]. apply HW1; auto.
      * intros q Hq. rewrite Z.eqb_refl. cbn [andb]. destruct (Z.eqb_spec q j) as [->|]; auto. apply HW2; lia.
    + intros m1 (Hg1 & W1 & Hm1 & HW1 & HW2). split; auto. exists W1. split; auto. intros k j Hk Hj. destruct (Z.eq_dec k i) as [->|]; auto. apply HW1; lia.
  - intros m (Hgm & W & Hm & HW). apply wp_ok. exists r, p, D, B, W. cbn. auto 10.
Qed.

Lemma rc_new_spec m A : 1 <= n -> library m -> MatIs m n n A -> J 0 (fun i => i) A (fun _ _ => fzero) ->
  wpe (NewRectangularCholeskyDecompositionWithThreshold m small) rc_result rc_err.
Proof.
  intros Hn Hlib Hm HJ0. unfold NewRectangularCholeskyDecompositionWithThreshold. rewrite (MatIs_rows _ _ _ _ Hm).
  apply wpe_bind_wp. eapply wp_conseq; [apply (m_Data_ok m n n A Hlib Hm)|]. cbn beta. intros c Hc.
  apply wpe_bind_wp. eapply wp_conseq; [apply (make2_spec n n); lia|]. cbn beta. intros b Hb.
  rewrite make_ok by lia. cbn [bind]. apply wpe_bind_wp.
  apply (wp_for (fun k l => ITab l n (fun i => if i <? k then i else 0))); [lia| | |].
  { split; [apply len_repeat; lia|]. intros i Hi. rewrite nthZ_repeat by auto. zbq; auto. }
  { intros i l Hi Hl. destruct (ITab_set _ _ _ i i Hl Hi) as (l' & -> & Hl'). apply wp_ok. eapply ITab_ext; [exact Hl'|]. intros. cbn beta. zbq; subst; auto. }
  intros index Hix. rewrite Z.max_r by lia. apply wpe_bind.
  apply (wpe_for_brk (fun r s => exists p D B, rc_state r p D B s) (fun s => exists r p D B, rc_state r p D B s /\ rc_stop r D)); [lia| | | |].
  - exists (fun i => i), A, (fun _ _ => fzero). unfold rc_state. cbn [fst snd]. split; [apply permutes_id|]. split; [exact HJ0|].
    split; [eapply ITab_ext; [exact Hix|]; intros; cbn beta; zbq; auto|]. split; [exact Hb|]. split; [exists A; auto|auto].
  - intros r s Hr (p & D & B & Hs). eapply wpe_conseq; [apply (rc_turn_spec r p D B s Hr Hs)| |auto]. cbn beta. intros [[] s']; cbn [fst snd]; auto.
    intros (p' & D' & B' & H1 & H2). exists r, p', D', B'. auto.
  - intros s (p & D & B & Hs). cbn [snd]. apply rc_finish; auto. exists n, p, D, B. split; [auto|]. split; [lia|auto].
  - intros s (r & p & D & B & Hs & Hst). cbn [snd]. apply rc_finish; auto. exists r, p, D, B. split; [auto|]. split; [destruct Hst; lia|auto].
Qed.
End Loop.
End RectFacts.

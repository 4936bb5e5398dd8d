(** Proofs about the products of BlockRealMatrix: Multiply, Operate and
    PreMultiply, with the exact order of their additions. *)
From Coq Require Import ZArith List Lia Bool.
From Verif Require Import Base BaseLemmas Scalar Vector VecSpec VectorFacts Matrix BlockM MatSpec MatFacts Array2DFacts BlockLoops BlockFacts BlockFacts2.
Import ListNotations.
Open Scope Z_scope.

Lemma wp_while {S} (P : Z -> S -> Prop) m fuel (cond : S -> bool) body (s : S) (Q : S -> Prop) :
  0 <= m < Z.of_nat fuel -> P 0 s ->
  (forall k s, 0 <= k < m -> P k s -> cond s = true /\ wp (body s) (P (k + 1))) ->
  (forall s, P m s -> cond s = false /\ Q s) -> wp (while_ fuel cond body s) Q.
Proof.
  intros Hm H0 Hs HQ.
  assert (G : forall fuel j s, 0 <= j <= m -> m - j < Z.of_nat fuel -> P j s -> wp (while_ fuel cond body s) Q).
  { clear s H0 Hm. induction fuel0 as [|n IH]; intros j s Hj Hf HP; [lia|]. cbn [while_].
    destruct (Z.eq_dec j m) as [->|Hne].
    - destruct (HQ s HP) as [-> ?]. apply wp_ok; auto.
    - destruct (Hs j s ltac:(lia) HP) as [-> Hw]. wpb. eapply wp_conseq; [exact Hw|]. cbn beta. intros s' HP'.
      apply (IH (j + 1)); auto; lia. }
  apply (G fuel 0); auto; lia.
Qed.
Lemma for_shift {S} d lo hi (body : Z -> S -> res S) (s : S) :
  for_ lo hi body s = for_ (lo + d) (hi + d) (fun i => body (i - d)) s.
Proof.
  unfold for_. replace (hi + d - (lo + d)) with (hi - lo) by lia. generalize (Z.to_nat (hi - lo)) as n.
  intros n. revert lo s. induction n as [|n IH]; intros lo s; auto. cbn [iter_up].
  replace (lo + d - d) with lo by lia. apply bind_ext. intros s'. rewrite IH. replace (lo + 1 + d) with (lo + d + 1) by lia. auto.
Qed.
Lemma accum_S {S} (step : Z -> S -> S) n s : 0 <= n ->
  accum step (Z.to_nat (n + 1)) s = step n (accum step (Z.to_nat n) s).
Proof. intros H. replace (Z.to_nat (n + 1)) with (Datatypes.S (Z.to_nat n)) by lia. cbn [accum]. f_equal. lia. Qed.

Lemma ok3 {A B C} (a a' : A) (b b' : B) (c c' : C) : a = a' -> b = b' -> c = c' -> Ok (a, b, c) = Ok (a', b', c').
Proof. congruence. Qed.

Section BlockMul.
Context {O : Ops}.

(** Sum of [w] terms, four at a time. *)
Definition quad (a : Z -> F) (k : Z) : F := (a k + a (k + 1)%Z + a (k + 2)%Z + a (k + 3)%Z)%f.
Definition sum4 (w : Z) (a : Z -> F) : F :=
  accum (fun k s => (s + a (w / 4 * 4 + k)%Z)%f) (Z.to_nat (w - w / 4 * 4))
    (accum (fun g s => (s + quad a (4 * g)%Z)%f) (Z.to_nat (w / 4)) fzero).
(** Sum of [n] terms, one partial sum per block of 52. *)
Definition bsum (sum : Z -> (Z -> F) -> F) (n : Z) (a : Z -> F) : F :=
  accum (fun K s => (s + sum (bw n K) (fun k => a (K * 52 + k)%Z))%f) (Z.to_nat (nblk n)) fzero.

Lemma while4 (a : Z -> F) w (p1 p2 : Z -> Z) cond body fuel :
  0 <= w < Z.of_nat fuel ->
  (forall k s, 0 <= k <= w -> cond (s, p1 k, p2 k) = (k + 3 <? w)) ->
  (forall k s, 0 <= k -> k + 3 < w -> body (s, p1 k, p2 k) = Ok ((s + quad a k)%f, p1 (k + 4), p2 (k + 4))) ->
  while_ fuel cond body (fzero, p1 0, p2 0) =
  Ok (accum (fun g s => (s + quad a (4 * g)%Z)%f) (Z.to_nat (w / 4)) fzero, p1 (w / 4 * 4), p2 (w / 4 * 4)).
Proof.
  intros Hw Hc Hb. pose proof (Z.div_mod w 4 ltac:(lia)). pose proof (Z.mod_pos_bound w 4 ltac:(lia)).
  assert (G : wp (while_ fuel cond body (fzero, p1 0, p2 0)) (fun r => r =
    (accum (fun g s => (s + quad a (4 * g)%Z)%f) (Z.to_nat (w / 4)) fzero, p1 (w / 4 * 4), p2 (w / 4 * 4)))).
  { apply (wp_while (fun k s => s = (accum (fun g s => (s + quad a (4 * g)%Z)%f) (Z.to_nat k) fzero, p1 (k * 4), p2 (k * 4))) (w / 4)); try lia.
    - reflexivity.
    - intros k s Hk ->. rewrite Hc, Hb by lia. split; [lia|]. apply wp_ok. rewrite accum_S by lia.
      replace (4 * k) with (k * 4) by lia. replace ((k + 1) * 4) with (k * 4 + 4) by lia. reflexivity.
    - intros s ->. rewrite Hc by lia. split; auto. lia. }
  destruct G as (r & E & ->). auto.
Qed.
Lemma while1 (a : Z -> F) k0 w (p1 p2 : Z -> Z) cond body fuel s0 :
  0 <= k0 <= w -> w - k0 < Z.of_nat fuel ->
  (forall k s, 0 <= k <= w -> cond (s, p1 k, p2 k) = (k <? w)) ->
  (forall k s, 0 <= k < w -> body (s, p1 k, p2 k) = Ok ((s + a k)%f, p1 (k + 1), p2 (k + 1))) ->
  while_ fuel cond body (s0, p1 k0, p2 k0) =
  Ok (accum (fun k s => (s + a (k0 + k)%Z)%f) (Z.to_nat (w - k0)) s0, p1 w, p2 w).
Proof.
  intros Hk0 Hw Hc Hb.
  assert (G : wp (while_ fuel cond body (s0, p1 k0, p2 k0)) (fun r => r =
    (accum (fun k s => (s + a (k0 + k)%Z)%f) (Z.to_nat (w - k0)) s0, p1 w, p2 w))).
  { apply (wp_while (fun k s => s = (accum (fun k s => (s + a (k0 + k)%Z)%f) (Z.to_nat k) s0, p1 (k0 + k), p2 (k0 + k))) (w - k0)); try lia.
    - rewrite Z.add_0_r. reflexivity.
    - intros k s Hk ->. rewrite Hc, Hb by lia. split; [lia|]. apply wp_ok. rewrite accum_S by lia.
      rewrite Z.add_assoc. reflexivity.
    - intros s ->. replace (k0 + (w - k0)) with w by lia. rewrite Hc by lia. split; auto. lia. }
  destruct G as (r & E & ->). auto.
Qed.

Lemma b_dot4_spec tb mb r c n I K J x y f g :
  1 <= r -> 1 <= c -> 1 <= n -> 0 <= I < nblk r -> 0 <= K < nblk c -> 0 <= J < nblk n ->
  BlkTab tb r c I K f -> BlkTab mb c n K J g -> 0 <= x < bw r I -> 0 <= y < bw n J ->
  b_dot4 tb mb (bw n J) (x * bw c K) (x * bw c K + bw c K) y =
  Ok (sum4 (bw c K) (fun k => (f (I * 52 + x)%Z (K * 52 + k)%Z * g (K * 52 + k)%Z (J * 52 + y)%Z)%f)).
Proof.
  intros Hr Hc Hn HI HK HJ Ht Hm Hx Hy. unfold b_dot4. cbv zeta. b52.
  pose proof (bw_bounds c K Hc HK) as Hw. pose proof (Z.div_mod (bw c K) 4 ltac:(lia)). pose proof (Z.mod_pos_bound (bw c K) 4 ltac:(lia)).
  assert (G1 : forall k l, l = x * bw c K + k -> 0 <= k < bw c K -> zget tb l = Ok (f (I * 52 + x) (K * 52 + k))).
  { intros k l -> Hk. eapply BlkTab_get; eauto. }
  assert (G2 : forall k l, l = k * bw n J + y -> 0 <= k < bw c K -> zget mb l = Ok (g (K * 52 + k) (J * 52 + y))).
  { intros k l -> Hk. eapply BlkTab_get; eauto. }
  replace (@fzero O, x * bw c K, y) with (@fzero O, x * bw c K + 0, 0 * bw n J + y) by (rewrite Z.add_0_r; reflexivity).
  erewrite (while4 (fun k => (f (I * 52 + x)%Z (K * 52 + k)%Z * g (K * 52 + k)%Z (J * 52 + y)%Z)%f) (bw c K)
    (fun k => x * bw c K + k) (fun k => k * bw n J + y)); [|lia|..].
  - cbn [bind]. erewrite (while1 (fun k => (f (I * 52 + x)%Z (K * 52 + k)%Z * g (K * 52 + k)%Z (J * 52 + y)%Z)%f) (bw c K / 4 * 4) (bw c K)
      (fun k => x * bw c K + k) (fun k => k * bw n J + y)); [|lia|lia|..].
    + reflexivity.
    + intros k s Hk. cbn beta iota. destruct (Z.ltb_spec (x * bw c K + k) (x * bw c K + bw c K)), (Z.ltb_spec k (bw c K)); auto; lia.
    + intros k s Hk. cbn beta iota. rewrite (G1 k) by lia. rewrite (G2 k) by lia. simp. apply ok3; auto; lia.
  - intros k s Hk. cbn beta iota. destruct (Z.ltb_spec (x * bw c K + k) (x * bw c K + bw c K - 3)), (Z.ltb_spec (k + 3) (bw c K)); auto; lia.
  - intros k s Hk Hk2. cbn beta iota. rewrite (G1 k) by lia. rewrite (G2 k) by lia.
    rewrite (G1 (k + 1)) by lia. rewrite (G2 (k + 1)) by lia.
    rewrite (G1 (k + 2)) by lia. rewrite (G2 (k + 2)) by lia. rewrite (G1 (k + 3)) by lia. rewrite (G2 (k + 3)) by lia.
    simp. apply ok3; auto; lia.
Qed.

Lemma wp_cells0 r c t g I J (cell : Z -> Z -> mat * Z -> res (mat * Z)) bl0 (Q : mat * Z -> Prop) :
  1 <= r -> 1 <= c -> 0 <= I < nblk r -> 0 <= J < nblk c -> BTab bl0 r c t ->
  (forall x y bl t', 0 <= x < bw r I -> 0 <= y < bw c J -> BTab bl r c t' ->
     t' (I * 52 + x) (J * 52 + y) = t (I * 52 + x) (J * 52 + y) ->
     wp (cell (I * 52 + x) y (bl, x * bw c J + y)) (fun s => snd s = x * bw c J + y + 1 /\
        BTab (fst s) r c (tset t' (I * 52 + x) (J * 52 + y) (g (I * 52 + x) (J * 52 + y))))) ->
  (forall bl k, BTab bl r c (blkset t g I J) -> Q (bl, k)) ->
  wp (for_ (I * 52) (Z.min (I * 52 + 52) r) (fun p s =>
        for_ 0 (bw c J) (fun y s => cell p y s) s) (bl0, 0)) Q.
Proof.
  intros Hr Hc HI HJ HT Hb HQ.
  rewrite (for_ext _ _ _ (fun p s => for_ (J * 52) (Z.min (J * 52 + 52) c) (fun q s => cell p (q - J * 52) s) s)).
  - eapply (wp_cells r c t g I J (fun p q s => cell p (q - J * 52) s)); eauto.
    intros x y bl t' Hx Hy HT' E. replace (J * 52 + y - J * 52) with y by lia. eauto.
  - intros p s Hp. rewrite (for_shift (J * 52)). f_equal; unfold bw; lia.
Qed.

(** Accumulating one partial sum per block of columns into block (I,J). *)
Lemma mul_block r n c (part : Z -> Z -> Z -> F) (t : Z -> Z -> F) I J (body : Z -> mat -> res mat) bl0 (Q : mat -> Prop) :
  1 <= r -> 1 <= n -> 1 <= c -> 0 <= I < nblk r -> 0 <= J < nblk n -> BTab bl0 r n t ->
  (forall p q, in_blk I J p q -> t p q = fzero) ->
  (forall K bl t', 0 <= K < nblk c -> BTab bl r n t' ->
     wp (body K bl) (fun bl' => BTab bl' r n (blkset t' (fun p q => (t' p q + part K p q)%f) I J))) ->
  (forall bl, BTab bl r n (blkset t (fun p q => accum (fun K s => (s + part K p q)%f) (Z.to_nat (nblk c)) fzero) I J) -> Q bl) ->
  wp (for_ 0 (nblk c) body bl0) Q.
Proof.
  intros Hr Hn Hc HI HJ HT Hz Hb HQ. pose proof (nblk_pos c Hc).
  apply (wp_for (fun K bl => BTab bl r n (blkset t (fun p q => accum (fun K s => (s + part K p q)%f) (Z.to_nat K) fzero) I J))); try lia.
  - eapply BTab_ext; try exact HT; auto. intros p q Hp Hq. unfold blkset. cbn [Z.to_nat accum].
    destruct (Z.eqb_spec (p / 52) I), (Z.eqb_spec (q / 52) J); cbn [andb]; auto. apply Hz. split; auto.
  - intros K bl HK HP. eapply wp_conseq; [eapply Hb; eauto|]. cbn beta. intros bl' HT'.
    eapply BTab_ext; try exact HT'; auto. intros p q Hp Hq. unfold blkset.
    destruct (Z.eqb_spec (p / 52) I), (Z.eqb_spec (q / 52) J); cbn [andb]; auto. rewrite accum_S by lia. auto.
  - auto.
Qed.

Lemma b_Multiply_blk_spec b m r c n f g : BIs b r c f -> BIs m c n g ->
  wp (b_Multiply b (MBlk m)) (fun b' => BIs b' r n (fun i j => bsum sum4 c (fun k => (f i k * g k j)%f))).
Proof.
  intros Hb Hm. unfold b_Multiply.
  rewrite checkMultiplication_ok.
  2:{ destruct Hb as (bl & -> & ? & ? & ?). destruct Hm as (bl2 & -> & ? & ? & ?). reflexivity. }
  destruct Hb as (bl & -> & Hr & Hc & HT). destruct Hm as (bm & -> & _ & Hn & HM). bsimp. b52. 
  destruct (New_ok r n Hr Hn) as (b0 & -> & HT0). bsimp. cbv zeta. wpb.
  eapply (wp_blocks r n _ (fun i j => bsum sum4 c (fun k => (f i k * g k j)%f)) _ _ _ Hr Hn HT0).
  2:{ intros bl' k HT'. apply wp_ok. exists bl'. split; auto. }
  intros I J bl1 t1 HI HJ HT1 Hz1. rewrite blockWidth_bw by auto. wpb.
  eapply (mul_block r n c (fun K i j => sum4 (bw c K) (fun k => (f i (K * 52 + k)%Z * g (K * 52 + k)%Z j)%f)) t1 I J); eauto.
  - intros K bl2 t2 HK HT2. rewrite blockWidth_bw by auto.
    destruct (BTab_BlkTab _ _ _ _ I K HT HI HK) as (tb & -> & HB). 
    destruct (BTab_BlkTab _ _ _ _ K J HM HK HJ) as (mb & -> & HB2). simp. wpb.
    eapply (wp_cells0 r n t2 (fun p q => (t2 p q + sum4 (bw c K) (fun k => (f p (K * 52 + k)%Z * g (K * 52 + k)%Z q)%f))%f) I J
      (fun p nStart '(bl, k) => 
         let* sum := b_dot4 tb mb (bw n J) ((p - I * 52) * bw c K) ((p - I * 52) * bw c K + bw c K) nStart in
         let* o := mget bl (I * nblk n + J) k in
         let* bl := mset bl (I * nblk n + J) k (o + sum)%f in Ok (bl, k + 1))); eauto.
    + intros x y bl3 t3 Hx Hy HT3 E3. replace (I * 52 + x - I * 52) with x by lia.
      erewrite b_dot4_spec; try exact HB; try exact HB2; auto. simp.
      erewrite BTab_get by eauto. simp. edestruct BTab_set as (bl4 & -> & HT4); try exact HT3; try eassumption.
      simp. apply wp_ok. cbn [fst snd]. split; auto. rewrite E3 in HT4. exact HT4.
    + intros bl3 k HT3. apply wp_ok. auto.
  - intros bl2 HT2. apply wp_ok. cbn [fst snd]. split; auto.
Qed.

(** [mat] is not a block matrix: one product at a time. *)
Lemma b_Multiply_other_spec b m r c n f g : BIs b r c f -> MatIs m c n g -> 1 <= n ->
  (forall b', m <> MBlk b') ->
  wp (b_Multiply b m) (fun b' => BIs b' r n (fun i j => bsum fsum c (fun k => (f i k * g k j)%f))).
Proof.
  intros Hb Hm Hn Hnb. unfold b_Multiply.
  rewrite checkMultiplication_ok.
  2:{ destruct Hb as (bl & -> & ? & ? & ?). cbn. rewrite (MatIs_rows _ _ _ _ Hm). reflexivity. }
  destruct Hb as (bl & -> & Hr & Hc & HT). bsimp.
  match goal with |- wp (match _ with MArr _ => ?X | MBlk _ => _ | MDiag _ => _ | MOther _ _ _ => _ end) ?Q =>
    assert (G : wp X Q); [|destruct m; auto; exfalso; eapply Hnb; reflexivity] end.
  b52. rewrite (MatIs_cols _ _ _ _ Hm). bsimp.
  destruct (New_ok r n Hr Hn) as (b0 & -> & HT0). bsimp. cbv zeta. wpb.
  eapply (wp_blocks r n _ (fun i j => bsum fsum c (fun k => (f i k * g k j)%f)) _ _ _ Hr Hn HT0).
  2:{ intros bl' k HT'. apply wp_ok. exists bl'. split; auto. }
  intros I J bl1 t1 HI HJ HT1 Hz1. wpb.
  eapply (mul_block r n c (fun K i j => fsum (bw c K) (fun k => (f i (K * 52 + k)%Z * g (K * 52 + k)%Z j)%f)) t1 I J); eauto.
  - intros K bl2 t2 HK HT2. rewrite blockWidth_bw by auto.
    destruct (BTab_BlkTab _ _ _ _ I K HT HI HK) as (tb & -> & HB). simp. wpb.
    eapply (wp_cells r n t2 (fun p q => (t2 p q + fsum (bw c K) (fun k => (f p (K * 52 + k)%Z * g (K * 52 + k)%Z q)%f))%f) I J
      (fun p q '(bl, k) => 
         let* (sum, _) := for_ ((p - I * 52) * bw c K) ((p - I * 52) * bw c K + bw c K) (fun l '(sum, r0) =>
                  let* t := zget tb l in
                  let* y := m_At m r0 q in
                  Ok ((sum + t * y)%f, r0 + 1)) (fzero, K * 52) in
         let* o := mget bl (I * nblk n + J) k in
         let* bl := mset bl (I * nblk n + J) k (o + sum)%f in Ok (bl, k + 1))); eauto.
    + intros x y bl3 t3 Hx Hy HT3 E3. replace (I * 52 + x - I * 52) with x by lia. wpb.
      pose proof (bw_bounds c K Hc HK). pose proof (bw_bounds r I Hr HI). pose proof (bw_bounds n J Hn HJ).
      apply (wp_for (fun l s => snd s = K * 52 + (l - x * bw c K) /\
        fst s = fsum (l - x * bw c K) (fun k => (f (I * 52 + x)%Z (K * 52 + k)%Z * g (K * 52 + k)%Z (J * 52 + y)%Z)%f))); try lia.
      * cbn [fst snd]. split; [lia|]. rewrite Z.sub_diag. reflexivity.
      * intros l [s q] Hl [Hq Hs]. cbn [fst snd] in *.
        replace (zget tb l) with (zget tb (x * bw c K + (l - x * bw c K))) by (f_equal; lia).
        rewrite (BlkTab_get _ _ _ _ _ _ _ _ HB) by lia. simp. subst q.
        rewrite (MatIs_At _ _ _ _ _ _ Hm) by lia. simp. apply wp_ok. cbn [fst snd]. split; [lia|].
        unfold fsum. replace (l + 1 - x * bw c K) with (l - x * bw c K + 1) by lia. rewrite accum_S by lia.
        subst s. reflexivity.
      * intros [s q] [Hq Hs]. cbn [fst snd] in *. replace (x * bw c K + bw c K - x * bw c K) with (bw c K) in Hs by lia. subst s.
        erewrite BTab_get by eauto. simp. edestruct BTab_set as (bl4 & -> & HT4); try exact HT3; try eassumption.
        simp. apply wp_ok. cbn [fst snd]. split; auto. rewrite E3 in HT4. exact HT4.
    + intros bl3 k HT3. apply wp_ok. auto.
  - intros bl2 HT2. apply wp_ok. cbn [fst snd]. split; auto.
Qed.

(** Adding a partial sum to the entries of block [I] of a vector. *)
Definition vadd (n I : Z) (h : Z -> F) (g : Z -> F) : Z -> F :=
  fun p => if p / 52 =? I then (h p + g p)%f else h p.

(** Entries of a vector accumulated block by block. *)
Lemma blocks_accum n m (part : Z -> Z -> F) (body : Z -> Z -> vec -> res vec) out0 (Q : vec -> Prop) :
  1 <= n -> 1 <= m -> VTab out0 n (fun _ => fzero) ->
  (forall I J out h, 0 <= I < nblk n -> 0 <= J < nblk m -> VTab out n h ->
     wp (body I J out) (fun out' => VTab out' n (vadd n I h (part J)))) ->
  (forall out, VTab out n (fun p => accum (fun J s => (s + part J p)%f) (Z.to_nat (nblk m)) fzero) -> Q out) ->
  wp (for_ 0 (nblk n) (fun I out => for_ 0 (nblk m) (fun J out => body I J out) out) out0) Q.
Proof.
  intros Hn Hm HT Hb HQ. pose proof (nblk_pos n Hn). pose proof (nblk_pos m Hm).
  set (A := fun J p => accum (fun J s => (s + part J p)%f) (Z.to_nat J) fzero).
  assert (HA : forall J p, 0 <= J -> A (J + 1) p = (A J p + part J p)%f) by (intros; unfold A; rewrite accum_S; auto).
  apply (wp_for (fun I out => VTab out n (fun p => if p / 52 <? I then A (nblk m) p else fzero))); try lia.
  - eapply VTab_ext; [exact HT|]. intros p Hp. cbn beta. destruct (blk_of n p Hn Hp) as [HI _].
    destruct (Z.ltb_spec (p / 52) 0); auto. lia.
  - intros I out HI HP.
    apply (wp_for (fun J out => VTab out n (fun p => if p / 52 <? I then A (nblk m) p else if p / 52 =? I then A J p else fzero))); try lia.
    + eapply VTab_ext; [exact HP|]. intros p Hp. cbn beta. destruct (p / 52 <? I); auto. destruct (p / 52 =? I); auto.
    + intros J out' HJ HP'. eapply wp_conseq; [eapply Hb; eauto|]. cbn beta. intros out2 H2.
      eapply VTab_ext; [exact H2|]. intros p Hp. cbn beta. unfold vadd.
      destruct (Z.ltb_spec (p / 52) I), (Z.eqb_spec (p / 52) I); auto; try lia. rewrite HA by lia. auto.
    + intros out' HP'. eapply VTab_ext; [exact HP'|]. intros p Hp. cbn beta.
      destruct (Z.ltb_spec (p / 52) I), (Z.eqb_spec (p / 52) I), (Z.ltb_spec (p / 52) (I + 1)); auto; lia.
  - intros out HP. apply HQ. eapply VTab_ext; [exact HP|]. intros p Hp. cbn beta. destruct (blk_of n p Hn Hp) as [HI _].
    destruct (Z.ltb_spec (p / 52) (nblk n)); auto. lia.
Qed.

Lemma b_Operate_spec b v r c f g : BIs b r c f -> VecIs (VArr v) c g ->
  wp (b_Operate b v) (fun out => VecIs (VArr out) r (fun i => bsum sum4 c (fun k => (f i k * g k)%f))).
Proof.
  intros (bl & -> & Hr & Hc & HT) Hv. apply VTab_VecIs in Hv. destruct Hv as [Hlv Hv]. unfold b_Operate. b52. bsimp.
  replace (len v =? c) with true by lia. cbn [negb]. wpb. apply wp_make; [lia|].
  eapply (blocks_accum r c (fun J p => sum4 (bw c J) (fun k => (f p (J * 52 + k)%Z * g (J * 52 + k)%Z)%f))); auto.
  { apply VTab_zeros; lia. }
  2:{ intros out Ho. apply VTab_VecIs. exact Ho. }
  intros I J out h HI HJ Ho. wpb.
  pose proof (bw_bounds r I Hr HI) as HbI. pose proof (bw_bounds c J Hc HJ) as HbJ.
  assert (Er : Z.min (I * 52 + 52) r = I * 52 + bw r I) by (unfold bw; lia).
  assert (Ec : Z.min (J * 52 + 52) c = J * 52 + bw c J) by (unfold bw; lia). rewrite Er, Ec.
  destruct (BTab_BlkTab _ _ _ _ I J HT HI HJ) as (tb & Etb & HB).
  apply (wp_for (fun p s => snd s = (p - I * 52) * bw c J /\ VTab (fst s) r (fun q => if (I * 52 <=? q) && (q <? p)
    then (h q + sum4 (bw c J) (fun k => (f q (J * 52 + k)%Z * g (J * 52 + k)%Z)%f))%f else h q))); try lia.
  - cbn [fst snd]. split; [lia|]. eapply VTab_ext; [exact Ho|]. intros q Hq. cbn beta. zb.
  - intros p [out1 k1] Hp [Hk1 Ho1]. cbn [fst snd] in *. subst k1.
    remember (p - I * 52) as x eqn:Ex. assert (p = I * 52 + x) by lia. subst p. clear Ex.
    assert (G1 : forall k l, l = x * bw c J + k -> 0 <= k < bw c J -> mget bl (I * nblk c + J) l = Ok (f (I * 52 + x) (J * 52 + k))).
    { intros k l -> Hk. eapply BTab_get; eauto; lia. }
    assert (G2 : forall k l, l = J * 52 + k -> 0 <= k < bw c J -> zget v l = Ok (g (J * 52 + k))).
    { intros k l -> Hk. rewrite zget_ok by lia. f_equal. apply Hv. lia. }
    replace (@fzero O, x * bw c J, J * 52) with (@fzero O, x * bw c J + 0, J * 52 + 0) by (rewrite !Z.add_0_r; reflexivity).
    pose proof (Z.div_mod (bw c J) 4 ltac:(lia)). pose proof (Z.mod_pos_bound (bw c J) 4 ltac:(lia)).
    erewrite (while4 (fun k => (f (I * 52 + x)%Z (J * 52 + k)%Z * g (J * 52 + k)%Z)%f) (bw c J)
      (fun k => x * bw c J + k) (fun k => J * 52 + k)); [|lia|..].
    + cbn [bind]. erewrite (while1 (fun k => (f (I * 52 + x)%Z (J * 52 + k)%Z * g (J * 52 + k)%Z)%f) (bw c J / 4 * 4) (bw c J)
        (fun k => x * bw c J + k) (fun k => J * 52 + k)); [|lia|lia|..].
      * cbn [bind]. rewrite zget_ok by (rewrite (proj1 Ho1); lia). simp. rewrite (proj2 Ho1) by lia. wpb.
        edestruct (VTab_set out1) as (out2 & -> & Ho2); [exact Ho1| |]; [|apply wp_ok; apply wp_ok; cbn [fst snd]; split; [lia|]].
        { lia. }
        eapply VTab_ext; [exact Ho2|]. intros q Hq. cbn beta.
        destruct (Z.eqb_spec q (I * 52 + x)); [subst q; zb; reflexivity|zb].
      * intros k s Hk. cbn beta iota. destruct (Z.ltb_spec (J * 52 + k) (J * 52 + bw c J)), (Z.ltb_spec k (bw c J)); auto; lia.
      * intros k s Hk. cbn beta iota. rewrite (G1 k) by lia. rewrite (G2 k) by lia. simp. apply ok3; auto; lia.
    + intros k s Hk. cbn beta iota. destruct (Z.ltb_spec (J * 52 + k) (J * 52 + bw c J - 3)), (Z.ltb_spec (k + 3) (bw c J)); auto; lia.
    + intros k s Hk Hk2. cbn beta iota. rewrite (G1 k) by lia. rewrite (G2 k) by lia.
      rewrite (G1 (k + 1)) by lia. rewrite (G2 (k + 1)) by lia.
      rewrite (G1 (k + 2)) by lia. rewrite (G2 (k + 2)) by lia. rewrite (G1 (k + 3)) by lia. rewrite (G2 (k + 3)) by lia.
      simp. apply ok3; auto; lia.
  - intros [out1 k1] [Hk1 Ho1]. cbn [fst snd] in *. apply wp_ok. eapply VTab_ext; [exact Ho1|]. intros q Hq. cbn beta. unfold vadd.
    destruct (blk_of r q Hr Hq) as [HI' HI2].
    destruct (Z.eqb_spec (q / 52) I); [subst I; zb|].
    destruct (Z.leb_spec (I * 52) q), (Z.ltb_spec q (I * 52 + bw r I)); cbn [andb]; auto.
    exfalso. apply n. replace q with (I * 52 + (q - I * 52)) by lia. apply div52. lia.
Qed.

Lemma b_PreMultiply_spec b v r c f g : BIs b r c f -> VecIs (VArr v) r g ->
  wp (b_PreMultiply b v) (fun out => VecIs (VArr out) c (fun j => bsum sum4 r (fun k => (f k j * g k)%f))).
Proof.
  intros (bl & -> & Hr & Hc & HT) Hv. apply VTab_VecIs in Hv. destruct Hv as [Hlv Hv]. unfold b_PreMultiply. b52. bsimp.
  replace (len v =? r) with true by lia. cbn [negb]. wpb. apply wp_make; [lia|]. cbv zeta.
  eapply (blocks_accum c r (fun I q => sum4 (bw r I) (fun k => (f (I * 52 + k)%Z q * g (I * 52 + k)%Z)%f))); auto.
  { apply VTab_zeros; lia. }
  2:{ intros out Ho. apply VTab_VecIs. exact Ho. }
  intros J I out h HJ HI Ho. rewrite blockWidth_bw by auto.
  pose proof (bw_bounds r I Hr HI) as HbI. pose proof (bw_bounds c J Hc HJ) as HbJ.
  assert (Er : Z.min (I * 52 + 52) r = I * 52 + bw r I) by (unfold bw; lia).
  assert (Ec : Z.min (J * 52 + 52) c = J * 52 + bw c J) by (unfold bw; lia). rewrite Er, Ec.
  destruct (BTab_BlkTab _ _ _ _ I J HT HI HJ) as (tb & Etb & HB).
  apply (wp_for (fun q0 out => VTab out c (fun q => if (J * 52 <=? q) && (q <? q0)
    then (h q + sum4 (bw r I) (fun k => (f (I * 52 + k)%Z q * g (I * 52 + k)%Z)%f))%f else h q))); try lia.
  - eapply VTab_ext; [exact Ho|]. intros q Hq. cbn beta. zb.
  - intros q0 out1 Hq0 Ho1.
    remember (q0 - J * 52) as y eqn:Ey. assert (q0 = J * 52 + y) by lia. subst q0. clear Ey.
    assert (G1 : forall k l, l = k * bw c J + y -> 0 <= k < bw r I -> mget bl (I * nblk c + J) l = Ok (f (I * 52 + k) (J * 52 + y))).
    { intros k l -> Hk. eapply BTab_get; eauto; lia. }
    assert (G2 : forall k l, l = I * 52 + k -> 0 <= k < bw r I -> zget v l = Ok (g (I * 52 + k))).
    { intros k l -> Hk. rewrite zget_ok by lia. f_equal. apply Hv. lia. }
    replace (@fzero O, y, I * 52) with (@fzero O, 0 * bw c J + y, I * 52 + 0) by (rewrite !Z.add_0_r; reflexivity).
    pose proof (Z.div_mod (bw r I) 4 ltac:(lia)). pose proof (Z.mod_pos_bound (bw r I) 4 ltac:(lia)).
    erewrite (while4 (fun k => (f (I * 52 + k)%Z (J * 52 + y)%Z * g (I * 52 + k)%Z)%f) (bw r I)
      (fun k => k * bw c J + y) (fun k => I * 52 + k)); [|lia|..].
    + cbn [bind]. erewrite (while1 (fun k => (f (I * 52 + k)%Z (J * 52 + y)%Z * g (I * 52 + k)%Z)%f) (bw r I / 4 * 4) (bw r I)
        (fun k => k * bw c J + y) (fun k => I * 52 + k)); [|lia|lia|..].
      * cbn [bind]. rewrite zget_ok by (rewrite (proj1 Ho1); lia). simp. rewrite (proj2 Ho1) by lia.
        edestruct (VTab_set out1) as (out2 & -> & Ho2); [exact Ho1| |]; [|apply wp_ok].
        { lia. }
        eapply VTab_ext; [exact Ho2|]. intros q Hq. cbn beta.
        destruct (Z.eqb_spec q (J * 52 + y)); [subst q; zb; reflexivity|zb].
      * intros k s Hk. cbn beta iota. destruct (Z.ltb_spec (I * 52 + k) (I * 52 + bw r I)), (Z.ltb_spec k (bw r I)); auto; lia.
      * intros k s Hk. cbn beta iota. rewrite (G1 k) by lia. rewrite (G2 k) by lia. simp. apply ok3; auto; lia.
    + intros k s Hk. cbn beta iota. destruct (Z.ltb_spec (I * 52 + k) (I * 52 + bw r I - 3)), (Z.ltb_spec (k + 3) (bw r I)); auto; lia.
    + intros k s Hk Hk2. cbn beta iota. rewrite (G1 k) by lia. rewrite (G2 k) by lia.
      rewrite (G1 (k + 1)) by lia. rewrite (G2 (k + 1)) by lia.
      rewrite (G1 (k + 2)) by lia. rewrite (G2 (k + 2)) by lia. rewrite (G1 (k + 3)) by lia. rewrite (G2 (k + 3)) by lia.
      simp. apply ok3; auto; lia.
  - intros out1 Ho1. eapply VTab_ext; [exact Ho1|]. intros q Hq. cbn beta. unfold vadd.
    destruct (blk_of c q Hc Hq) as [HI' HI2].
    destruct (Z.eqb_spec (q / 52) J); [subst J; zb|].
    destruct (Z.leb_spec (J * 52) q), (Z.ltb_spec q (J * 52 + bw c J)); cbn [andb]; auto.
    exfalso. apply n. replace q with (J * 52 + (q - J * 52)) by lia. apply div52. lia.
Qed.
End BlockMul.

(** Shared lemmas and tactics for loops over two-dimensional slices. *)
From Coq Require Import ZArith List Lia Bool.
From Verif Require Import Base BaseLemmas Scalar Vector VecSpec VectorFacts Matrix MatSpec MatFacts Array2D BlockM Diagonal RealMatrixM Array2DFacts MatrixOps.
Import ListNotations.
Open Scope Z_scope.

Global Instance default_Z : Default Z := 0.

Ltac zb := repeat match goal with
  | |- context [?a =? ?b] => destruct (Z.eqb_spec a b)
  | |- context [?a <? ?b] => destruct (Z.ltb_spec a b)
  | |- context [?a <=? ?b] => destruct (Z.leb_spec a b)
  end; cbn [andb orb negb]; try lia.

Ltac tget := match goal with
  | H : RTab ?d ?r ?c ?f |- context [mget ?d ?i ?j] => rewrite (RTab_get d r c f i j H) by lia; cbn [bind]
  end.
Ltac tput d' H' := match goal with
  | H : RTab ?d ?r ?c ?f |- context [mset ?d ?i ?j ?v] =>
      let E := fresh in destruct (RTab_set d r c f i j v H) as (d' & E & H'); [lia|lia|]; rewrite E; cbn [bind]; clear E
  end.
Ltac vget := match goal with
  | H : VTab ?d ?r ?f |- context [zget ?d ?i] => rewrite (VTab_get d r f i H) by lia; cbn [bind]
  end.
Ltac vput d' H' := match goal with
  | H : VTab ?d ?r ?f |- context [zset ?d ?i ?v] =>
      let E := fresh in destruct (VTab_set d r f i v H) as (d' & E & H'); [lia|]; rewrite E; cbn [bind]; clear E
  end.

Section TabTac.
Context {O : Ops}.

Lemma accum_S {S} (step : Z -> S -> S) n s : 0 <= n -> accum step (Z.to_nat (n + 1)) s = step n (accum step (Z.to_nat n) s).
Proof. intros. replace (Z.to_nat (n + 1)) with (Datatypes.S (Z.to_nat n)) by lia. cbn [accum]. f_equal. lia. Qed.
Lemma accum_ext {S} (f g : Z -> S -> S) n s : (forall k s, 0 <= k < n -> f k s = g k s) -> accum f (Z.to_nat n) s = accum g (Z.to_nat n) s.
Proof.
  intros H. assert (G : forall k, (k <= Z.to_nat n)%nat -> accum f k s = accum g k s).
  { induction k as [|k IH]; intros Hk; auto. cbn [accum]. rewrite IH by lia. apply H. lia. }
  apply G. lia.
Qed.

(** ((x - g 0) - g 1) - ... - g (n-1) *)
Definition fsubs (x : F) (n : Z) (g : Z -> F) : F := accum (fun t s => (s - g t)%f) (Z.to_nat n) x.
Lemma fsubs_0 x g : fsubs x 0 g = x.
Proof. reflexivity. Qed.
Lemma fsubs_S x n g : 0 <= n -> fsubs x (n + 1) g = (fsubs x n g - g n)%f.
Proof. intros. unfold fsubs. rewrite accum_S by auto. auto. Qed.
Lemma fsubs_ext x n g h : (forall t, 0 <= t < n -> g t = h t) -> fsubs x n g = fsubs x n h.
Proof. intros H. apply accum_ext. intros. rewrite H by auto. auto. Qed.

(** ((x - g (hi-1)) - g (hi-2)) - ... - g lo *)
Definition fsubd (x : F) (lo hi : Z) (g : Z -> F) : F := accum (fun t s => (s - g (hi - 1 - t)%Z)%f) (Z.to_nat (hi - lo)) x.
Lemma fsubd_nil x lo hi g : hi <= lo -> fsubd x lo hi g = x.
Proof. intros. unfold fsubd. replace (Z.to_nat (hi - lo)) with 0%nat by lia. auto. Qed.
Lemma fsubd_S x lo hi g : lo < hi -> fsubd x lo hi g = (fsubd x (lo + 1) hi g - g lo)%f.
Proof.
  intros. unfold fsubd. replace (hi - lo) with (hi - (lo + 1) + 1) by lia. rewrite accum_S by lia. do 2 f_equal. lia.
Qed.
Lemma fsubd_ext x lo hi g h : (forall t, lo <= t < hi -> g t = h t) -> fsubd x lo hi g = fsubd x lo hi h.
Proof. intros H. apply accum_ext. intros. rewrite H by lia. auto. Qed.

(** A fold in a pure loop. *)
Lemma for_accum {S} (step : Z -> S -> S) n body s : 0 <= n -> (forall k s, 0 <= k < n -> body k s = Ok (step k s)) ->
  for_ 0 n body s = Ok (accum step (Z.to_nat n) s).
Proof.
  intros Hn Hb. enough (W : wp (for_ 0 n body s) (fun r => r = accum step (Z.to_nat n) s)) by (destruct W as (r & E & ->); auto).
  apply (wp_for (fun k r => r = accum step (Z.to_nat k) s)); auto.
  intros i r Hi ->. rewrite Hb by lia. apply wp_ok. rewrite accum_S by lia. auto.
Qed.

(** Writing entries of a matrix through SetEntry. *)
Lemma wp_setentry m r c f i j x (Q : RealMatrix -> Prop) : general m -> MatIs m r c f -> 0 <= i < r -> 0 <= j < c ->
  (forall m', general m' -> MatIs m' r c (tset f i j x) -> Q m') -> wp (m_SetEntry m i j x) Q.
Proof.
  intros Hg H Hi Hj HQ. destruct (m_SetEntry_ok m r c f i j x Hg H Hi Hj) as (m' & -> & Hg' & H'). apply wp_ok. auto.
Qed.
(** Filling columns [lo..hi) of row [i]. *)
Lemma wp_setentry_row m r c f i lo hi (g : Z -> F) body (Q : RealMatrix -> Prop) :
  general m -> MatIs m r c f -> 0 <= i < r -> 0 <= lo -> lo <= hi <= c ->
  (forall j m', lo <= j < hi -> body j m' = m_SetEntry m' i j (g j)) ->
  (forall m', general m' -> MatIs m' r c (fun p q => if (p =? i) && (lo <=? q) && (q <? hi) then g q else f p q) -> Q m') ->
  wp (for_ lo hi body m) Q.
Proof.
  intros Hg H Hi Hlo Hhi Hb HQ.
  apply (wp_for (fun k m' => general m' /\ MatIs m' r c (fun p q => if (p =? i) && (lo <=? q) && (q <? k) then g q else f p q))); try lia.
  - split; auto. eapply MatIs_ext; [exact H|]. intros. cbn beta. zb; auto.
  - intros j m' Hj [Hg' H']. rewrite Hb by auto. eapply wp_setentry; eauto; try lia. intros m2 Hg2 H2. split; auto.
    eapply MatIs_ext; [exact H2|]. intros p q Hp Hq. cbn beta. unfold tset. zb; subst; auto.
  - intros m' [Hg' H']. apply HQ; auto.
Qed.
End TabTac.

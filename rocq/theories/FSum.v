(** Left-to-right sums over ranges, and loops that rewrite one row, one column
    or a vector, for arbitrary scalar operations. *)
From Coq Require Import ZArith List Lia Bool.
From Verif Require Import Base BaseLemmas Scalar Vector VecSpec VectorFacts Matrix MatSpec MatFacts Array2D BlockM Diagonal RealMatrixM Array2DFacts MatrixOps TabTac CholFacts.
Import ListNotations.
Open Scope Z_scope.

Section FSum.
Context {O : Ops}.

(** ((x + g lo) + g (lo+1)) + ... + g (hi-1) *)
Definition fadds (x : F) (lo hi : Z) (g : Z -> F) : F := accum (fun t s => (s + g (lo + t)%Z)%f) (Z.to_nat (hi - lo)) x.
(** ((x - g lo) - g (lo+1)) - ... - g (hi-1) *)
Definition fsubl (x : F) (lo hi : Z) (g : Z -> F) : F := accum (fun t s => (s - g (lo + t)%Z)%f) (Z.to_nat (hi - lo)) x.

Lemma fadds_nil x lo hi g : hi <= lo -> fadds x lo hi g = x.
Proof. intros. unfold fadds. replace (Z.to_nat (hi - lo)) with 0%nat by lia. auto. Qed.
Lemma fadds_S x lo hi g : lo <= hi -> fadds x lo (hi + 1) g = (fadds x lo hi g + g hi)%f.
Proof. intros. unfold fadds. replace (hi + 1 - lo) with (hi - lo + 1) by lia. rewrite accum_S by lia. do 2 f_equal. lia. Qed.
Lemma fadds_ext x lo hi g h : (forall t, lo <= t < hi -> g t = h t) -> fadds x lo hi g = fadds x lo hi h.
Proof. intros H. apply TabTac.accum_ext. intros. rewrite H by lia. auto. Qed.
Lemma fsubl_nil x lo hi g : hi <= lo -> fsubl x lo hi g = x.
Proof. intros. unfold fsubl. replace (Z.to_nat (hi - lo)) with 0%nat by lia. auto. Qed.
Lemma fsubl_S x lo hi g : lo <= hi -> fsubl x lo (hi + 1) g = (fsubl x lo hi g - g hi)%f.
Proof. intros. unfold fsubl. replace (hi + 1 - lo) with (hi - lo + 1) by lia. rewrite accum_S by lia. do 2 f_equal. lia. Qed.
Lemma fsubl_ext x lo hi g h : (forall t, lo <= t < hi -> g t = h t) -> fsubl x lo hi g = fsubl x lo hi h.
Proof. intros H. apply TabTac.accum_ext. intros. rewrite H by lia. auto. Qed.

Lemma for_adds (g : Z -> F) lo hi body x : lo <= hi -> (forall k s, lo <= k < hi -> body k s = Ok (s + g k)%f) ->
  for_ lo hi body x = Ok (fadds x lo hi g).
Proof.
  intros Hn Hb. enough (W : wp (for_ lo hi body x) (fun r => r = fadds x lo hi g)) by (destruct W as (r & E & ->); auto).
  apply (wp_for (fun k r => r = fadds x lo k g)); auto.
  - rewrite fadds_nil by lia. auto.
  - intros i r Hi ->. rewrite Hb by lia. apply wp_ok. rewrite fadds_S by lia. auto.
Qed.
Lemma for_subl (g : Z -> F) lo hi body x : lo <= hi -> (forall k s, lo <= k < hi -> body k s = Ok (s - g k)%f) ->
  for_ lo hi body x = Ok (fsubl x lo hi g).
Proof.
  intros Hn Hb. enough (W : wp (for_ lo hi body x) (fun r => r = fsubl x lo hi g)) by (destruct W as (r & E & ->); auto).
  apply (wp_for (fun k r => r = fsubl x lo k g)); auto.
  - rewrite fsubl_nil by lia. auto.
  - intros i r Hi ->. rewrite Hb by lia. apply wp_ok. rewrite fsubl_S by lia. auto.
Qed.

(** [for_ lo hi] replacing entries lo..hi-1 of row i by [g]. *)
Definition rowpart (M : Z -> Z -> F) (i lo hi : Z) (g : Z -> F) (p q : Z) : F := if (p =? i) && (lo <=? q) && (q <? hi) then g q else M p q.
Definition colpart (M : Z -> Z -> F) (j lo hi : Z) (g : Z -> F) (p q : Z) : F := if (q =? j) && (lo <=? p) && (p <? hi) then g p else M p q.
Definition vecpart (x : Z -> F) (lo hi : Z) (g : Z -> F) (p : Z) : F := if (lo <=? p) && (p <? hi) then g p else x p.

Lemma wp_rowloop (g : Z -> F) d r c M i lo hi body (Q : mat -> Prop) : RTab d r c M -> 0 <= i < r -> 0 <= lo <= hi -> hi <= c ->
  (forall k d', lo <= k < hi -> RTab d' r c (rowpart M i lo k g) -> body k d' = mset d' i k (g k)) ->
  (forall d', RTab d' r c (rowpart M i lo hi g) -> Q d') -> wp (for_ lo hi body d) Q.
Proof.
  intros H Hi Hlo Hhi Hb HQ. apply (wp_for (fun k d => RTab d r c (rowpart M i lo k g))); [lia| | |auto].
  - eapply RTab_ext; [exact H|]. intros. unfold rowpart. cbn beta. zbq; auto.
  - intros k d1 Hk H1. rewrite (Hb k d1 Hk H1). destruct (RTab_set d1 r c _ i k (g k) H1) as (d2 & E & H2); [lia|lia|]. rewrite E. apply wp_ok.
    eapply RTab_ext; [exact H2|]. intros p q Hp Hq. cbn beta. unfold tset, rowpart. zbq; subst; auto.
Qed.
Lemma wp_colloop (g : Z -> F) d r c M j lo hi body (Q : mat -> Prop) : RTab d r c M -> 0 <= j < c -> 0 <= lo <= hi -> hi <= r ->
  (forall k d', lo <= k < hi -> RTab d' r c (colpart M j lo k g) -> body k d' = mset d' k j (g k)) ->
  (forall d', RTab d' r c (colpart M j lo hi g) -> Q d') -> wp (for_ lo hi body d) Q.
Proof.
  intros H Hi Hlo Hhi Hb HQ. apply (wp_for (fun k d => RTab d r c (colpart M j lo k g))); [lia| | |auto].
  - eapply RTab_ext; [exact H|]. intros. unfold colpart. cbn beta. zbq; auto.
  - intros k d1 Hk H1. rewrite (Hb k d1 Hk H1). destruct (RTab_set d1 r c _ k j (g k) H1) as (d2 & E & H2); [lia|lia|]. rewrite E. apply wp_ok.
    eapply RTab_ext; [exact H2|]. intros p q Hp Hq. cbn beta. unfold tset, colpart. zbq; subst; auto.
Qed.
Lemma wp_vecloop (g : Z -> F) l n x lo hi body (Q : vec -> Prop) : VTab l n x -> 0 <= lo <= hi -> hi <= n ->
  (forall k l', lo <= k < hi -> VTab l' n (vecpart x lo k g) -> body k l' = zset l' k (g k)) ->
  (forall l', VTab l' n (vecpart x lo hi g) -> Q l') -> wp (for_ lo hi body l) Q.
Proof.
  intros H Hlo Hhi Hb HQ. apply (wp_for (fun k l => VTab l n (vecpart x lo k g))); [lia| | |auto].
  - eapply VTab_ext; [exact H|]. intros. unfold vecpart. cbn beta. zbq; auto.
  - intros k l1 Hk H1. rewrite (Hb k l1 Hk H1). destruct (VTab_set l1 n _ k (g k) H1) as (l2 & E & H2); [lia|]. rewrite E. apply wp_ok.
    eapply VTab_ext; [exact H2|]. intros p Hp. cbn beta. unfold vecpart. zbq; subst; auto.
Qed.
(** A row as a vector. *)
Lemma RTab_vrow d r c M i : RTab d r c M -> 0 <= i < r -> exists l, zget d i = Ok l /\ VTab l c (M i).
Proof. intros H Hi. destruct (RTab_row d r c M i H Hi) as (l & E & Hl & Hr). exists l. split; auto. split; auto. Qed.
Lemma RTab_len d r c M : RTab d r c M -> len d = r.
Proof. intros H. apply (proj1 (proj1 H)). Qed.
Lemma VTab_len l n x : VTab l n x -> len l = n.
Proof. intros H. apply H. Qed.
Lemma make_VTab n : 0 <= n -> exists l, make fzero n = Ok l /\ VTab l n (fun _ => fzero).
Proof. intros Hn. rewrite make_ok by auto. eexists. split; [reflexivity|]. split; [apply len_repeat; auto|]. intros. apply nthZ_repeat. auto. Qed.
End FSum.
Ltac vrow l H := match goal with
  | K : RTab ?d ?r ?c ?f |- context [zget ?d ?i] =>
      let E := fresh in destruct (RTab_vrow d r c f i K) as (l & E & H); [lia|]; rewrite E; cbn [bind]; clear E
  end.

(** The tridiagonal transform in float64: all steps. *)
From Coq Require Import ZArith List Reals Lia Lra Psatz Bool Floats.SpecFloat QArith FunctionalExtensionality.
From Flocq Require Import Core BinarySingleNaN.
From Verif Require Import Base BaseLemmas Scalar Float64 VecSpec RealOps RSum House RealVec TabTac FSum CholFacts QRSpec QRFacts QRReal RndSpec FloatR RndSum RndTri RndHouse RndRefl RndApply RndQRSpec RndQR SVDSpecR RndFrob TridiagFacts BidiagFacts RndBidiag RndTd RndTd2 RndTd3.
Open Scope Z_scope.

Section Iter.
Context {O : Ops}.
Variables (m : Z) (A : Z -> Z -> F).
Definition tM (t : Z) : Z -> Z -> F := fst (fst (td_iter m A t)).
Definition tD (t : Z) : Z -> F := snd (fst (td_iter m A t)).
Definition tS (t : Z) : Z -> F := snd (td_iter m A t).
Lemma td_iter_S t : 0 <= t -> td_iter m A (t + 1) = td_stp m t (td_iter m A t).
Proof. intros H. unfold td_iter. replace (Z.to_nat (t + 1)) with (S (Z.to_nat t)) by lia. cbn [accum]. rewrite Z2Nat.id by lia. auto. Qed.
Lemma tM_0 : tM 0 = A. Proof. reflexivity. Qed.
Lemma tM_S t : 0 <= t -> tM (t + 1) = td_M m (tM t) t.
Proof. intros H. unfold tM. rewrite td_iter_S by auto. destruct (td_iter m A t) as [[M D] Sc]. reflexivity. Qed.
Lemma tD_eq t i : 0 <= t -> 0 <= i < t -> tD t i = tM i i i.
Proof.
  intros Ht. revert t Ht i. refine (natlike_ind _ _ _); [intros; lia|]. intros t Ht IH i Hi. change (Z.succ t) with (t + 1) in *.
  assert (E : tD (t + 1) i = if i =? t then tM t t t else tD t i). { unfold tD, tM. rewrite td_iter_S by auto. destruct (td_iter m A t) as [[M D] Sc]. reflexivity. }
  rewrite E. destruct (Z.eqb_spec i t) as [->|]; auto. apply IH. lia.
Qed.
Lemma tS_eq t i : 0 <= t -> 0 <= i < t -> tS t i = td_a m (tM i) i.
Proof.
  intros Ht. revert t Ht i. refine (natlike_ind _ _ _); [intros; lia|]. intros t Ht IH i Hi. change (Z.succ t) with (t + 1) in *.
  assert (E : tS (t + 1) i = if i =? t then td_a m (tM t) t else tS t i). { unfold tS, tM. rewrite td_iter_S by auto. destruct (td_iter m A t) as [[M D] Sc]. reflexivity. }
  rewrite E. destruct (Z.eqb_spec i t) as [->|]; auto. apply IH. lia.
Qed.
Lemma tM_row t q r : 0 <= t -> 0 <= q < t -> tM t q r = td_v m (tM q) q r.
Proof.
  intros Ht. revert t Ht. refine (natlike_ind _ _ _); [intros; lia|]. intros t Ht IH Hq. change (Z.succ t) with (t + 1) in *. rewrite tM_S by auto. unfold td_M at 1. destruct (Z.eqb_spec q t) as [->|Hn]; auto.
  rewrite (proj2 (Z.ltb_ge t q)) by lia. cbn [andb]. rewrite IH by lia. destruct (feq _ _); auto.
Qed.
End Iter.

Section All.
Variables (pf m : Z).
Notation SO := (SFOps pf).
Hypothesis Hm : 1 <= m.
Hypothesis Hkap : (kap m <= / 1024)%R.
Variable A : Z -> Z -> sf.
Hypothesis VA : forall i j, 0 <= i <= j -> j < m -> sf_valid (A i j) = true.
Notation M t := (tM (O := SO) m A t%Z).
Notation a t := (td_a (O := SO) m (tM (O := SO) m A t%Z) t%Z).
Hypothesis Fa : forall t, 0 <= t < m - 1 -> isfin (a t) = true.
Hypothesis Fd : forall t, 0 <= t < m -> isfin (M t t t) = true.
Hypothesis Ra : forall t, 0 <= t < m - 1 -> fR (a t) <> 0%R -> (b2 (-450) <= Rabs (fR (a t)) <= b2 500)%R.

Lemma a_valid t : 0 <= t < m - 1 -> (forall i j, t <= i <= j -> j < m -> sf_valid (M t i j) = true) -> forall i j, t <= i <= j -> j < m -> sf_valid (M (t + 1) i j) = true.
Proof. intros Ht V i j Hi Hj. rewrite tM_S by lia. apply (t_Mv pf m t Ht (M t) V); auto. Qed.
Lemma aM_valid t : 0 <= t -> t <= m - 1 -> forall i j, t <= i <= j -> j < m -> sf_valid (M t i j) = true.
Proof.
  intros Ht. revert t Ht. refine (natlike_ind _ _ _).
  - intros _ i j Hi Hj. rewrite tM_0. apply VA; lia.
  - intros t Ht IH Hm' i j Hi Hj. change (Z.succ t) with (t + 1) in *. apply a_valid; try lia. intros. apply IH; lia.
Qed.
Lemma aM_row t j : 0 <= t < m -> t <= j < m -> isfin (M t t j) = true.
Proof.
  intros Ht Hj. destruct (Z.eq_dec j t) as [->|Hn]; [apply Fd; lia|].
  apply (col_fin pf m (M t t) (t + 1)); [|apply Fa; lia|lia]. intros r Hr. apply aM_valid; lia.
Qed.
Lemma aM_fin d : 0 <= d -> forall t i j, 0 <= t <= i -> i - t = d -> i <= j -> j < m -> isfin (M t i j) = true.
Proof.
  revert d. refine (natlike_ind _ _ _).
  - intros t i j Ht Hd Hij Hj. replace i with t by lia. apply aM_row; lia.
  - intros d Hd IH t i j Ht Hd' Hij Hj. specialize (IH (t + 1) i j ltac:(lia) ltac:(lia) Hij Hj). rewrite tM_S in IH by lia. apply (t_Mback pf m t (M t) i j) in IH; auto. lia.
Qed.
Lemma aM_num t i j : 0 <= t -> t <= m - 1 -> t <= i <= j -> j < m -> num (M t i j).
Proof. intros Ht Hm' Hi Hj. split; [apply aM_valid; lia|]. apply (aM_fin (i - t)); lia. Qed.
(** The whole symmetric matrix after [t] steps. *)
Definition yy (t i j : Z) : R := let lo := Z.min i j in let hi := Z.max i j in
  if lo <? t then (if hi =? lo then fR (M lo lo lo) else if hi =? lo + 1 then fR (a lo) else 0%R) else fR (M t lo hi).
Lemma yy_sym t i j : yy t i j = yy t j i. Proof. unfold yy. rewrite Z.min_comm, Z.max_comm. auto. Qed.
Lemma yy_up t i j : i <= j -> yy t i j = if i <? t then (if j =? i then fR (M i i i) else if j =? i + 1 then fR (a i) else 0%R) else fR (M t i j).
Proof. intros H. unfold yy. rewrite Z.min_l, Z.max_r by lia. auto. Qed.
Definition Pt (t : Z) : Z -> Z -> R := Pa pf m (t + 1) (M t t).
Lemma yy_step t : 0 <= t < m - 1 -> (frob m m (fun i j => yy (t + 1) i j - mmul m (mmul m (Pt t) (yy t)) (Pt t) i j) <= 60 * kap m * frob m m (yy t) + 2 * omg m)%R.
Proof.
  intros Ht. unfold Pt. apply (t_step pf m t Hm Hkap Ht (M t) (yy t) (yy (t + 1))).
  - intros. apply aM_valid; lia.
  - apply Fa; auto.
  - apply Ra; auto.
  - intros i j Hi Hj. rewrite <- tM_S by lia. apply (aM_fin (i - (t + 1))); lia.
  - apply yy_sym.
  - intros i j Hi Hj. rewrite yy_up by lia. rewrite (proj2 (Z.ltb_ge _ _)) by lia. auto.
  - apply yy_sym.
  - intros i j Hi Hj. rewrite yy_up by lia. rewrite (proj2 (Z.ltb_ge _ _)) by lia. rewrite tM_S by lia. auto.
  - intros i j Hi Hj. rewrite yy_up by lia. rewrite (proj2 (Z.ltb_lt _ _)), !(proj2 (Z.eqb_neq _ _)) by lia. auto.
  - intros i j Hi Hj. rewrite yy_up by lia. rewrite (proj2 (Z.ltb_lt _ _)), !(proj2 (Z.eqb_neq _ _)) by lia. auto.
  - intros i j Hi Hj. rewrite !yy_up by lia. rewrite (proj2 (Z.ltb_lt i (t + 1))) by lia. destruct (Z.ltb_spec i t); auto. assert (i = t) by lia. assert (j = t) by lia. subst. rewrite Z.eqb_refl. auto.
  - intros j Hj. rewrite yy_up by lia. rewrite (proj2 (Z.ltb_lt t (t + 1))), (proj2 (Z.eqb_neq j t)) by lia. auto.
Qed.
Lemma yy_near t : 0 <= t -> t <= m - 1 -> near (60 * kap m) (2 * omg m) m m (yy 0) t (Qp m Pt t) (Qp m Pt t) (yy t).
Proof.
  assert (Eta : (0 <= 60 * kap m)%R) by (pose proof (kap_u m Hm); pose proof ulp2_pos; lra). assert (Om : (0 <= 2 * omg m)%R) by (pose proof (omg_pos m Hm); lra).
  intros Ht. revert t Ht. refine (natlike_ind _ _ _).
  - intros _. unfold Qp. cbn. apply near_0.
  - intros t Ht IH Hm'. change (Z.succ t) with (t + 1) in *. rewrite Qp_S by auto. apply near_both with (Y := yy t); auto; try apply IH; try lia.
    + apply Pa_orth.
    + apply Pa_sym.
    + apply yy_step. lia.
Qed.
End All.

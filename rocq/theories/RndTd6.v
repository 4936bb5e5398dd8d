(** The tridiagonal transform in float64: the theorem on the Go types. *)
From Coq Require Import ZArith List Reals Lia Lra Psatz Bool Floats.SpecFloat.
From Flocq Require Import Core BinarySingleNaN.
From Verif Require Import Base BaseLemmas Scalar Float64 Vector VecSpec Matrix MatSpec Array2D BlockM Diagonal RealMatrixM MatFacts RealOps RSum House RealVec TabTac FSum CholFacts QRSpec QRFacts QRReal RndSpec FloatR RndSum RndTri RndHouse RndRefl RndApply RndQRSpec RndQR SVDSpecR RndFrob HessSpec Tridiag TridiagFacts BidiagFacts RndBidiag RndBidiag3 RndQR2 RndHess5 RndTd4 RndTd5 RndTdSpec.
Open Scope Z_scope.

Section Tab.
Variables (pf n : Z).
Notation SO := (SFOps pf).
Hypothesis Hn : 1 <= n.
Hypothesis Hk : qr_size n.
Variable A : Z -> Z -> sf.
Hypothesis NA : nums2 n n A.
Notation M t := (tM (O := SO) n A t%Z).
Notation D t := (tD (O := SO) n A t%Z).
Notation Sc t := (tS (O := SO) n A t%Z).
Definition tdD (i : Z) : sf := td_upd (O := SO) (D (n - 1)) (n - 1) (M (n - 1) (n - 1)%Z (n - 1)%Z) i.
Lemma td_tab : let T := td_tabT (O := SO) tdD (Sc (n - 1)) in let Qf := fun i j => td_tabQT (O := SO) n (M (n - 1)) (Sc (n - 1)) j i in
  nums2 n n T -> sec_range n T -> ((10 * IZR (n - 1) * (IZR (n + 4) * ulp2) <= / 16)%R -> (forall k, 0 <= k < n - 1 -> fR (T k (k + 1)) <> 0%R) -> nums2 n n Qf) /\ exists Q, td_backward n A T Q /\ (nums2 n n Qf -> q_close n (n - 1) Qf Q /\ q_orthonormal n (n - 1) Qf /\ td_productQ n A Qf T).
Proof.
  cbn zeta. intros NT RT. assert (VA : forall i j, 0 <= i <= j -> j < n -> sf_valid (A i j) = true) by (intros; apply NA; lia).
  assert (ES : forall t, 0 <= t < n - 1 -> Sc (n - 1) t = td_a (O := SO) n (M t) t) by (intros; apply tS_eq; lia).
  assert (ED : forall t, 0 <= t < n -> tdD t = M t t t).
  { intros t Ht. unfold tdD, td_upd. destruct (Z.eqb_spec t (n - 1)) as [->|N1]; auto. apply (tD_eq (O := SO)); lia. }
  assert (Td : forall t, td_tabT (O := SO) tdD (Sc (n - 1)) t t = tdD t) by (intros; unfold td_tabT; rewrite Z.eqb_refl; auto).
  assert (Ts : forall t, td_tabT (O := SO) tdD (Sc (n - 1)) t (t + 1) = Sc (n - 1) t) by (intros; unfold td_tabT; rewrite !(proj2 (Z.eqb_neq _ _)), Z.eqb_refl by lia; auto).
  assert (Fa : forall t, 0 <= t < n - 1 -> isfin (td_a (O := SO) n (M t) t) = true) by (intros t Ht; rewrite <- ES, <- Ts by auto; apply NT; lia).
  assert (Fd : forall t, 0 <= t < n -> isfin (M t t t) = true) by (intros t Ht; rewrite <- ED, <- Td by auto; apply NT; lia).
  assert (Ra : forall t, 0 <= t < n - 1 -> fR (td_a (O := SO) n (M t) t) <> 0%R -> (b2 (-450) <= Rabs (fR (td_a (O := SO) n (M t) t)) <= b2 500)%R).
  { intros t Ht. rewrite <- ES, <- Ts by auto. intros NZ. destruct (RT t Ht) as [E|E]; [contradiction|]. rewrite !pz in E. exact E. }
  assert (H1 : forall q r, 0 <= q < n - 1 -> q + 1 <= r < n -> M (n - 1) q r = hh_v (O := SO) n (M q q) (q + 1) r) by (intros q r Hq Hr; apply (tM_row (O := SO) n A); lia).
  assert (H2 : forall q r, 0 <= q < n - 1 -> q + 1 <= r < n -> sf_valid (M q q r) = true) by (intros q r Hq Hr; refine (aM_valid pf n A VA Fa q _ _ q r _ _); lia).
  assert (H3 : forall q, 0 <= q < n - 1 -> isfin (Sc (n - 1) q) = true) by (intros q Hq; rewrite ES by auto; auto).
  assert (H4 : forall q, 0 <= q < n - 1 -> fR (Sc (n - 1) q) <> 0%R -> (b2 (-450) <= Rabs (fR (Sc (n - 1) q)) <= b2 511)%R).
  { intros q Hq. rewrite ES by auto. intros NZ. pose proof (Ra q Hq NZ). pose proof (bpow_le radix2 500 511 ltac:(lia)). lra. }
  split; [intros Hsz NZ i j Hi Hj; apply (U_finite pf n Hn Hk (M (n - 1)) (Sc (n - 1)) (fun q => M q q) H1 ES H2 H3 H4); auto; intros q Hq; rewrite <- Ts; apply NZ; auto|].
  exists (Qp n (Pt pf n A) (n - 1)).
  assert (B : td_backward n A (td_tabT (O := SO) tdD (Sc (n - 1))) (Qp n (Pt pf n A) (n - 1))).
  { destruct (yy_near pf n Hn Hk A VA Fa Fd Ra (n - 1) ltac:(lia) ltac:(lia)) as (K1 & _ & K3). split; auto. unfold td_rel, td_abs. rewrite pz.
    change (td_grow n) with (gr (60 * kap n) (n - 1)). change (IZR n * b2 (-537))%R with (omg n).
    assert (E0 : forall i j, 0 <= i < n -> 0 <= j < n -> mirror A i j = yy pf n A 0 i j) by (intros i j Hi Hj; unfold yy, mirror; rewrite (proj2 (Z.ltb_ge _ 0)) by lia; rewrite tM_0; reflexivity).
    rewrite (frob_eq n n (mirror A) (yy pf n A 0)) by auto. eapply Rle_trans; [|exact K3]. right. apply frob_eq. intros i j Hi Hj. rewrite mul3, E0 by auto. f_equal. apply Rs_ext. intros s Hs. apply Rs_ext. intros t Ht.
    f_equal. f_equal. assert (G : forall s t, 0 <= s <= t -> t < n -> fR (td_tabT (O := SO) tdD (Sc (n - 1)) s t) = yy pf n A (n - 1) s t /\ td_tabT (O := SO) tdD (Sc (n - 1)) t s = td_tabT (O := SO) tdD (Sc (n - 1)) s t).
    { clear s t Hs Ht. intros s t Hs Ht. split.
      - rewrite yy_up by lia. destruct (Z.eq_dec t s) as [->|N1]; [rewrite Td, ED, Z.eqb_refl by lia; destruct (Z.ltb_spec s (n - 1)); auto; replace s with (n - 1) by lia; auto|].
        rewrite (proj2 (Z.ltb_lt s (n - 1))), (proj2 (Z.eqb_neq t s)) by lia. destruct (Z.eqb_spec t (s + 1)) as [->|N2]; [rewrite Ts, ES by lia; auto|].
        unfold td_tabT. rewrite !(proj2 (Z.eqb_neq _ _)) by lia. reflexivity.
      - unfold td_tabT. zbq; subst; auto; lia. }
    destruct (Z_le_gt_dec s t); [apply G; lia|]. rewrite yy_sym. rewrite <- (proj1 (G t s ltac:(lia) ltac:(lia))). f_equal. apply G; lia. }
  split; [exact B|]. intros NQ. set (Qf := fun i j => td_tabQT (O := SO) n (M (n - 1)) (Sc (n - 1)) j i) in *.
  assert (C : q_close n (n - 1) Qf (Qp n (Pt pf n A) (n - 1))).
  { intros j Hj. eapply Rle_trans; [|apply (q_bound n (n - 1) (n - 1)); lia]. unfold Qf.
    apply (uu_rows pf n Hn Hk (M (n - 1)) (Sc (n - 1)) (fun q => M q q) H1 ES H2 H3 H4); auto. intros i k Hi Hk'. apply NQ; auto. }
  split; [exact C|]. split; [apply (close_orthonormal n _ _ (Qp n (Pt pf n A) (n - 1))); auto; try apply B; lia|]. destruct B as (B1 & B2).
  apply (prod_close n (mirror A) (fun i j => fR (td_tabT (O := SO) tdD (Sc (n - 1)) i j)) _ (Qp n (Pt pf n A) (n - 1))); auto.
  - apply Rmult_le_pos; [apply IZR_le; lia|apply qr_nn; lia].
  - apply (frob_close n (n - 1)); auto; [lia|apply qr_nn; lia].
Qed.
Lemma td_shape : tri_shape n (td_tabT (O := SO) tdD (Sc (n - 1))).
Proof. split; intros i j Hi Hj; [|intros Hij]; unfold td_tabT; zbq; subst; auto; lia. Qed.
End Tab.

Lemma td_sf_backward : forall c (x : @RealMatrix (SFOps c)) n (A : Z -> Z -> sf) d, library x -> MatIs x n n A -> 1 <= n -> qr_size n -> nums2 n n A -> td_of x d ->
  exists Tm Qm Qt (T Qf : Z -> Z -> sf) d1 d2 d3, td_T d = Ok (Tm, d1) /\ td_Q d = Ok (Qm, d2) /\ td_QT d = Ok (Qt, d3) /\
    MatIs Tm n n T /\ MatIs Qm n n Qf /\ MatIs Qt n n (fun i j => Qf j i) /\ tri_shape n T /\
    (nums2 n n T -> sec_range n T -> ((10 * IZR (n - 1) * (IZR (n + 4) * ulp2) <= / 16)%R -> (forall k, 0 <= k < n - 1 -> fR (T k (k + 1)) <> 0%R) -> nums2 n n Qf) /\ exists Q, td_backward n A T Q /\
       (nums2 n n Qf -> q_close n (n - 1) Qf Q /\ q_orthonormal n (n - 1) Qf /\ td_productQ n A Qf T)).
Proof.
  intros c x n A d Hl Hx Hn Hk NA Hd. pose proof (td_state x n A d Hl Hx Hn Hd) as K. pose proof (td_tab c n Hn Hk A NA) as I. cbn zeta in I. pose proof (td_shape c n A) as J.
  assert (E : td_fin (O := SFOps c) n A = (tM (O := SFOps c) n A (n - 1), tdD c n A, tS (O := SFOps c) n A (n - 1))).
  { unfold td_fin, tdD, tM, tD, tS. destruct (td_iter (O := SFOps c) n A (n - 1)) as [[M D] S]. reflexivity. }
  rewrite E in K.
  destruct (td_T_ok _ _ _ _ _ Hn K) as ([a1 d1] & E1 & _ & H1 & _). destruct (td_Q_ok _ _ _ _ _ Hn K) as ([a2 d2] & E2 & _ & H2 & _). destruct (td_QT_ok _ _ _ _ _ Hn K) as ([a3 d3] & E3 & _ & H3 & _).
  cbn [fst snd] in *. exists a1, a2, a3. eexists. eexists. exists d1, d2, d3. split; [exact E1|]. split; [exact E2|]. split; [exact E3|]. split; [exact H1|]. split; [exact H2|]. split; [exact H3|]. split; [exact J|]. exact I.
Qed.

(** A real matrix whose singular value factorisation is not exact: an entry of
    2^-52 beside ones is dropped. *)
From Coq Require Import Reals ZArith QArith List Lia Lra Psatz Bool.
From Verif Require Import Base BaseLemmas Scalar Vector VecSpec VectorFacts Matrix MatSpec MatFacts TabTac FSum RealOps RSum Tri House QR QRSpec QRFacts QRReal QRReal2 CholFacts HessReal Frob EigenFacts SVD SVDSpec SVDSpecR SVDFacts SVDFacts2 SVDFacts3 SVDFacts4 SVDReal SVDReal5 SVDReal6 SVDProps SVDPropsR SVDConv3 ExampleReal.
Import ListNotations.
Open Scope Z_scope.
#[local] Existing Instance ROps.

Definition nd : R := (/ 2 ^ 52)%R.
Definition nd_x : @RealMatrix ROps := rmat [[1; nd]; [0; 1]]%R.
Definition nA : Z -> Z -> R := rent [[1; nd]; [0; 1]]%R.
Lemma nd_pos : (0 < nd)%R.
Proof. unfold nd. apply Rinv_0_lt_compat, pow_lt. lra. Qed.
Lemma nd_eps : (2 * epsR = 2 * nd)%R.
Proof. rewrite epsR_val. unfold nd. replace (2 ^ 52)%R with (2 * 2 ^ 51)%R by (rewrite tech_pow_Rmult; auto). field. Qed.
Lemma nd_x_is : MatIs nd_x 2 2 nA.
Proof. apply rmat2_is. Qed.
Lemma nA_hyp : fhyps (O := ROps) 0 2 (fun r => nA r 0) = 1%R.
Proof. rewrite fhyps_R by lia. rewrite Rs_2. unfold nA. rents. replace (1 * 1 + 0 * 0)%R with 1%R by ring. apply sqrt_1. Qed.
Lemma nz1 : fne (O := ROps) 1%R (@fzero ROps) = true.
Proof. unfold fne. cbn [feq ROps fzero]. destruct (Reqb 1 0) eqn:E; auto. apply Reqb_true in E. lra. Qed.
Lemma nA_sg : sg (O := ROps) 2 (fun r => nA r 0) 0 = 1%R.
Proof. unfold sg. rewrite nA_hyp, nz1. unfold nA. rents. change (@flt ROps) with Rltb. change (@fzero ROps) with 0%R. destruct (Rltb 1 0) eqn:E; auto. apply Rltb_true in E. lra. Qed.
Lemma nA_A1 i j : 0 <= i < 2 -> 0 <= j < 2 -> sc_M (O := ROps) 2 0 nA i j = if (i =? 0) && (j =? 0) then 2%R else nA i j.
Proof.
  intros Hi Hj. unfold sc_M, hv. rewrite nA_hyp, nz1, nA_sg. assert (i = 0 \/ i = 1) as [-> | ->] by lia; assert (j = 0 \/ j = 1) as [-> | ->] by lia; cbn [Z.eqb Z.leb Z.compare andb]; unfold nA; rents; auto; cbn [fadd fdiv fone ROps]; lra.
Qed.
Lemma nA_step : let x := sr_fin (O := ROps) 2 2 nA in sr_S x 0 = (-1)%R /\ sr_A x 0 1 = (- nd)%R /\ sr_A x 1 1 = 1%R.
Proof.
  unfold sr_fin, sr_iter, s_nct, s_nrt. change (Z.min (2 - 1) 2) with 1. change (Z.to_nat 1) with 1%nat. change (Z.max 0 (2 - 2)) with 0. unfold accum. change (Z.of_nat 0) with 0.
  unfold sr_step. cbn [sr_A sr_S sr_e sr_U sr_V]. change (0 <? 1) with true. change (0 <? 0) with false. cbv iota. cbn [sr_A sr_S]. unfold vset. rewrite !Z.eqb_refl. rewrite nA_sg. change (@fneg ROps 1%R) with (-(1))%R.
  assert (Ef : fne (O := ROps) (-(1))%R (@fzero ROps) = true). { unfold fne. cbn [feq ROps fzero]. destruct (Reqb (-(1)) 0) eqn:E; auto. apply Reqb_true in E. lra. }
  rewrite Ef. unfold ca_M. cbn [andb Z.ltb Z.leb Z.compare]. unfold hap. rewrite !fadds_R by lia. rewrite !Rs_2. rewrite !nA_A1 by lia. cbn [Z.eqb andb]. unfold nA. rents. cbn [fadd fmul fdiv fneg fzero ROps]. split; [lra|]. split; field.
Qed.
Lemma nA_sv0 : let y := sv0 (O := ROps) 2 2 nA in t_S y 0 = (-1)%R /\ t_S y 1 = 1%R /\ t_E y 0 = (- nd)%R /\ t_E y 1 = 0%R /\ t_p y = 2.
Proof.
  destruct nA_step as (H1 & H2 & H3). unfold sv0. cbn [t_S t_E t_p]. unfold bd_S, bd_E. set (x := sr_fin (O := ROps) 2 2 nA) in *. unfold s_nct, s_nrt. cbn [Z.min Z.max Z.sub Z.ltb Z.compare Pos.compare Pos.compare_cont Z.add Z.opp Z.pos_sub Pos.pred_double Z.eqb Pos.eqb andb Pos.add Pos.succ]. auto.
Qed.
(** The only runs from there. *)
Lemma nA_run1 y z : t_S y 0 = (-1)%R -> t_S y 1 = 1%R -> t_E y 0 = (- nd)%R -> t_p y = 2 -> svR (O := ROps) 2 2 y z -> t_S z 0 = (-1)%R /\ t_S z 1 = 1%R /\ t_p z = 1.
Proof.
  intros H0 H1 He Hp R. pose proof tinyR_pos as Tp. pose proof nd_pos as Np. pose proof nd_eps as Ne.
  assert (Thr : forall S E k, S 0 = (-1)%R -> S 1 = 1%R -> E 0 = (- nd)%R -> scanned (O := ROps) 2 S E k -> k < 0 -> False).
  { intros S E k S0 S1 E0 (Hk & Hs & _) Hlt. specialize (Hs 0 ltac:(lia)). apply Rltb_true in Hs. change (thrE (O := ROps) S 0) with (tinyR + epsR * (Rabs (S 0%Z) + Rabs (S (0 + 1)%Z)))%R in Hs. change (@fabs ROps) with Rabs in Hs. change (0 + 1) with 1 in Hs.
    rewrite S0, S1, E0 in Hs. rewrite Rabs_Ropp, (Rabs_pos_eq nd) in Hs by lra. rewrite (Rabs_pos_eq 1) in Hs by lra. rewrite (Rabs_left (-1)) in Hs by lra. lra. }
  destruct R as [S E U V p q Sc k S1 Hq Hlt Hge | S E U V p k Sc Hk Hnot | S E U V p k Sc Hk Hle | S E U V p k ks Sc Hk Hks Hle]; cbn [t_S t_E t_p] in *; subst p; try (exfalso; apply (Thr S E k); auto; lia).
  assert (k = 1) by reflexivity. assert (q = 1) by lia. subst q. clearbody k. subst k. split; [|split; [|reflexivity]].
  - unfold cyc, S1, vset. cbn [Z.leb Z.ltb Z.eqb Z.compare andb Pos.compare Pos.compare_cont]. auto.
  - unfold cyc, S1, vset, posS. cbn [Z.leb Z.ltb Z.eqb Z.compare andb Pos.compare Pos.compare_cont Pos.eqb]. rewrite H1. change (@fle ROps) with Rleb. change (@fzero ROps) with 0%R. destruct (Rleb 1 0) eqn:El; auto. apply Rleb_true in El. lra.
Qed.
Lemma nA_run2 y z : t_S y 0 = (-1)%R -> t_S y 1 = 1%R -> t_p y = 1 -> svR (O := ROps) 2 2 y z -> t_S z 0 = 1%R /\ t_S z 1 = 1%R /\ t_p z = 0.
Proof.
  intros H0 H1 Hp R.
  destruct R as [S E U V p q Sc k S1 Hq Hlt Hge | S E U V p k Sc Hk Hnot | S E U V p k Sc Hk Hle | S E U V p k ks Sc Hk Hks Hle]; cbn [t_S t_E t_p] in *; subst p; try (exfalso; destruct Sc; lia).
  assert (k = 0) by reflexivity. clearbody k. subst k.
  assert (A0 : S1 0 = 1%R). { unfold S1, vset, posS. cbn [Z.eqb]. rewrite H0. change (@fle ROps) with Rleb. change (@flt ROps) with Rltb. change (@fneg ROps) with Ropp. change (@fzero ROps) with 0%R.
    destruct (Rleb (-1) 0) eqn:El; [|apply Rleb_false in El; lra]. destruct (Rltb (-1) 0) eqn:Et; [lra|apply Rltb_false in Et; lra]. }
  assert (A1 : S1 1 = 1%R) by (unfold S1, vset; cbn [Z.eqb]; auto).
  assert (q = 0 \/ q = 1) as [-> | ->] by lia; unfold cyc; cbn [Z.leb Z.ltb Z.eqb Z.compare andb Pos.compare Pos.compare_cont Pos.eqb Z.add]; auto.
Qed.
Lemma nA_end y : svRs (O := ROps) 2 2 (sv0 (O := ROps) 2 2 nA) y -> t_p y = 0 -> t_S y 0 = 1%R /\ t_S y 1 = 1%R.
Proof.
  intros R. destruct nA_sv0 as (S0 & S1 & E0 & _ & P0). set (x := sv0 (O := ROps) 2 2 nA) in *. clearbody x.
  assert (K : t_p y = 2 /\ t_S y 0 = (-1)%R /\ t_S y 1 = 1%R /\ t_E y 0 = (- nd)%R \/ t_p y = 1 /\ t_S y 0 = (-1)%R /\ t_S y 1 = 1%R \/ t_p y = 0 /\ t_S y 0 = 1%R /\ t_S y 1 = 1%R).
  { induction R as [x|x y z R IH Hp Rz]; [auto|]. destruct (IH S0 S1 E0 P0) as [(P & A & B & C)|[(P & A & B)|(P & _)]].
    - destruct (nA_run1 y z A B C P Rz) as (? & ? & ?). auto 6.
    - destruct (nA_run2 y z A B P Rz) as (? & ? & ?). auto 6.
    - lia. }
  intros Ep. destruct K as [(P & _)|[(P & _)|(_ & A & B)]]; [lia|lia|auto].
Qed.
(** Whatever the factors returned, they do not multiply to the matrix. *)
Lemma nA_not d U S V : svd_of nd_x d -> svd_tables 2 2 d U S V -> ~ (forall i j, 0 <= i < 2 -> 0 <= j < 2 -> nA i j = recompose 2 U S V i j).
Proof.
  intros Hd T Heq.
  destruct (svd_of_ok nd_x 2 2 nA d (rmat_lib _) nd_x_is ltac:(lia) ltac:(lia) Hd) as (y & R & Ep & K').
  pose proof (nA_end y R Ep) as [E0 E1].
  destruct (sv_real nd_x 2 2 nA d (rmat_lib _) nd_x_is ltac:(lia) ltac:(lia) Hd) as (U' & S' & V' & K & H1 & _ & _ & H2 & _). specialize (H2 ltac:(lia)).
  pose proof (sv_ok_tables 2 2 _ _ _ _ d ltac:(lia) ltac:(lia) K) as (TU & TV & _). pose proof (sv_ok_tables 2 2 _ _ _ _ d ltac:(lia) ltac:(lia) K') as (_ & _ & TS & _). destruct T as (TU0 & TV0 & TS0 & _).
  change (Z.min 2 2) with 2 in *. destruct (MatIs_unique _ _ _ _ _ _ _ TU TU0) as (_ & _ & EU). destruct (MatIs_unique _ _ _ _ _ _ _ TV TV0) as (_ & _ & EV).
  assert (ES : forall i, 0 <= i < 2 -> S i = 1%R). { intros i Hi. apply VecIs_elim in TS. apply VecIs_elim in TS0. destruct TS as [_ TS]. destruct TS0 as [_ TS0]. rewrite <- (TS0 i Hi), (TS i Hi). assert (i = 0 \/ i = 1) as [-> | ->] by lia; auto. }
  assert (U0 : Rs 0 2 (fun i => U' i 0%Z * U' i 0%Z)%R = 1%R) by (rewrite (H1 0 0) by lia; auto). assert (U1 : Rs 0 2 (fun i => U' i 1%Z * U' i 1%Z)%R = 1%R) by (rewrite (H1 1 1) by lia; auto).
  assert (U2 : Rs 0 2 (fun i => U' i 0%Z * U' i 1%Z)%R = 0%R) by (rewrite (H1 0 1) by lia; auto). rewrite Rs_2 in U0, U1, U2.
  destruct H2 as [_ H2]. pose proof (H2 0 1 ltac:(lia) ltac:(lia)) as V0. unfold mmul, trm in V0. rewrite Rs_2 in V0. change (idm 0 1) with 0%R in V0.
  pose proof (Heq 0 0 ltac:(lia) ltac:(lia)) as A00. pose proof (Heq 0 1 ltac:(lia) ltac:(lia)) as A01. pose proof (Heq 1 0 ltac:(lia) ltac:(lia)) as A10. pose proof (Heq 1 1 ltac:(lia) ltac:(lia)) as A11.
  unfold recompose in *. rewrite Rs_2 in A00, A01, A10, A11. rewrite !ES, <- !EU, <- !EV in A00, A01, A10, A11 by lia. pose proof nd_pos as Np.
  assert (Q : (nA 0%Z 0%Z * nA 0%Z 1%Z + nA 1%Z 0%Z * nA 1%Z 1%Z = nd)%R) by (unfold nA; rents; ring). rewrite A00, A01, A10, A11 in Q.
  assert (Q' : ((U' 0%Z 0%Z * U' 0%Z 0%Z + U' 1%Z 0%Z * U' 1%Z 0%Z) * (V' 0%Z 0%Z * V' 1%Z 0%Z) + (U' 0%Z 1%Z * U' 0%Z 1%Z + U' 1%Z 1%Z * U' 1%Z 1%Z) * (V' 0%Z 1%Z * V' 1%Z 1%Z) + (U' 0%Z 0%Z * U' 0%Z 1%Z + U' 1%Z 0%Z * U' 1%Z 1%Z) * (V' 0%Z 0%Z * V' 1%Z 1%Z + V' 0%Z 1%Z * V' 1%Z 0%Z) = nd)%R) by (rewrite <- Q; ring).
  rewrite U0, U1, U2 in Q'. lra.
Qed.
Lemma sv_makes (x : @RealMatrix ROps) r c A : library x -> MatIs x r c A -> 1 <= r -> 1 <= c -> exists d, svd_of x d.
Proof. intros Lx Hx Hr Hc. destruct (sv_returns x r c A Lx Hx Hr Hc) as (t & d & H). exists d, t, d. split; [apply H; auto|constructor]. Qed.
Lemma sv_inexact : ~ (forall (x : @RealMatrix ROps) r c A d U S V, library x -> MatIs x r c A -> 1 <= r -> 1 <= c -> svd_of x d -> svd_tables r c d U S V ->
  forall i j, 0 <= i < r -> 0 <= j < c -> A i j = recompose (Z.min r c) U S V i j).
Proof.
  intros H. destruct (sv_makes nd_x 2 2 nA (rmat_lib _) nd_x_is ltac:(lia) ltac:(lia)) as [d Hd].
  destruct (sv_stable nd_x 2 2 nA d d (rmat_lib _) nd_x_is ltac:(lia) ltac:(lia) Hd Hd) as (U & S & V & T & _).
  exact (nA_not d U S V Hd T (H nd_x 2 2 nA d U S V (rmat_lib _) nd_x_is ltac:(lia) ltac:(lia) Hd T)).
Qed.
(** A three by three matrix for the bound on the number of turns. *)
Definition sv_y : @RealMatrix ROps := rmat [[1; 2; 0]; [0; 1; 2]; [2; 0; 1]]%R.
Definition sv_B : Z -> Z -> R := rent [[1; 2; 0]; [0; 1; 2]; [2; 0; 1]]%R.
Lemma sv_y_is : MatIs sv_y 3 3 sv_B.
Proof. apply rmat_is; try lia; try reflexivity. intros i Hi. assert (i = 0 \/ i = 1 \/ i = 2) as [-> | [-> | ->]] by lia; reflexivity. Qed.
Lemma sv_y_frob : (frob 3 3 sv_B <= 2 ^ 2)%R.
Proof.
  unfold frob. rewrite !Rs_3. unfold sv_B, rent.
  change (sqrt (1 * 1 + 2 * 2 + 0 * 0 + (0 * 0 + 1 * 1 + 2 * 2) + (2 * 2 + 0 * 0 + 1 * 1)) <= 2 ^ 2)%R.
  replace (2 ^ 2)%R with (sqrt (4 * 4)) by (rewrite sqrt_square; lra). apply sqrt_le_1_alt. lra.
Qed.

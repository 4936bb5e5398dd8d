(** A two by two case of the eigen decomposition of matrices that are not
    symmetric: the Schur form of a matrix with complex eigenvalues is the matrix
    itself. *)
From Coq Require Import ZArith QArith Qreals List Lia Bool Reals Lra.
From Verif Require Import Base BaseLemmas Wpe Scalar Vector VecSpec VectorFacts Matrix MatSpec MatFacts Array2D BlockM Diagonal RealMatrixM Array2DFacts TabTac FSum CholFacts QRFacts Hess HessFacts HessReal Schur Eigen EigenSpec EigenGenSpec SchurSpec SchurSpecR SchurFacts SchurFacts2 SchurReal SchurReal2 SchurReal3 SchurReal5 SchurReal6 SchurProps EigenGenR EigenGenP EigenGenRP ExampleReal EigenFacts EigenFacts2 EigenProps EigenProps2 EigenGen EigenGenP RealOps RSum House Frob Tri EigenGenR.
Import ListNotations.
Open Scope Z_scope.
#[local] Existing Instance ROps.

Definition kept (A : Z -> Z -> R) (s : @sstate ROps) : Prop :=
  let '(TP, ex, _, iu) := s in (ex = 0)%R /\ (iu = 1 \/ iu = 0 \/ iu = -1) /\ meq 2 2 (fst TP) A.
Lemma kept_turn A norm s s' : ((A 0%Z 0%Z - A 1%Z 1%Z) * (A 0%Z 0%Z - A 1%Z 1%Z) + 4 * (A 0%Z 1%Z * A 1%Z 0%Z) < 0)%R -> turnR (O := ROps) 2 norm s s' -> kept A s -> kept A s'.
Proof.
  intros HA K. destruct K as [T P ex it iu (F1 & _)|T P ex it iu (F1 & _)|T P ex it iu il im h x y w T1 ex' (F1 & _)]; cbn [kept fst]; intros (-> & Hu & E).
  - split; [auto|]. split; [lia|]. intros i j Hi Hj. unfold tset. ro. zbq; subst; auto. rewrite Rplus_0_r. auto.
  - assert (iu = 1) by lia. subst iu. unfold twoF. destruct (twoR (O := ROps) 1 T) as [b [p q]] eqn:Er. assert (b = false).
    { unfold twoR in Er. injection Er as <- _ _. cbn. rewrite !E by lia. ro. destruct (Rleb 0 _) eqn:Eq; auto. apply Rleb_true in Eq. exfalso.
      replace (Q2R (2 # 1)) with 2%R in Eq by (unfold Q2R; cbn; lra). nra. }
    subst b. cbn [kept fst]. split; [auto|]. split; [lia|]. intros i j Hi Hj. unfold twoD, tset. ro. zbq; subst; auto; rewrite Rplus_0_r; auto.
  - intros. lia.
Qed.
Lemma two_complex (x : @RealMatrix ROps) A sc Tm T sc1 : library x -> MatIs x 2 2 A -> ((A 0%Z 0%Z - A 1%Z 1%Z) * (A 0%Z 0%Z - A 1%Z 1%Z) + 4 * (A 0%Z 1%Z * A 1%Z 0%Z) < 0)%R ->
  sc_of x sc -> sc_getT sc = Ok (Tm, sc1) -> MatIs Tm 2 2 T -> meq 2 2 T A.
Proof.
  intros Hl Hx HA Hd Eg HT. destruct (sc_state (O := ROps) x 2 A sc Hl Hx ltac:(lia) Hd) as (T' & P & K & (Hm & norm & ex & it & _ & _ & Ht)).
  destruct (sc_T_ok (O := ROps) 2 T' P sc ltac:(lia) K) as ([Tm' sc1'] & Eg' & _ & HT' & _). rewrite Eg in Eg'. injection Eg' as <- <-. cbn [fst] in HT'.
  destruct (MatIs_unique _ _ _ _ _ _ _ HT HT') as (_ & _ & ET). assert (G : kept A ((T', P), ex, it, -1)).
  { change (2 - 2) with 0 in Ht. unfold hs_iter in Ht. cbn [Z.to_nat accum fst snd] in Ht. revert Ht. change (2 - 1) with 1.
    generalize (hs_tabP (O := ROps) 2 A (fun _ => fzero)). intros P0 Ht.
    enough (Q : forall s s', turnsR (O := ROps) 2 norm s s' -> kept A s -> kept A s').
    { apply (Q _ _ Ht). cbn [kept fst]. split; [reflexivity|]. split; [lia|]. intros i j Hi Hj. unfold hs_tabH. zbq; auto. }
    clear Ht. intros s s' Ht. induction Ht; auto. intros G. eapply kept_turn; eauto. }
  destruct G as (_ & _ & G). cbn [fst] in G. intros i j Hi Hj. rewrite ET by auto. apply G; auto.
Qed.

(** [[1,-2],[1,3]] has the eigenvalues 2+i and 2-i. *)
Notation c22 := [[1; -2]; [1; 3]]%R.
Lemma c22_sym : ~ nearly_symmetric 2 (rent c22).
Proof.
  intros H. specialize (H 0 1 ltac:(lia) ltac:(lia)). revert H. rents. rewrite (Rabs_left (-2)), (Rabs_right 1), (Rabs_left (-2 - 1)) by lra. rewrite Rmax_left by lra. lra.
Qed.
Lemma c22_schur : exists sc, sc_of (rmat c22) sc.
Proof.
  destruct (sc_total (O := ROps) (rmat c22) 2 _ (rmat_lib _) (rmat2_is _ _ _ _) ltac:(lia)) as [(sc & E)|[H _]]; [|lia]. exists sc, sc. split; [auto|constructor].
Qed.
Lemma c22_T sc Tm T sc1 : sc_of (rmat c22) sc -> sc_getT sc = Ok (Tm, sc1) -> MatIs Tm 2 2 T -> meq 2 2 T (rent c22).
Proof. intros Hs E H. apply (two_complex (rmat c22) (rent c22) sc Tm T sc1 (rmat_lib _) (rmat2_is _ _ _ _)); auto. rents. lra. Qed.
Lemma c22_form T : meq 2 2 T (rent c22) -> schur_form 2 (/ 1000000000000) T.
Proof.
  intros E. split; [intros; lia|]. intros l Hl. right. assert (l = 1) by lia. subst l. split; [intros; lia|]. split; [intros; lia|]. change (1 - 1) with 0. rewrite !E by lia. rents. lra.
Qed.
Lemma c22_new : exists d, ed_of (rmat c22) d.
Proof.
  destruct c22_schur as (sc & Hs). destruct (sc_access (O := ROps) (rmat c22) 2 _ sc (rmat_lib _) (rmat2_is _ _ _ _) ltac:(lia) Hs) as (Pm & Qm & Tm & P & Q & T & d1 & d2 & d3 & _ & _ & E3 & _ & _ & H3 & _).
  pose proof (gen_exists (rmat c22) 2 _ sc Tm T d3 (rmat_lib _) (rmat2_is _ _ _ _) ltac:(lia) c22_sym Hs E3 H3) as G. pose proof (c22_T sc Tm T d3 Hs E3 H3) as ET.
  match type of G with (if Rleb ?a ?b then _ else _) => destruct (Rleb a b) eqn:Eb end.
  - exfalso. apply Rleb_true in Eb. rewrite !Rs_2 in Eb. rewrite !ET in Eb by lia.
    revert Eb. rents. rewrite (Rabs_left (-2)), !Rabs_right by lra. lra.
  - destruct G as (d & E). exists d, d. split; [auto|constructor].
Qed.
Lemma unit_root (r : R) : (0 < r -> r * r = 1 -> r = 1)%R.
Proof. intros H E. assert (Hz : ((r - 1) * (r + 1) = 0)%R) by lra. apply Rmult_integral in Hz. destruct Hz; lra. Qed.
Lemma c22_roots d : ed_of (rmat c22) d -> exists Re Im, VecIs (VArr (ed_RealEigenvalues d)) 2 Re /\ VecIs (VArr (ed_ImagEigenvalues d)) 2 Im /\
  Re 0%Z = 2%R /\ Re 1%Z = 2%R /\ Im 0%Z = 1%R /\ Im 1%Z = (-1)%R.
Proof.
  intros Hd. destruct c22_schur as (sc & Hs).
  destruct (gen_roots (rmat c22) 2 _ d sc (rmat_lib _) (rmat2_is _ _ _ _) ltac:(lia) c22_sym Hd Hs) as (Tm & T & sc1 & pr & Re & Im & E1 & H1 & HR & HI & K1 & K2 & K3).
  pose proof (c22_T sc Tm T sc1 Hs E1 H1) as ET. specialize (K3 (c22_form T ET)). assert (Hp : pr 0 = true).
  { destruct (pr 0) eqn:Ep; auto. exfalso. destruct (pr (0 - 1)) eqn:Em; [apply K1 in Em; lia|]. destruct (K2 0 ltac:(lia) Ep Em) as (_ & _ & G). specialize (G ltac:(lia)). change (0 + 1) with 1 in G. rewrite ET in G by lia.
    revert G. rents. rewrite Rabs_right by lra. lra. }
  destruct (K3 0 Hp) as (G1 & G2 & G3 & G4 & G5). change (0 + 1) with 1 in *. rewrite (ET 0 0), (ET 0 1), (ET 1 0), (ET 1 1) in G4 by lia. rewrite (ET 0 0), (ET 1 1) in G5 by lia. revert G4 G5. rents. intros G4 G5.
  assert (Er : Re 0 = 2%R) by nra. rewrite Er in G4. assert (Ei : Im 0 = 1%R) by (apply (unit_root (Im 0)); [exact G3|revert G4; generalize (Im 0 : R); intros r G4; lra]). exists Re, Im. split; [auto|]. split; [auto|]. rewrite G1, G2, Er, Ei. repeat split; auto. 
Qed.

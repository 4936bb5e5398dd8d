(** The calls of HeapCoCode.v made at the same time. *)
From Coq Require Import ZArith List Lia Bool Arith.
From Verif Require Import Base BaseLemmas Scalar Vector Matrix Heap HeapDec HeapSolve HeapSpec HeapFacts HeapIndep HeapDecFacts
  HeapCo HeapCoCode HeapCoSpec HeapCoFacts HeapCoRun HeapCoKeep HeapCoRel HeapCoStep HeapCoPar.
Import ListNotations.
Open Scope Z_scope.

Section Main.
Context {O : Ops}.
Lemma code_alone c : same (code c) (alone c).
Proof.
  destruct c; unfold code, alone; try match goal with |- same (match ?x with HA _ => _ | HD _ => _ | HB _ => _ end) _ => destruct x end;
    (apply same_bind; [|intros; apply same_ret]).
  - apply same_h_NewLU.
  - apply same_h_NewCholesky.
  - apply same_h_NewQR.
  - apply same_h_NewRRQR.
  - apply same_h_NewHessenberg.
  - apply same_h_NewTriDiagonal.
  - apply same_h_NewBiDiagonal.
  - apply same_h_NewRectChol.
  - apply same_hlus_SolveVector.
  - apply same_hlus_SolveMatrix.
  - apply same_hlus_Inverse.
  - apply same_hchs_SolveVector.
  - apply same_hchs_SolveMatrix.
  - apply same_hchs_Inverse.
  - apply same_hqrs_SolveVector.
  - apply same_hqrs_SolveMatrix.
  - apply same_hqrs_Inverse.
  - apply same_hv_At.
  - apply same_h_NewArrayRealVectorCopy.
  - apply same_h_NewArrayRealVectorFromSlice.
  - apply same_hv_ToArray.
  - apply same_h_SubVector.
  - apply same_h_FromTwo.
  - apply same_h_Append.
  - apply same_h_Add.
  - apply same_hm_At.
  - apply same_hm_Data.
  - apply same_hm_Transpose.
  - apply same_h_NewRealMatrixFromSlices.
  - apply same_h2_Copy.
  - apply same_hd_Copy.
  - apply same_hb_Copy.
  - apply same_h2_RowAt.
  - apply same_hd_RowAt.
  - apply same_hb_RowAt.
  - apply same_h2_ColumnAt.
  - apply same_hd_ColumnAt.
  - apply same_hb_ColumnAt.
  - apply same_h2_RowVectorAt.
  - apply same_h2_ColumnVectorAt.
  - apply same_h2_SubMatrix.
  - apply same_hb_SubMatrix.
  - apply same_h2_RowMatrixAt.
  - apply same_h2_ColumnMatrixAt.
  - apply same_h2_Add.
  - apply same_h2_Subtract.
  - apply same_h2_Multiply.
  - apply same_h2_ScalarAdd.
  - apply same_h2_ScalarMultiply.
  - apply same_h2_Trace.
  - apply same_h2_OperateVector.
  - apply same_h2_PreMultiplyVector.
  - apply same_hd_Add.
  - apply same_hd_Subtract.
  - apply same_hd_Multiply.
  - apply same_hd_ScalarAdd.
  - apply same_hd_ScalarMultiply.
  - apply same_hd_OperateVector.
  - apply same_hd_PreMultiplyVector.
  - apply same_hb_Add.
  - apply same_hb_Subtract.
  - apply same_hb_Multiply.
  - apply same_hb_ScalarAdd.
  - apply same_hb_ScalarMultiply.
  - apply same_hb_Trace.
  - apply same_hb_OperateVector.
  - apply same_hb_PreMultiplyVector.
Qed.
Lemma put_same had n i j x : same (p_put had n i j x) (put had n i j x).
Proof.
  unfold p_put, put. destruct (nth_error had n) as [a|]; [|apply same_ret]. destruct a; try apply same_ret; [|apply same_hm_SetEntry].
  unfold h_SetEntry. apply same_bind; [apply same_hcheck|]. intros. apply same_wrF.
Qed.
Lemma go_same ts : forall had, same (go ts had) (go_alone ts had).
Proof.
  induction ts as [|[c f1 f2|n i j x] ts IH]; intros had; cbn [go go_alone]; [apply same_ret|..].
  - apply same_bind; [apply code_alone|]. intros. apply IH.
  - apply same_bind; [apply put_same|]. intros. apply IH.
Qed.
(** A result of a call: its arrays are new. *)
Definition isnewA (h0 h : heap) (a : answer) : Prop :=
  match a with
  | ANum _ => True
  | ASlice s => isnewF h0 h s
  | ATable o => isnewS h0 h o
  | AMat x => isnewM h0 h x
  | ALU d => isnewS h0 h (hlu_lu d)
  | AQR d => isnewS h0 h (hqr_qrt d) /\ isnewF h0 h (hqr_rDiag d)
  | ARR d => isnewS h0 h (hrr_qrt d) /\ isnewF h0 h (hrr_rDiag d)
  | AHs d => isnewS h0 h (hhs_hv d) /\ isnewF h0 h (hhs_ort d)
  | ATd d => isnewT h0 h d
  end.
Lemma isnewA_mono h0 h h' a : hle h h' -> isnewA h0 h a -> isnewA h0 h' a.
Proof.
  intros L. destruct a; cbn [isnewA]; auto.
  - apply isnewF_mono; auto.
  - apply isnewS_mono; auto.
  - apply isnewM_mono; auto.
  - apply isnewS_mono; auto.
  - intros [H1 H2]. split; [eapply isnewS_mono; eauto|eapply isnewF_mono; eauto].
  - intros [H1 H2]. split; [eapply isnewS_mono; eauto|eapply isnewF_mono; eauto].
  - intros [H1 H2]. split; [eapply isnewS_mono; eauto|eapply isnewF_mono; eauto].
  - intros (H1 & H2 & H3). split; [eapply isnewS_mono; eauto|split; eapply isnewF_mono; eauto].
Qed.
Lemma careful_wrap {A B} h0 hm (p : prog A) (f : A -> B) P (Q : heap -> B -> Prop) : careful h0 hm p P ->
  (forall h h' a, hle h h' -> P h a -> Q h' (f a)) -> careful h0 hm (pbind p (fun a => pret (f a))) Q.
Proof. intros H HQ. eapply careful_bind; [exact H|]. intros a h1 L1 Pa. apply careful_ret. intros h2 L2. eapply HQ; eauto. Qed.
Lemma code_careful h0 hm c : careful h0 hm (code c) (isnewA h0).
Proof.
  destruct c; unfold code; try match goal with |- careful _ _ (match ?x with HA _ => _ | HD _ => _ | HB _ => _ end) _ => destruct x end;
    (eapply careful_wrap; [|intros ? ? ? L P; try exact I; eapply (isnewA_mono h0 _ _ _ L); exact P]).
  - apply ckNewLU.
  - apply ckNewCholesky.
  - apply ckNewQR.
  - apply ckNewRRQR.
  - apply ckNewHessenberg.
  - apply ckNewTriDiagonal.
  - apply ckNewBiDiagonal.
  - apply ckNewRectChol.
  - apply cklus_SolveVector.
  - apply cklus_SolveMatrix.
  - apply clus_Inverse_k.
  - apply ckchs_SolveVector.
  - apply ckchs_SolveMatrix.
  - apply cchs_Inverse_k.
  - apply ckqrs_SolveVector.
  - apply ckqrs_SolveMatrix.
  - apply cqrs_Inverse_k.
  - apply ck_At.
  - apply ck_NewCopy.
  - apply ck_FromSlice.
  - apply ckv_ToArray.
  - apply ck_SubVector.
  - apply ck_FromTwo.
  - apply ck_Append.
  - apply ck_Add.
  - apply ckm_At.
  - apply ckm_Data.
  - apply ckm_Transpose.
  - apply ck_FromSlicesM.
  - apply ck2_Copy.
  - apply ckd_Copy.
  - apply ckb_Copy.
  - apply ck2_RowAt.
  - apply ckd_RowAt.
  - apply ckb_RowAt.
  - apply ck2_ColumnAt.
  - apply ckd_ColumnAt.
  - apply ckb_ColumnAt.
  - apply ck2_RowVectorAt.
  - apply ck2_ColumnVectorAt.
  - apply ck2_SubMatrix.
  - apply ckb_SubMatrix.
  - apply ck2_RowMatrixAt.
  - apply ck2_ColumnMatrixAt.
  - apply cka_h2_Add.
  - apply cka_h2_Subtract.
  - apply cka_h2_Multiply.
  - apply cka_h2_ScalarAdd.
  - apply cka_h2_ScalarMultiply.
  - apply cka_h2_Trace.
  - apply cka_h2_OperateVector.
  - apply cka_h2_PreMultiplyVector.
  - apply cka_hd_Add.
  - apply cka_hd_Subtract.
  - apply cka_hd_Multiply.
  - apply cka_hd_ScalarAdd.
  - apply cka_hd_ScalarMultiply.
  - apply cka_hd_OperateVector.
  - apply cka_hd_PreMultiplyVector.
  - apply cka_hb_Add.
  - apply cka_hb_Subtract.
  - apply cka_hb_Multiply.
  - apply cka_hb_ScalarAdd.
  - apply cka_hb_ScalarMultiply.
  - apply cka_hb_Trace.
  - apply cka_hb_OperateVector.
  - apply cka_hb_PreMultiplyVector.
Qed.
Lemma put_careful h0 hm had n i j x : Forall (isnewA h0 hm) had -> careful h0 hm (p_put had n i j x) any.
Proof.
  intros H. unfold p_put. destruct (nth_error had n) as [a|] eqn:E; [|apply careful_ret; intros; exact I].
  apply nth_error_In in E. rewrite Forall_forall in H. specialize (H a E).
  destruct a; try (apply careful_ret; intros; exact I); cbn [isnewA] in H.
  - unfold p_hcheck. eapply (careful_bind h0 hm _ _ any).
    + destruct (inb i (sl_len s)); [apply careful_ret; intros; exact I|apply careful_panic].
    + intros a h1 L1 _. apply careful_wrF. eapply isnewF_mono; eauto.
  - apply ckm_SetEntry; auto.
Qed.
Lemma go_careful g ts : forall hm had, Forall (isnewA g hm) had -> careful g hm (go ts had) (fun h l => Forall (isnewA g h) l).
Proof.
  assert (Mono : forall h h' l, hle h h' -> Forall (isnewA g h) l -> Forall (isnewA g h') l).
  { intros h h' l L H. eapply Forall_impl; [|exact H]. intros a. apply isnewA_mono; auto. }
  induction ts as [|[c f1 f2|n i j x] ts IH]; intros hm had Hh; cbn [go].
  - apply careful_ret. intros h L. eapply Mono; eauto.
  - eapply careful_bind; [apply code_careful|]. intros a h1 L1 Ha. apply IH. apply Forall_app. split; [eapply Mono; eauto|constructor; auto].
  - eapply careful_bind; [apply put_careful; auto|]. intros a h1 L1 _. apply IH. eapply Mono; eauto.
Qed.
(** ** Calls that differ only in the numbers of arrays *)
Inductive relC (g : heap) (r : rho) : call -> call -> Prop :=
| rCLU x x' threshold : relM g r x x' -> relC g r (CLU x threshold) (CLU x' threshold)
| rCCholesky x x' rel pos : relM g r x x' -> relC g r (CCholesky x rel pos) (CCholesky x' rel pos)
| rCQR x x' : relM g r x x' -> relC g r (CQR x) (CQR x')
| rCRRQR x x' : relM g r x x' -> relC g r (CRRQR x) (CRRQR x')
| rCHessenberg x x' : relM g r x x' -> relC g r (CHessenberg x) (CHessenberg x')
| rCTriDiagonal x x' : relM g r x x' -> relC g r (CTriDiagonal x) (CTriDiagonal x')
| rCBiDiagonal x x' : relM g r x x' -> relC g r (CBiDiagonal x) (CBiDiagonal x')
| rCRectChol x x' small : relM g r x x' -> relC g r (CRectChol x small) (CRectChol x' small)
| rCLUVector s s' b b' : relLU g r s s' -> relV g r b b' -> relC g r (CLUVector s b) (CLUVector s' b')
| rCLUMatrix s s' b b' : relLU g r s s' -> relM g r b b' -> relC g r (CLUMatrix s b) (CLUMatrix s' b')
| rCLUInverse s s' : relLU g r s s' -> relC g r (CLUInverse s) (CLUInverse s')
| rCChVector lT lT' b b' : relS g r lT lT' -> relV g r b b' -> relC g r (CChVector lT b) (CChVector lT' b')
| rCChMatrix lT lT' b b' : relS g r lT lT' -> relM g r b b' -> relC g r (CChMatrix lT b) (CChMatrix lT' b')
| rCChInverse lT lT' : relS g r lT lT' -> relC g r (CChInverse lT) (CChInverse lT')
| rCQRVector s s' threshold b b' : relQR g r s s' -> relV g r b b' -> relC g r (CQRVector s threshold b) (CQRVector s' threshold b')
| rCQRMatrix s s' threshold b b' : relQR g r s s' -> relM g r b b' -> relC g r (CQRMatrix s threshold b) (CQRMatrix s' threshold b')
| rCQRInverse s s' threshold : relQR g r s s' -> relC g r (CQRInverse s threshold) (CQRInverse s' threshold)
| rCVAt v v' i : relV g r v v' -> relC g r (CVAt v i) (CVAt v' i)
| rCVCopy v v' : relV g r v v' -> relC g r (CVCopy v) (CVCopy v')
| rCVFromSlice d d' : relF g r d d' -> relC g r (CVFromSlice d) (CVFromSlice d')
| rCVToArray v v' : relV g r v v' -> relC g r (CVToArray v) (CVToArray v')
| rCVSub v v' i n : relF g r v v' -> relC g r (CVSub v i n) (CVSub v' i n)
| rCVFromTwo v v' w w' : relF g r v v' -> relF g r w w' -> relC g r (CVFromTwo v w) (CVFromTwo v' w')
| rCVAppend v v' x : relF g r v v' -> relC g r (CVAppend v x) (CVAppend v' x)
| rCVAdd v v' w w' : relF g r v v' -> relV g r w w' -> relC g r (CVAdd v w) (CVAdd v' w')
| rCAt x x' i j : relM g r x x' -> relC g r (CAt x i j) (CAt x' i j)
| rCData x x' : relM g r x x' -> relC g r (CData x) (CData x')
| rCTranspose x x' : relM g r x x' -> relC g r (CTranspose x) (CTranspose x')
| rCFromSlices d d' : relS g r d d' -> relC g r (CFromSlices d) (CFromSlices d')
| rCCopy x x' : relM g r x x' -> relC g r (CCopy x) (CCopy x')
| rCRow x x' i : relM g r x x' -> relC g r (CRow x i) (CRow x' i)
| rCColumn x x' j : relM g r x x' -> relC g r (CColumn x j) (CColumn x' j)
| rCRowVector a a' i : relS g r a a' -> relC g r (CRowVector a i) (CRowVector a' i)
| rCColumnVector a a' j : relS g r a a' -> relC g r (CColumnVector a j) (CColumnVector a' j)
| rCSub a a' r0 r1 c0 c1 : relS g r a a' -> relC g r (CSub a r0 r1 c0 c1) (CSub a' r0 r1 c0 c1)
| rCSubBlock b b' r0 r1 c0 c1 : relB g r b b' -> relC g r (CSubBlock b r0 r1 c0 c1) (CSubBlock b' r0 r1 c0 c1)
| rCRowMatrix a a' i : relS g r a a' -> relC g r (CRowMatrix a i) (CRowMatrix a' i)
| rCColumnMatrix a a' j : relS g r a a' -> relC g r (CColumnMatrix a j) (CColumnMatrix a' j)
| rCPlus a a' m m' : relS g r a a' -> relM g r m m' -> relC g r (CPlus a m) (CPlus a' m')
| rCMinus a a' m m' : relS g r a a' -> relM g r m m' -> relC g r (CMinus a m) (CMinus a' m')
| rCTimes a a' m m' : relS g r a a' -> relM g r m m' -> relC g r (CTimes a m) (CTimes a' m')
| rCShift a a' x : relS g r a a' -> relC g r (CShift a x) (CShift a' x)
| rCScale a a' x : relS g r a a' -> relC g r (CScale a x) (CScale a' x)
| rCTrace a a' : relS g r a a' -> relC g r (CTrace a) (CTrace a')
| rCOperate a a' v v' : relS g r a a' -> relV g r v v' -> relC g r (COperate a v) (COperate a' v')
| rCPreMultiply a a' v v' : relS g r a a' -> relV g r v v' -> relC g r (CPreMultiply a v) (CPreMultiply a' v')
| rCDPlus a a' m m' : relF g r a a' -> relM g r m m' -> relC g r (CDPlus a m) (CDPlus a' m')
| rCDMinus a a' m m' : relF g r a a' -> relM g r m m' -> relC g r (CDMinus a m) (CDMinus a' m')
| rCDTimes a a' m m' : relF g r a a' -> relM g r m m' -> relC g r (CDTimes a m) (CDTimes a' m')
| rCDShift a a' x : relF g r a a' -> relC g r (CDShift a x) (CDShift a' x)
| rCDScale a a' x : relF g r a a' -> relC g r (CDScale a x) (CDScale a' x)
| rCDOperate a a' v v' : relF g r a a' -> relV g r v v' -> relC g r (CDOperate a v) (CDOperate a' v')
| rCDPreMultiply a a' v v' : relF g r a a' -> relV g r v v' -> relC g r (CDPreMultiply a v) (CDPreMultiply a' v')
| rCBPlus a a' m m' : relB g r a a' -> relM g r m m' -> relC g r (CBPlus a m) (CBPlus a' m')
| rCBMinus a a' m m' : relB g r a a' -> relM g r m m' -> relC g r (CBMinus a m) (CBMinus a' m')
| rCBTimes a a' m m' : relB g r a a' -> relM g r m m' -> relC g r (CBTimes a m) (CBTimes a' m')
| rCBShift a a' x : relB g r a a' -> relC g r (CBShift a x) (CBShift a' x)
| rCBScale a a' x : relB g r a a' -> relC g r (CBScale a x) (CBScale a' x)
| rCBTrace a a' : relB g r a a' -> relC g r (CBTrace a) (CBTrace a')
| rCBOperate a a' v v' : relB g r a a' -> relV g r v v' -> relC g r (CBOperate a v) (CBOperate a' v')
| rCBPreMultiply a a' v v' : relB g r a a' -> relV g r v v' -> relC g r (CBPreMultiply a v) (CBPreMultiply a' v').
Inductive relA (g : heap) (r : rho) : answer -> answer -> Prop :=
| rANum x : relA g r (ANum x) (ANum x)
| rASlice s s' : relF g r s s' -> relA g r (ASlice s) (ASlice s')
| rATable s s' : relS g r s s' -> relA g r (ATable s) (ATable s')
| rAMat s s' : relM g r s s' -> relA g r (AMat s) (AMat s')
| rALU s s' : relLU g r s s' -> relA g r (ALU s) (ALU s')
| rAQR s s' : relQR g r s s' -> relA g r (AQR s) (AQR s')
| rARR s s' : relRR g r s s' -> relA g r (ARR s) (ARR s')
| rAHs s s' : relHs g r s s' -> relA g r (AHs s) (AHs s')
| rATd s s' : relTd g r s s' -> relA g r (ATd s) (ATd s').
Lemma relA_mono g r r' a a' : grows r r' -> relA g r a a' -> relA g r' a a'.
Proof.
  intros G H. destruct H; constructor; auto.
  - eapply relF_mono; eauto.
  - eapply relS_mono; eauto.
  - eapply relM_mono; eauto.
  - eapply relLU_mono; eauto.
  - eapply relQR_mono; eauto.
  - destruct H as (H1 & H2 & H3). split; [eapply relS_mono; eauto|split; [eapply relF_mono; eauto|auto]].
  - destruct H as (H1 & H2). split; [eapply relS_mono; eauto|eapply relF_mono; eauto].
  - destruct H as (H1 & H2 & H3). split; [eapply relS_mono; eauto|split; eapply relF_mono; eauto].
Qed.
Lemma had_mono g r r' l l' : grows r r' -> Forall2 (relA g r) l l' -> Forall2 (relA g r') l l'.
Proof. intros G H. induction H; constructor; auto. eapply relA_mono; eauto. Qed.
Ltac done1 := let H := fresh in intros ? ? ? ? H; apply prel_ret; unfold req in H; subst; constructor; assumption.
Lemma par_code g r c c' : relC g r c c' -> prel g (relA g) r (code c) (code c').
Proof.
  intros H. destruct H; cbn [code].
  - eapply prel_bind; [apply par_h_NewLU; assumption|done1].
  - eapply prel_bind; [apply par_h_NewCholesky; assumption|done1].
  - eapply prel_bind; [apply par_h_NewQR; assumption|done1].
  - eapply prel_bind; [apply par_h_NewRRQR; assumption|done1].
  - eapply prel_bind; [apply par_h_NewHessenberg; assumption|done1].
  - eapply prel_bind; [apply par_h_NewTriDiagonal; assumption|done1].
  - eapply prel_bind; [apply par_h_NewBiDiagonal; assumption|done1].
  - eapply prel_bind; [apply par_h_NewRectChol; assumption|done1].
  - eapply prel_bind; [apply par_hlus_SolveVector; assumption|done1].
  - eapply prel_bind; [apply par_hlus_SolveMatrix; assumption|done1].
  - eapply prel_bind; [apply par_hlus_Inverse; assumption|done1].
  - eapply prel_bind; [apply par_hchs_SolveVector; assumption|done1].
  - eapply prel_bind; [apply par_hchs_SolveMatrix; assumption|done1].
  - eapply prel_bind; [apply par_hchs_Inverse; assumption|done1].
  - eapply prel_bind; [apply par_hqrs_SolveVector; assumption|done1].
  - eapply prel_bind; [apply par_hqrs_SolveMatrix; assumption|done1].
  - eapply prel_bind; [apply par_hqrs_Inverse; assumption|done1].
  - eapply prel_bind; [apply par_hv_At; assumption|done1].
  - eapply prel_bind; [apply par_h_NewArrayRealVectorCopy; assumption|done1].
  - eapply prel_bind; [apply par_h_NewArrayRealVectorFromSlice; assumption|done1].
  - eapply prel_bind; [apply par_hv_ToArray; assumption|done1].
  - eapply prel_bind; [apply par_h_SubVector; assumption|done1].
  - eapply prel_bind; [apply par_h_FromTwo; assumption|done1].
  - eapply prel_bind; [apply par_h_Append; assumption|done1].
  - eapply prel_bind; [apply par_h_Add; assumption|done1].
  - eapply prel_bind; [apply par_hm_At; assumption|done1].
  - eapply prel_bind; [apply par_hm_Data; assumption|done1].
  - eapply prel_bind; [apply par_hm_Transpose; assumption|done1].
  - eapply prel_bind; [apply par_h_NewRealMatrixFromSlices; assumption|done1].
  - destruct x, x'; try contradiction; cbn [relM] in *.
    + eapply prel_bind; [apply par_h2_Copy; assumption|done1].
    + eapply prel_bind; [apply par_hd_Copy; assumption|done1].
    + eapply prel_bind; [apply par_hb_Copy; assumption|done1].
  - destruct x, x'; try contradiction; cbn [relM] in *.
    + eapply prel_bind; [apply par_h2_RowAt; assumption|done1].
    + eapply prel_bind; [apply par_hd_RowAt; assumption|done1].
    + eapply prel_bind; [apply par_hb_RowAt; assumption|done1].
  - destruct x, x'; try contradiction; cbn [relM] in *.
    + eapply prel_bind; [apply par_h2_ColumnAt; assumption|done1].
    + eapply prel_bind; [apply par_hd_ColumnAt; assumption|done1].
    + eapply prel_bind; [apply par_hb_ColumnAt; assumption|done1].
  - eapply prel_bind; [apply par_h2_RowVectorAt; assumption|done1].
  - eapply prel_bind; [apply par_h2_ColumnVectorAt; assumption|done1].
  - eapply prel_bind; [apply par_h2_SubMatrix; assumption|done1].
  - eapply prel_bind; [apply par_hb_SubMatrix; assumption|done1].
  - eapply prel_bind; [apply par_h2_RowMatrixAt; assumption|done1].
  - eapply prel_bind; [apply par_h2_ColumnMatrixAt; assumption|done1].
  - eapply prel_bind; [apply par_h2_Add; assumption|done1].
  - eapply prel_bind; [apply par_h2_Subtract; assumption|done1].
  - eapply prel_bind; [apply par_h2_Multiply; assumption|done1].
  - eapply prel_bind; [apply par_h2_ScalarAdd; assumption|done1].
  - eapply prel_bind; [apply par_h2_ScalarMultiply; assumption|done1].
  - eapply prel_bind; [apply par_h2_Trace; assumption|done1].
  - eapply prel_bind; [apply par_h2_OperateVector; assumption|done1].
  - eapply prel_bind; [apply par_h2_PreMultiplyVector; assumption|done1].
  - eapply prel_bind; [apply par_hd_Add; assumption|done1].
  - eapply prel_bind; [apply par_hd_Subtract; assumption|done1].
  - eapply prel_bind; [apply par_hd_Multiply; assumption|done1].
  - eapply prel_bind; [apply par_hd_ScalarAdd; assumption|done1].
  - eapply prel_bind; [apply par_hd_ScalarMultiply; assumption|done1].
  - eapply prel_bind; [apply par_hd_OperateVector; assumption|done1].
  - eapply prel_bind; [apply par_hd_PreMultiplyVector; assumption|done1].
  - eapply prel_bind; [apply par_hb_Add; assumption|done1].
  - eapply prel_bind; [apply par_hb_Subtract; assumption|done1].
  - eapply prel_bind; [apply par_hb_Multiply; assumption|done1].
  - eapply prel_bind; [apply par_hb_ScalarAdd; assumption|done1].
  - eapply prel_bind; [apply par_hb_ScalarMultiply; assumption|done1].
  - eapply prel_bind; [apply par_hb_Trace; assumption|done1].
  - eapply prel_bind; [apply par_hb_OperateVector; assumption|done1].
  - eapply prel_bind; [apply par_hb_PreMultiplyVector; assumption|done1].
Qed.
Lemma rel_with1 g r a a' c c' : relA g r a a' -> relC g r c c' -> relC g r (with1 a c) (with1 a' c').
Proof.
  intros Ha Hc. destruct Hc; destruct Ha; cbn [with1]; try (constructor; cbn [relV]; assumption);
    match goal with H : relM g r ?s ?s' |- context [match ?s with HA _ => _ | HD _ => _ | HB _ => _ end] =>
      destruct s, s'; try contradiction; cbn [relM] in H; constructor; assumption end.
Qed.
Lemma rel_with2 g r a a' c c' : relA g r a a' -> relC g r c c' -> relC g r (with2 a c) (with2 a' c').
Proof. intros Ha Hc. destruct Hc; destruct Ha; cbn [with2]; constructor; cbn [relV]; assumption. Qed.
Lemma nth_F2 {A B} (R : A -> B -> Prop) l l' n : Forall2 R l l' ->
  match nth_error l n, nth_error l' n with Some a, Some a' => R a a' | None, None => True | _, _ => False end.
Proof. intros H. revert n. induction H; intros [|n]; cbn; auto. apply IHForall2. Qed.
Lemma rel_pick g r f had had' n c c' : (forall a a' c c', relA g r a a' -> relC g r c c' -> relC g r (f a c) (f a' c')) ->
  Forall2 (relA g r) had had' -> relC g r c c' -> relC g r (pick f had n c) (pick f had' n c').
Proof.
  intros Hf Hh Hc. destruct n as [n|]; cbn [pick]; auto. pose proof (nth_F2 _ _ _ n Hh) as H.
  destruct (nth_error had n), (nth_error had' n); try contradiction; auto.
Qed.
Lemma in_F g r s : exists_in g (OF s) -> relF g r s s.
Proof. intros [_ H]. apply relF_old. auto. Qed.
Lemma in_S g r s : exists_in g (OM s) -> relS g r s s.
Proof. intros [_ H]. split; [left; auto|split; auto]. Qed.
Lemma in_V g r v : vec_in g v -> relV g r v v.
Proof. destruct v; cbn [vec_in relV]; auto. apply in_F. Qed.
Lemma in_B g r b : exists_in g (OM (hb_blocks b)) -> relB g r b b.
Proof. intros H. split; [apply in_S; auto|]. destruct b; reflexivity. Qed.
Lemma in_M g r x : mat_in g x -> relM g r x x.
Proof. destruct x; cbn [mat_in relM]; [apply in_S|apply in_F|apply in_B]. Qed.
Lemma in_LU g r x : exists_in g (OM (hlu_lu x)) -> relLU g r x x.
Proof. intros H. split; [apply in_S; auto|]. destruct x; reflexivity. Qed.
Lemma in_QR g r x : qr_in g x -> relQR g r x x.
Proof. intros [H1 H2]. split; [apply in_S|apply in_F]; auto. Qed.
Lemma in_C g r c : call_in g c -> relC g r c c.
Proof.
  destruct c; cbn [call_in]; intros H; try (destruct H as [H H']); constructor;
    match goal with
    | |- relF _ _ _ _ => apply in_F
    | |- relS _ _ _ _ => apply in_S
    | |- relV _ _ _ _ => apply in_V
    | |- relM _ _ _ _ => apply in_M
    | |- relB _ _ _ _ => apply in_B
    | |- relLU _ _ _ _ => apply in_LU
    | |- relQR _ _ _ _ => apply in_QR
    end; try assumption; split; assumption.
Qed.
Lemma par_put g r had had' n i j x : Forall2 (relA g r) had had' -> prel g req r (p_put had n i j x) (p_put had' n i j x).
Proof.
  intros Hh. unfold p_put. pose proof (nth_F2 _ _ _ n Hh) as H. destruct (nth_error had n), (nth_error had' n); try contradiction; [|apply prel_ret; reflexivity].
  destruct H; try (apply prel_ret; reflexivity).
  - eapply prel_bind; [apply par_hcheck; auto|]. intros r' G a a' _. apply prel_wrF. eapply relF_mono; eauto.
  - apply par_hm_SetEntry; auto.
Qed.
Lemma par_go g ts : (forall c f1 f2, In (Make c f1 f2) ts -> call_in g c) -> forall r had had', Forall2 (relA g r) had had' ->
  prel g (fun r => Forall2 (relA g r)) r (go ts had) (go ts had').
Proof.
  induction ts as [|[c f1 f2|n i j x] ts IH]; intros Hts r had had' Hh; cbn [go]; [apply prel_ret; exact Hh|..].
  - eapply prel_bind.
    + apply par_code. unfold the_call. apply rel_pick; [intros; apply rel_with2; auto|auto|].
      apply rel_pick; [intros; apply rel_with1; auto|auto|]. eapply in_C, Hts. left; reflexivity.
    + intros r' G a a' Ha. apply IH; [intros; eapply Hts; right; eauto|]. apply Forall2_app; [eapply had_mono; eauto|constructor; auto].
  - eapply prel_bind; [apply par_put; exact Hh|]. intros r' G a a' _. apply IH; [intros; eapply Hts; right; eauto|]. eapply had_mono; eauto.
Qed.

(** ** What is seen *)
Lemma F2_firstn {A B} (R : A -> B -> Prop) n l l' : Forall2 R l l' -> Forall2 R (firstn n l) (firstn n l').
Proof. intros H. revert n. induction H; intros [|n]; cbn; constructor; auto. Qed.
Lemma F2_skipn {A B} (R : A -> B -> Prop) n l l' : Forall2 R l l' -> Forall2 R (skipn n l) (skipn n l').
Proof. intros H. revert n. induction H; intros [|n]; cbn; auto; constructor; auto. Qed.
Lemma see_F g r h m s s' : hrel g r h m -> relF g r s s' -> see_vec m s' = see_vec h s.
Proof. intros H Hs. unfold see_vec. rewrite (F_nil g _ _ _ Hs), (F_len g _ _ _ Hs), (cont_rel g _ _ _ _ _ H Hs). reflexivity. Qed.
Lemma see_S g r h m s s' : hrel g r h m -> relS g r s s' -> see_tab m s' = see_tab h s.
Proof.
  intros H Hs. unfold see_tab. rewrite (S_nil g _ _ _ Hs), (S_len g _ _ _ Hs). f_equal.
  assert (E : Forall2 (relF g r) (heads h s) (heads m s')).
  { unfold heads, window. destruct (getS g _ _ _ _ _ H Hs) as [(l & l' & E1 & E2 & E3)|[E1 E2]]; rewrite E1, E2; [|constructor].
    destruct Hs as [_ (B1 & B2 & B3)]. rewrite <- B1, <- B2. apply F2_firstn, F2_skipn. exact E3. }
  induction E; cbn [map]; [reflexivity|]. rewrite IHE. f_equal. eapply see_F; eauto.
Qed.
Lemma see_A g r h m a a' : hrel g r h m -> relA g r a a' -> seen m a' = seen h a.
Proof.
  intros H Ha. destruct Ha as [x|s s' Hs|s s' Hs|s s' Hs|s s' Hs|s s' Hs|s s' Hs|s s' Hs|s s' Hs]; cbn [seen].
  - reflexivity.
  - f_equal. eapply see_F; eauto.
  - f_equal. eapply see_S; eauto.
  - destruct s as [o|o|b], s' as [o'|o'|b']; try contradiction; cbn [relM] in Hs.
    + f_equal. eapply see_S; eauto.
    + f_equal. eapply see_F; eauto.
    + destruct Hs as [H1 ->]. cbn [hb_blocks hb_rows hb_columns hb_blockRows hb_blockColumns]. rewrite (see_S _ _ _ _ _ _ H H1). reflexivity.
  - destruct Hs as [H1 ->]. cbn [hlu_lu hlu_pivot hlu_even hlu_singular]. rewrite (see_S _ _ _ _ _ _ H H1). reflexivity.
  - destruct Hs as [H1 H2]. rewrite (see_S _ _ _ _ _ _ H H1), (see_F _ _ _ _ _ _ H H2). reflexivity.
  - destruct Hs as (H1 & H2 & H3). rewrite (see_S _ _ _ _ _ _ H H1), (see_F _ _ _ _ _ _ H H2), H3. reflexivity.
  - destruct Hs as [H1 H2]. rewrite (see_S _ _ _ _ _ _ H H1), (see_F _ _ _ _ _ _ H H2). reflexivity.
  - destruct Hs as (H1 & H2 & H3). rewrite (see_S _ _ _ _ _ _ H H1), (see_F _ _ _ _ _ _ H H2), (see_F _ _ _ _ _ _ H H3). reflexivity.
Qed.
Lemma see_all g r h m l l' : hrel g r h m -> Forall2 (relA g r) l l' -> map (seen m) l' = map (seen h) l.
Proof. intros H Hl. induction Hl; cbn [map]; [reflexivity|]. rewrite IHHl. f_equal. eapply see_A; eauto. Qed.

(** ** Goroutines *)
Lemma turns_same order i : turns order i = turns_of order i.
Proof.
  unfold turns_of. induction order as [|j order IH]; [reflexivity|]. cbn [turns filter]. rewrite Nat.eqb_sym.
  destruct (Nat.eqb i j); cbn [length]; rewrite IH; reflexivity.
Qed.
Lemma ready_peace g gs order : ready g gs ->
  peace g (fun r => Forall2 (relA g r)) (fun h l => Forall (isnewA g h) l) (map (fun ts => go ts []) gs) (turns order) (moves (launch g gs) order).
Proof.
  intros [Hw Hc]. apply (moves_peace g _ _ _ order (fun _ => 0%nat)). apply start_peace.
  - intros a l s E Hs. apply (Hw a l s E Hs).
  - intros p Hp. apply in_map_iff in Hp. destruct Hp as (ts & <- & _). apply go_careful. constructor.
  - intros p Hp. apply in_map_iff in Hp. destruct Hp as (ts & <- & Hts). apply par_go; [|constructor]. intros c f1 f2 Ht. eapply Hc; eauto.
Qed.
Lemma ready_mate g gs order i ts : ready g gs -> nth_error gs i = Some ts ->
  exists p r h q, nth_error (threads (moves (launch g gs) order)) i = Some p /\
    mate g (fun r => Forall2 (relA g r)) (fun h l => Forall (isnewA g h) l) (go ts []) (memory (moves (launch g gs) order)) (turns_of order i) p r h q.
Proof.
  intros Hr Hi. destruct (ready_peace g gs order Hr) as (_ & r & h & q & Hm & _).
  destruct (Hm i (go ts [])) as (p & E1 & E2); [rewrite nth_error_map, Hi; reflexivity|].
  rewrite turns_same in E2. eauto 8.
Qed.
Lemma no_threads {A} order : forall (w : world A), threads w = [] -> moves w order = w.
Proof.
  induction order as [|j order IH]; intros w Hw; cbn [moves]; auto. unfold move. rewrite Hw. destruct j; cbn; apply IH; auto.
Qed.
Lemma in_first {A} (x : A) n l : In x (firstn n l) -> In x l.
Proof. revert n. induction l; intros [|n]; cbn; try tauto. intros [H|H]; eauto. Qed.
Lemma in_skip {A} (x : A) n l : In x (skipn n l) -> In x l.
Proof. revert n. induction l; intros [|n]; cbn; try tauto. intros H; eauto. Qed.
Lemma co_shared g gs order : ready g gs -> only_adds g (memory (moves (launch g gs) order)).
Proof.
  intros Hr. destruct gs as [|ts gs].
  { rewrite no_threads by reflexivity. intros z _. reflexivity. }
  destruct (ready_mate g (ts :: gs) order 0 ts Hr eq_refl) as (p & r & h & q & _ & Hm). destruct Hm as [He _ _ _ Hh _].
  assert (Kf : forall a, a < len (hf g) -> zget (hf (memory (moves (launch g (ts :: gs)) order))) a = zget (hf g) a).
  { intros a Ha. rewrite (hr_oldf _ _ _ _ Hh a Ha). apply (ext_f _ _ He a Ha). }
  assert (Kc : forall s, sl_arr s < len (hf g) -> cont (memory (moves (launch g (ts :: gs)) order)) s = cont g s).
  { intros s Hs. unfold cont, window. rewrite (Kf _ Hs). reflexivity. }
  intros [s|o] [_ Hz]; cbn [view].
  - rewrite Kc by auto. reflexivity.
  - unfold heads, window. rewrite (hr_olds _ _ _ _ Hh (sl_arr o) Hz), (ext_s _ _ He (sl_arr o) Hz).
    destruct (zget (hs g) (sl_arr o)) as [l|e|e] eqn:El; [|reflexivity..]. apply map_ext_in. intros s Hs. apply Kc.
    apply (proj1 Hr (sl_arr o) l s El). eapply in_skip, in_first, Hs.
Qed.
Lemma co_thread g gs order i p : ready g gs -> nth_error (threads (moves (launch g gs) order)) i = Some p ->
  exists ts, nth_error gs i = Some ts.
Proof.
  intros Hr E. destruct (ready_peace g gs order Hr) as (Hl & _). rewrite map_length in Hl.
  assert (Hi : (i < length gs)%nat) by (rewrite <- Hl; apply nth_error_Some; rewrite E; discriminate).
  destruct (nth_error gs i) as [ts|] eqn:Ei; [eauto|]. apply nth_error_None in Ei. lia.
Qed.
(** An array that a goroutine is about to touch is shared or its own. *)
Lemma touch g (R : rho -> list answer -> list answer -> Prop) r q p h m k a : hrel g r h m -> prel g R r q p -> 0 <= a -> uses p k a ->
  match k with KF => a < len (hf g) \/ In a (fst r) | KS => a < len (hs g) \/ In a (snd r) end.
Proof.
  intros Hh Hp Ha Hu.
  assert (AF : forall s s', relF g r s s' -> sl_arr s' = a -> a < len (hf g) \/ In a (fst r)).
  { intros s s' [[[H1 H2]|(H1 & H2 & H3)] _] <-; [left; lia|right; eapply zget_In; eauto]. }
  assert (AS : forall s s', relS g r s s' -> sl_arr s' = a -> a < len (hs g) \/ In a (snd r)).
  { intros s s' [[[H1 H2]|(H1 & H2 & H3)] _] <-; [left; lia|right; eapply zget_In; eauto]. }
  destruct q as [z|s i f|s i f|s i x f|s i x f|l f|l f|d f|d s f]; destruct p as [z'|s' i' f'|s' i' f'|s' i' x' f'|s' i' x' f'|l' f'|l' f'|d' f'|d' s' f'];
    cbn [prel] in Hp; try contradiction; try (destruct z; contradiction); destruct k; cbn [uses] in Hu; try contradiction; destruct Hp as [Hs Hp].
  - eapply AF; eauto.
  - eapply AS; eauto.
  - eapply AF; eauto.
  - eapply AS; eauto.
  - eapply AF; eauto.
  - destruct Hu as [Hu|Hu]; [eapply AF; eauto|]. destruct Hp as [Hs' _]. eapply AF; eauto.
Qed.
Lemma alter g (R : rho -> list answer -> list answer -> Prop) r q p h m k a : hrel g r h m -> ~ hits g q -> prel g R r q p -> 0 <= a -> changes p k a ->
  match k with KF => In a (fst r) | KS => In a (snd r) end.
Proof.
  intros Hh Hq Hp Ha Hu.
  assert (AF : forall s s', ~ (0 <= sl_arr s < len (hf g)) -> relF g r s s' -> sl_arr s' = a -> In a (fst r)).
  { intros s s' Hn [[[H1 H2]|(H1 & H2 & H3)] _] <-; [lia|eapply zget_In; eauto]. }
  assert (AS : forall s s', ~ (0 <= sl_arr s < len (hs g)) -> relS g r s s' -> sl_arr s' = a -> In a (snd r)).
  { intros s s' Hn [[[H1 H2]|(H1 & H2 & H3)] _] <-; [lia|eapply zget_In; eauto]. }
  destruct q as [z|s i f|s i f|s i x f|s i x f|l f|l f|d f|d s f]; destruct p as [z'|s' i' f'|s' i' f'|s' i' x' f'|s' i' x' f'|l' f'|l' f'|d' f'|d' s' f'];
    cbn [prel] in Hp; try contradiction; try (destruct z; contradiction); destruct k; cbn [changes] in Hu; try contradiction; destruct Hp as [Hs Hp]; cbn [hits] in Hq.
  - eapply AF; eauto.
  - eapply AS; eauto.
  - eapply AF; eauto.
Qed.
Lemma co_race g gs order : ready g gs -> ~ race (moves (launch g gs) order).
Proof.
  intros Hr (i & j & p & q & k & a & Hij & Ei & Ej & Ha & Hc & Hu).
  destruct (co_thread _ _ _ _ _ Hr Ei) as [ti Ti]. destruct (co_thread _ _ _ _ _ Hr Ej) as [tj Tj].
  destruct (ready_peace g gs order Hr) as (_ & r & h & sq & Hm & Hap).
  destruct (Hm i (go ti [])) as (p' & E1 & M1); [rewrite nth_error_map, Ti; reflexivity|].
  destruct (Hm j (go tj [])) as (q' & E2 & M2); [rewrite nth_error_map, Tj; reflexivity|].
  assert (p' = p) by congruence. assert (q' = q) by congruence. subst p' q'.
  assert (Li : (i < length gs)%nat) by (apply nth_error_Some; congruence). assert (Lj : (j < length gs)%nat) by (apply nth_error_Some; congruence).
  destruct (Hap i j Hij) as [X1 X2]; [rewrite map_length; auto..|].
  destruct M1 as [A1 A2 A3 A4 A5 A6]. destruct M2 as [B1 B2 B3 B4 B5 B6].
  pose proof (alter g _ _ _ _ _ _ k a A5 (safe_hits _ _ _ _ A2) A6 Ha Hc) as C1.
  pose proof (touch g _ _ _ _ _ _ k a B5 B6 Ha Hu) as C2.
  destruct k.
  - destruct C2 as [C2|C2]; [|exact (X1 a C1 C2)]. pose proof (rho_range_f g _ _ _ a A5 C1). lia.
  - destruct C2 as [C2|C2]; [|exact (X2 a C1 C2)]. pose proof (rho_range_s g _ _ _ a A5 C1). lia.
Qed.
Lemma co_alone g gs order i ts q : ready g gs -> nth_error gs i = Some ts -> ended (moves (launch g gs) order) i q ->
  outcome (memory (moves (launch g gs) order)) q = outcome (snd (go_alone ts [] g)) (fst (go_alone ts [] g)).
Proof.
  intros Hr Hi He. destruct (ready_mate g gs order i ts Hr Hi) as (p & r & h & sp & E1 & M). unfold ended in He.
  assert (p = Done q) by congruence. subst p. destruct M as [A1 A2 A3 A4 A5 A6]. rewrite <- go_same, <- A3.
  destruct sp as [z| | | | | | | |]; cbn [prel] in A6; try (destruct z, q; contradiction); try contradiction. cbn [run fst snd].
  destruct z as [l|e|e], q as [l'|e'|e']; try contradiction; cbn [outcome]; try congruence. f_equal. eapply see_all; eauto.
Qed.
Lemma co_finish g ts : exists n, forall gs i order, ready g gs -> nth_error gs i = Some ts -> (n <= turns_of order i)%nat ->
  exists q, ended (moves (launch g gs) order) i q.
Proof.
  exists (HeapCoFacts.todo (go ts []) g). intros gs i order Hr Hi Hn.
  destruct (ready_mate g gs order i ts Hr Hi) as (p & r & h & sp & E1 & M). destruct M as [A1 A2 A3 A4 A5 A6].
  destruct (todo_done sp h) as [z ->]; [lia|]. destruct p; cbn [prel] in A6; try (destruct z; contradiction). eexists. exact E1.
Qed.
(** ** Storage of the results *)
(** The arrays of a result in the common memory are those of the goroutine. *)
Lemma own_F g r h m s s' k a : hrel g r h m -> isnewF g h s -> relF g r s s' -> vec_at s' k a -> 0 <= a -> k = KF /\ In a (fst r).
Proof.
  intros H Hn [Hr _] [-> <-] Ha. split; auto. destruct Hr as [[H1 H2]|(H1 & H2 & H3)]; [|eapply zget_In; eauto].
  destruct Hn as [Hn|Hn]; lia.
Qed.
Lemma own_S g r h m o o' k a : Ext g h -> hrel g r h m -> isnewS g h o -> relS g r o o' -> tab_at m o' k a -> 0 <= a ->
  match k with KF => In a (fst r) | KS => In a (snd r) end.
Proof.
  intros He H Hn Hr [[-> <-]|(s' & Hs & Hv)] Ha.
  - destruct Hr as [[[H1 H2]|(H1 & H2 & H3)] _]; [|eapply zget_In; eauto]. destruct Hn as [Hn|Hn]; lia.
  - unfold heads, window in Hs. destruct (getS g _ _ _ _ _ H Hr) as [(l & l' & E1 & E2 & E3)|[E1 E2]]; rewrite E2 in Hs; [|contradiction].
    apply in_first, in_skip in Hs. assert (exists s, In s l /\ relF g r s s') as (s & Is & Rs).
    { clear -Hs E3. induction E3; [contradiction|]. destruct Hs as [->|Hs]; [eexists; split; [left; reflexivity|auto]|].
      destruct (IHE3 Hs) as (s & I & R). exists s. split; [right; auto|auto]. }
    destruct Hn as [Hn|Hn]; [|apply zget_range in E1; lia].
    destruct (own_F g r h m s s' k a H (ext_n _ _ He _ _ _ (proj1 Hn) E1 Is) Rs Hv Ha) as [-> Hin]. exact Hin.
Qed.
Lemma own_A g r h m x x' k a : Ext g h -> hrel g r h m -> isnewA g h x -> relA g r x x' -> reaches m x' k a -> 0 <= a ->
  match k with KF => In a (fst r) | KS => In a (snd r) end.
Proof.
  intros He H Hn Hr Hx Ha.
  assert (F1 : forall s s', isnewF g h s -> relF g r s s' -> vec_at s' k a -> match k with KF => In a (fst r) | KS => In a (snd r) end).
  { intros s s' N R V. destruct (own_F g r h m s s' k a H N R V Ha) as [-> I]. exact I. }
  assert (S1 : forall s s', isnewS g h s -> relS g r s s' -> tab_at m s' k a -> match k with KF => In a (fst r) | KS => In a (snd r) end).
  { intros s s' N R V. eapply own_S; eauto. }
  destruct Hr as [x|s s' Hs|s s' Hs|s s' Hs|s s' Hs|s s' Hs|s s' Hs|s s' Hs|s s' Hs]; cbn [reaches isnewA] in *; try contradiction; try (first [eapply (fun s s' V R N => F1 s s' N R V); eassumption | eapply (fun s s' V R N => S1 s s' N R V); eassumption]).
  - destruct s as [o|o|b], s' as [o'|o'|b']; try contradiction; cbn [relM isnewM] in *; try (first [eapply (fun s s' V R N => F1 s s' N R V); eassumption | eapply (fun s s' V R N => S1 s s' N R V); eassumption]). destruct Hs as [Hs _]. (first [eapply (fun s s' V R N => F1 s s' N R V); eassumption | eapply (fun s s' V R N => S1 s s' N R V); eassumption]).
  - destruct Hs as [Hs _]. (first [eapply (fun s s' V R N => F1 s s' N R V); eassumption | eapply (fun s s' V R N => S1 s s' N R V); eassumption]).
  - destruct Hs as [H1 H2], Hn as [N1 N2], Hx as [Hx|Hx]; (first [eapply (fun s s' V R N => F1 s s' N R V); eassumption | eapply (fun s s' V R N => S1 s s' N R V); eassumption]).
  - destruct Hs as (H1 & H2 & _), Hn as [N1 N2], Hx as [Hx|Hx]; (first [eapply (fun s s' V R N => F1 s s' N R V); eassumption | eapply (fun s s' V R N => S1 s s' N R V); eassumption]).
  - destruct Hs as [H1 H2], Hn as [N1 N2], Hx as [Hx|Hx]; (first [eapply (fun s s' V R N => F1 s s' N R V); eassumption | eapply (fun s s' V R N => S1 s s' N R V); eassumption]).
  - destruct Hs as (H1 & H2 & H3), Hn as (N1 & N2 & N3), Hx as [Hx|[Hx|Hx]]; [exact (S1 _ _ N1 H1 Hx)|exact (F1 _ _ N2 H2 Hx)|exact (F1 _ _ N3 H3 Hx)].
Qed.
Lemma ended_own g (m : heap) ts n l r h q : mate g (fun r => Forall2 (relA g r)) (fun h l => Forall (isnewA g h) l) (go ts []) m n (Done (Ok l)) r h q ->
  forall x k a, In x l -> reaches m x k a -> 0 <= a -> match k with KF => In a (fst r) | KS => In a (snd r) end.
Proof.
  intros [A1 A2 A3 A4 A5 A6] x k a Hx Hk Ha.
  destruct q as [z| | | | | | | |]; cbn [prel] in A6; try contradiction; try (destruct z; contradiction). destruct z as [l0|e|e]; try contradiction.
  destruct A2 as [_ A2]. assert (exists x0, In x0 l0 /\ relA g r x0 x) as (x0 & I0 & R0).
  { clear -Hx A6. induction A6; [contradiction|]. destruct Hx as [->|Hx]; [eexists; split; [left; reflexivity|auto]|].
    destruct (IHA6 Hx) as (s & I & R). exists s. split; [right; auto|auto]. }
  rewrite Forall_forall in A2. eapply own_A; eauto.
Qed.
Lemma co_own g gs order i l x k a : ready g gs -> ended (moves (launch g gs) order) i (Ok l) -> In x l ->
  reaches (memory (moves (launch g gs) order)) x k a -> ~ array_in g k a.
Proof.
  intros Hr He Hx Hk [Ha1 Ha2]. destruct (co_thread _ _ _ _ _ Hr He) as [ts Ti].
  destruct (ready_mate g gs order i ts Hr Ti) as (p & r & h & q & E1 & M). unfold ended in He. assert (p = Done (Ok l)) by congruence. subst p.
  pose proof (ended_own _ _ _ _ _ _ _ _ M x k a Hx Hk Ha1) as Hin. pose proof (mt_heap _ _ _ _ _ _ _ _ _ _ M) as Hh.
  destruct k; [pose proof (rho_range_f g _ _ _ a Hh Hin)|pose proof (rho_range_s g _ _ _ a Hh Hin)]; lia.
Qed.
Lemma co_apart g gs order i j l l' x x' k a : ready g gs -> i <> j ->
  ended (moves (launch g gs) order) i (Ok l) -> ended (moves (launch g gs) order) j (Ok l') -> In x l -> In x' l' -> 0 <= a ->
  reaches (memory (moves (launch g gs) order)) x k a -> ~ reaches (memory (moves (launch g gs) order)) x' k a.
Proof.
  intros Hr Hij Ei Ej Hx Hx' Ha Hk Hk'. destruct (co_thread _ _ _ _ _ Hr Ei) as [ti Ti]. destruct (co_thread _ _ _ _ _ Hr Ej) as [tj Tj].
  destruct (ready_peace g gs order Hr) as (_ & r & h & sq & Hm & Hap).
  destruct (Hm i (go ti [])) as (p' & E1 & M1); [rewrite nth_error_map, Ti; reflexivity|].
  destruct (Hm j (go tj [])) as (q' & E2 & M2); [rewrite nth_error_map, Tj; reflexivity|].
  unfold ended in Ei, Ej. assert (p' = Done (Ok l)) by congruence. assert (q' = Done (Ok l')) by congruence. subst p' q'.
  assert (Li : (i < length gs)%nat) by (apply nth_error_Some; congruence). assert (Lj : (j < length gs)%nat) by (apply nth_error_Some; congruence).
  destruct (Hap i j Hij) as [X1 X2]; [rewrite map_length; auto..|].
  pose proof (ended_own _ _ _ _ _ _ _ _ M1 x k a Hx Hk Ha) as I1. pose proof (ended_own _ _ _ _ _ _ _ _ M2 x' k a Hx' Hk' Ha) as I2.
  destruct k; [exact (X1 a I1 I2)|exact (X2 a I1 I2)].
Qed.
End Main.

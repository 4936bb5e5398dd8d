(** The arithmetic of HeapArith.v: what the results contain, and that nothing
    else is written. *)
From Coq Require Import ZArith List Lia Bool.
From Verif Require Import Base BaseLemmas Scalar Vector Matrix VecSpec MatSpec MatFacts Array2D Array2DFacts.
From Verif Require Import Heap HeapSpec HeapFacts HeapIndep HeapSim HeapSim2 HeapSim3 HeapSim4 HeapMain HeapProps HeapDec HeapDecFacts HeapAtom HeapRefSpec HeapRef2 HeapRef8 HeapRef9
  HeapSolve HeapSolveFacts HeapArith.
Import ListNotations.
Open Scope Z_scope.

Section HeapArithFacts.
Context {O : Ops}.

(** ** Only new storage is written *)
Ltac ka := repeat first [apply km_At | apply km_cols | apply k2_cols | kd1].
Lemma k_ckAdd h0 hm a m : keeps h0 hm (h_ckAdd a m) any.
Proof. unfold h_ckAdd. ka. Qed.
Lemma k_ckMul h0 hm a m : keeps h0 hm (h_ckMul a m) any.
Proof. unfold h_ckMul. ka. Qed.
Lemma ka_Add h0 hm a m : keeps h0 hm (h2_Add a m) (isnewS h0).
Proof. unfold h2_Add. destruct m; repeat first [apply k_ckAdd | apply km_At | apply k2_cols | kd1]. Qed.
Lemma ka_Subtract h0 hm a m : keeps h0 hm (h2_Subtract a m) (isnewS h0).
Proof. unfold h2_Subtract. destruct m; repeat first [apply k_ckAdd | apply km_At | apply k2_cols | kd1]. Qed.
Lemma ka_Multiply h0 hm a m : keeps h0 hm (h2_Multiply a m) (isnewS h0).
Proof. unfold h2_Multiply. destruct m; repeat first [apply k_ckMul | apply km_At | apply km_cols | apply k2_cols | kd1]. Qed.
Lemma ka_ScalarAdd h0 hm a d : keeps h0 hm (h2_ScalarAdd a d) (isnewS h0).
Proof. unfold h2_ScalarAdd. ka. Qed.
Lemma ka_ScalarMultiply h0 hm a d : keeps h0 hm (h2_ScalarMultiply a d) (isnewS h0).
Proof. unfold h2_ScalarMultiply. ka. Qed.
Lemma ka_Operate h0 hm a v : keeps h0 hm (h2_Operate a v) (isnewF h0).
Proof. unfold h2_Operate. ka. Qed.
Lemma ka_PreMultiply h0 hm a v : keeps h0 hm (h2_PreMultiply a v) (isnewF h0).
Proof. unfold h2_PreMultiply. ka. Qed.
Lemma ka_OperateVector h0 hm a v : keeps h0 hm (h2_OperateVector a v) (isnewF h0).
Proof. destruct v; cbn; [apply ka_Operate|ka]. Qed.
Lemma ka_PreMultiplyVector h0 hm a v : keeps h0 hm (h2_PreMultiplyVector a v) (isnewF h0).
Proof. destruct v; cbn; [|ka]. eapply keeps_bind; [apply ka_PreMultiply|]. intros. ka. Qed.
Lemma ka_NewDim h0 hm n : keeps h0 hm (hd_NewDim n) (isnewF h0).
Proof. unfold hd_NewDim. ka. Qed.
Ltac kb := repeat first [apply k_ckAdd | apply k_ckMul | apply km_At | apply kd_At | apply kv_At | apply kv_ToArray | apply keeps_mpan, ka_NewDim | apply kd_SetEntry; auto; fail | apply km_cols | apply k2_copyIn | kd1].
Lemma kad_Add h0 hm d m : keeps h0 hm (hd_Add d m) (isnewF h0).
Proof. unfold hd_Add. destruct m; kb. Qed.
Lemma kad_Subtract h0 hm d m : keeps h0 hm (hd_Subtract d m) (isnewF h0).
Proof. unfold hd_Subtract. destruct m; kb. Qed.
Lemma kad_MulDiag h0 hm d e : keeps h0 hm (hd_MultiplyDiag d e) (isnewF h0).
Proof. unfold hd_MultiplyDiag. kb. Qed.
Lemma kad_Multiply h0 hm d m : keeps h0 hm (hd_Multiply d m) (isnewM h0).
Proof.
  unfold hd_Multiply. destruct m; (eapply keeps_bind; [apply k_ckMul|]; intros [] h1 Hl _).
  - kb.
  - eapply keeps_bind; [apply kad_MulDiag|]. intros. apply keeps_ret. intros h' Hh. cbn. eapply isnewF_mono; eauto.
  - kb.
Qed.
Lemma kad_Operate h0 hm d v : keeps h0 hm (hd_Operate d v) (isnewF h0).
Proof. unfold hd_Operate. eapply keeps_bind; [apply k_ckMul|]. intros. apply kad_MulDiag. Qed.
Lemma kad_OperateVector h0 hm d v : keeps h0 hm (hd_OperateVector d v) (isnewF h0).
Proof. destruct v; cbn; [|kb]. eapply keeps_bind; [apply kad_Operate|]. intros. kb. Qed.
Lemma kad_PreMultiplyVector h0 hm d v : keeps h0 hm (hd_PreMultiplyVector d v) (isnewF h0).
Proof.
  unfold hd_PreMultiplyVector. eapply keeps_bind with (P := any); [destruct v; [kb|eapply keeps_any; apply kv_ToArray]|]. intros s h1 Hl _.
  eapply keeps_bind; [apply kad_Operate|]. intros. apply keeps_mpan, k_NewVector.
Qed.
Lemma kad_ScalarAdd h0 hm d x : keeps h0 hm (hd_ScalarAdd d x) (isnewF h0).
Proof. unfold hd_ScalarAdd. kb. Qed.
Lemma kad_ScalarMultiply h0 hm d x : keeps h0 hm (hd_ScalarMultiply d x) (isnewF h0).
Proof. unfold hd_ScalarMultiply. kb. Qed.
Lemma arith_separate_diag (d : slice) (m : HMat) (x : F) (v : slice) (w : HVec) :
  (separate (hd_Add d m) OF /\ separate (hd_Subtract d m) OF /\ separate (hd_Multiply d m) hm_obj) /\
  (separate (hd_ScalarAdd d x) OF /\ separate (hd_ScalarMultiply d x) OF) /\
  (separate (hd_Operate d v) OF /\ separate (hd_OperateVector d w) OF /\ separate (hd_PreMultiplyVector d w) OF).
Proof.
  split; [|split].
  - split; [|split]; [apply sepV|apply sepV|apply sepM]; intros; [apply kad_Add|apply kad_Subtract|apply kad_Multiply].
  - split; apply sepV; intros; [apply kad_ScalarAdd|apply kad_ScalarMultiply].
  - split; [|split]; apply sepV; intros; [apply kad_Operate|apply kad_OperateVector|apply kad_PreMultiplyVector].
Qed.

Lemma arith_separate (a : slice) (m : HMat) (x : F) (v : slice) (w : HVec) :
  (separate (h2_Add a m) OM /\ separate (h2_Subtract a m) OM /\ separate (h2_Multiply a m) OM) /\
  (separate (h2_ScalarAdd a x) OM /\ separate (h2_ScalarMultiply a x) OM) /\
  (separate (h2_Operate a v) OF /\ separate (h2_PreMultiply a v) OF) /\
  (separate (h2_OperateVector a w) OF /\ separate (h2_PreMultiplyVector a w) OF).
Proof.
  split; [|split; [|split]].
  - split; [|split]; apply keeps_sepS; intros; [apply ka_Add|apply ka_Subtract|apply ka_Multiply].
  - split; apply keeps_sepS; intros; [apply ka_ScalarAdd|apply ka_ScalarMultiply].
  - split; apply sepV; intros; [apply ka_Operate|apply ka_PreMultiply].
  - split; apply sepV; intros; [apply ka_OperateVector|apply ka_PreMultiplyVector].
Qed.
End HeapArithFacts.

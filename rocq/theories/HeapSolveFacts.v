(** The solvers of HeapSolve.v write only to storage they made. *)
From Coq Require Import ZArith List Lia Bool.
From Verif Require Import Base BaseLemmas Scalar Vector Matrix Heap HeapDec HeapSpec HeapFacts HeapIndep HeapDecFacts HeapSolve.
Import ListNotations.
Open Scope Z_scope.

Section HeapSolveFacts.
Context {O : Ops}.
Implicit Types (x : HMat).

Lemma km_At h0 hm x i j : keeps h0 hm (hm_At x i j) any.
Proof.
  destruct x; cbn.
  - unfold h2_At, h2_ck, h2_ckrow, h2_ckcol, h2_cols. kd.
  - apply kd_At.
  - unfold hb_At, hb_ckrow, hb_ckcol. kd.
Qed.
Lemma kv_At h0 hm v i : keeps h0 hm (hv_At v i) any.
Proof. apply k_At. Qed.
Lemma kv_ToArray h0 hm v : keeps h0 hm (hv_ToArray v) (isnewF h0).
Proof. destruct v; cbn; kd. Qed.
Lemma k_newM h0 hm (m : M slice) : keeps h0 hm m (isnewS h0) -> keeps h0 hm (mbind m (fun a => ret (HA a))) (isnewM h0).
Proof. intros H. eapply keeps_bind; [exact H|]. intros. apply keeps_ret. intros h' Hl. cbn. eapply isnewS_mono; eauto. Qed.
Lemma k_Identity h0 hm n : keeps h0 hm (h_NewRealIdentityMatrix n) (isnewM h0).
Proof.
  unfold h_NewRealIdentityMatrix. eapply keeps_bind; [apply k_NewDim|]. intros m h1 Hl Hm. eapply keeps_bind with (P := any).
  - apply keeps_for. intros i s h2 Hl2. apply km_SetEntry. eapply isnewM_mono; eauto.
  - intros a h2 Hl2 _. apply keeps_ret. intros h3 Hl3. eapply isnewM_mono; [|eauto]. eapply hle_trans; eauto.
Qed.
Lemma k_row_sub h0 hm n r c l : isnewF h0 hm r -> keeps h0 hm (hrow_sub n r c l) any.
Proof. intros. unfold hrow_sub. kd. Qed.
Lemma k_row_div h0 hm n r l : isnewF h0 hm r -> keeps h0 hm (hrow_div n r l) any.
Proof. intros. unfold hrow_div. kd. Qed.
Ltac ks := repeat first [apply kv_ToArray | apply km_At | apply km_cols | apply km_Data | apply k2_copyIn | apply k_make2 | apply kb_create |
  apply k_row_sub; auto; fail | apply k_row_div; auto; fail | apply k_newM | kd1].
Lemma klus_SolveVector h0 hm s b : keeps h0 hm (hlus_SolveVector s b) (isnewF h0).
Proof. unfold hlus_SolveVector. ks. Qed.
Lemma kchs_SolveVector h0 hm s b : keeps h0 hm (hchs_SolveVector s b) (isnewF h0).
Proof. unfold hchs_SolveVector. ks. Qed.
Lemma k_checkSingular h0 hm d mn r : keeps h0 hm (h_checkSingular d mn r) any.
Proof. unfold h_checkSingular. ks. Qed.
Lemma kqrs_SolveVector h0 hm s t b : keeps h0 hm (hqrs_SolveVector s t b) (isnewF h0).
Proof. unfold hqrs_SolveVector. repeat first [apply k_checkSingular | apply kv_ToArray | kd1]. Qed.
Lemma klus_SolveMatrix h0 hm s x : keeps h0 hm (hlus_SolveMatrix s x) (isnewM h0).
Proof. unfold hlus_SolveMatrix. ks. Qed.
Lemma kchs_SolveMatrix h0 hm s x : keeps h0 hm (hchs_SolveMatrix s x) (isnewM h0).
Proof. unfold hchs_SolveMatrix. ks. Qed.
Lemma k_CopySub h0 hm x a b c e d : isnewS h0 hm d -> keeps h0 hm (h_CopySubMatrix x a b c e d) any.
Proof. intros. unfold h_CopySubMatrix. ks. Qed.
Lemma kqrs_forward h0 hm s m n k y al : isnewS h0 hm y -> isnewF h0 hm al -> keeps h0 hm (hqrs_forward s m n k y al) any.
Proof. intros. unfold hqrs_forward. ks. Qed.
Lemma kqrs_backward h0 hm s c n k y xb : isnewS h0 hm y -> isnewS h0 hm xb -> keeps h0 hm (hqrs_backward s c n k y xb) any.
Proof. intros. unfold hqrs_backward. ks. Qed.
Lemma kqrs_SolveMatrix h0 hm s t x : keeps h0 hm (hqrs_SolveMatrix s t x) (isnewM h0).
Proof.
  unfold hqrs_SolveMatrix.
  repeat first [apply k_checkSingular | apply k_CopySub; auto; fail | apply kqrs_forward; auto; fail | apply kqrs_backward; auto; fail |
    apply keeps_mpan, kb_FromBlockData; auto; fail | apply km_cols | apply k_make2 | apply kb_create | kd1].
Qed.
Lemma lus_Inverse_k h0 hm s : keeps h0 hm (hlus_Inverse s) (isnewM h0).
Proof. unfold hlus_Inverse. eapply keeps_bind; [apply keeps_mpan, k_Identity|]. intros. apply klus_SolveMatrix. Qed.
Lemma chs_Inverse_k h0 hm s : keeps h0 hm (hchs_Inverse s) (isnewM h0).
Proof. unfold hchs_Inverse. eapply keeps_bind; [apply keeps_mpan, k_Identity|]. intros. apply kchs_SolveMatrix. Qed.
Lemma qrs_Inverse_k h0 hm s t : keeps h0 hm (hqrs_Inverse s t) (isnewM h0).
Proof.
  unfold hqrs_Inverse. eapply keeps_bind; [apply keeps_rdS_any|]. intros r h1 _ _.
  eapply keeps_bind; [apply keeps_mpan, k_Identity|]. intros. apply kqrs_SolveMatrix.
Qed.
Lemma sepV (m : M slice) : (forall h0 hm, keeps h0 hm m (isnewF h0)) -> separate m OF.
Proof. intros H. apply keeps_separate. intros. apply H. Qed.
Lemma sepM (m : M HMat) : (forall h0 hm, keeps h0 hm m (isnewM h0)) -> separate m hm_obj.
Proof. intros H. apply keeps_separate. intros. eapply keeps_imp; [|apply H]. intros h [?|?|?]; cbn; auto. Qed.
Lemma solve_vector_separate s t q thr b :
  separate (hlus_SolveVector s b) OF /\ separate (hchs_SolveVector t b) OF /\ separate (hqrs_SolveVector q thr b) OF.
Proof. split; [|split]; apply sepV; intros; [apply klus_SolveVector|apply kchs_SolveVector|apply kqrs_SolveVector]. Qed.
Lemma solve_matrix_separate s t q thr b :
  separate (hlus_SolveMatrix s b) hm_obj /\ separate (hchs_SolveMatrix t b) hm_obj /\ separate (hqrs_SolveMatrix q thr b) hm_obj.
Proof. split; [|split]; apply sepM; intros; [apply klus_SolveMatrix|apply kchs_SolveMatrix|apply kqrs_SolveMatrix]. Qed.
Lemma inverse_separate s t q thr :
  separate (hlus_Inverse s) hm_obj /\ separate (hchs_Inverse t) hm_obj /\ separate (hqrs_Inverse q thr) hm_obj.
Proof. split; [|split]; apply sepM; intros; [apply lus_Inverse_k|apply chs_Inverse_k|apply qrs_Inverse_k]. Qed.
End HeapSolveFacts.

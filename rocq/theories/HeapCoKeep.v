(** The programs of HeapCoCode.v write only to storage they made. *)
From Coq Require Import ZArith List Lia Bool.
From Verif Require Import Base BaseLemmas Scalar Vector Matrix Heap HeapDec HeapSolve HeapSpec HeapFacts HeapIndep HeapDecFacts
  HeapCo HeapCoCode HeapCoFacts.
Import ListNotations.
Open Scope Z_scope.

Ltac cksub lem := first [apply lem; auto; fail | eapply careful_any; apply lem; auto; fail].
Ltac ckp1 :=
  match goal with
  | |- careful _ _ (if ?b then _ else _) _ => destruct b
  | |- careful _ _ (let '(_, _) := ?p in _) _ => destruct p
  | |- careful _ _ (match ?v with HArr _ => _ | HOther _ => _ end) _ => destruct v
  | |- careful _ _ (Done _) _ => apply careful_done
  | |- careful _ _ (pret _) _ =>
      apply careful_ret; let h := fresh "h" in let Hl := fresh "Hl" in intros h Hl; klift Hl; first [exact I|auto; fail]
  | |- careful _ _ (ppanic _) _ => apply careful_panic
  | |- careful _ _ (perr _) _ => apply careful_err
  | |- careful _ _ (ppan _) _ => apply careful_pan
  | |- careful _ _ (pnewF _) _ => cksub @careful_newF
  | |- careful _ _ (pmakeF _) _ => cksub @careful_makeF
  | |- careful _ _ (pmakeS _) _ => cksub @careful_makeS
  | |- careful _ _ (pappendF _) _ => cksub @careful_appendF
  | |- careful _ _ (prdF _ _) _ => apply careful_rdF
  | H : isnewS ?h0 ?h ?s |- careful ?h0 ?h (prdS ?s _) _ => apply careful_rdS; exact H
  | H : isnewB ?h0 ?h ?b |- careful ?h0 ?h (prdS (hb_blocks ?b) _) _ => apply careful_rdS; exact H
  | |- careful _ _ (prdS _ _) _ => apply careful_rdS_any
  | |- careful _ _ (pwrF _ _ _) _ => apply careful_wrF; auto; fail
  | |- careful _ _ (pwrS _ _ _) _ => apply careful_wrS; auto; fail
  | H : isnewF ?h0 ?h ?s |- careful ?h0 ?h (preslice ?s _ _) _ => apply careful_reslice; exact H
  | |- careful _ _ (preslice _ _ _) _ => apply careful_reslice_any
  | |- careful _ _ (pgocopy _ _) _ => apply careful_gocopy; auto; fail
  | |- careful _ _ (pfor _ _ _ _) _ =>
      apply careful_for; let i := fresh "i" in let s := fresh "s" in let h := fresh "h" in let Hl := fresh "Hl" in
      intros i s h Hl; klift Hl
  | |- careful _ _ (pbind _ _) _ =>
      eapply careful_bind; [|let a := fresh "a" in let h := fresh "h" in let Hl := fresh "Hl" in
        intros a h Hl ?; klift Hl]
  end.
Ltac ckp := repeat ckp1.
Section S1.
Context {O : Ops}.
Implicit Types (s a d : slice) (v : HVec) (b : HBlk).
Lemma ck_hcheck h0 hm s i : careful h0 hm (p_hcheck s i) any.
Proof. unfold p_hcheck. ckp. Qed.
Lemma ck_At h0 hm v i : careful h0 hm (p_hv_At v i) any.
Proof. unfold p_hv_At. ckp. Qed.
Lemma ck_copyrange h0 hm d i j s k l : isnewF h0 hm d -> careful h0 hm (p_copyrange d i j s k l) any.
Proof. intros. unfold p_copyrange. ckp. Qed.
Lemma ck_rd2 h0 hm a i j : careful h0 hm (p_rd2 a i j) any.
Proof. unfold p_rd2. ckp. Qed.
Lemma ck_wr2 h0 hm a i j x : isnewS h0 hm a -> careful h0 hm (p_wr2 a i j x) any.
Proof. intros. unfold p_wr2. ckp. Qed.
End S1.
Ltac ckq1 :=
  match goal with
  | |- careful _ _ (p_hcheck _ _) _ => apply ck_hcheck
  | |- careful _ _ (p_hv_At _ _) _ => apply ck_At
  | |- careful _ _ (p_copyrange _ _ _ _ _ _) _ => apply ck_copyrange; auto; fail
  | |- careful _ _ (p_rd2 _ _ _) _ => apply ck_rd2
  | |- careful _ _ (p_wr2 _ _ _ _) _ => apply ck_wr2; auto; fail
  | _ => ckp1
  end.
Ltac ckq := repeat ckq1.
Section S2.
Context {O : Ops}.
Implicit Types (s a d : slice) (v : HVec) (b : HBlk).
Lemma ck_NewCopy h0 hm v : careful h0 hm (p_h_NewArrayRealVectorCopy v) (isnewF h0).
Proof. unfold p_h_NewArrayRealVectorCopy. ckq. Qed.
Lemma ck_FromSlice h0 hm s : careful h0 hm (p_h_NewArrayRealVectorFromSlice s) (isnewF h0).
Proof. unfold p_h_NewArrayRealVectorFromSlice. ckq. Qed.
Lemma ck_NewVector h0 hm s : careful h0 hm (p_h_NewArrayRealVector s true) (isnewF h0).
Proof. apply ck_FromSlice. Qed.
Lemma ck_SubVector h0 hm s i n : careful h0 hm (p_h_SubVector s i n) (isnewF h0).
Proof. unfold p_h_SubVector. ckq. Qed.
Lemma ck_FromTwo h0 hm s1 s2 : careful h0 hm (p_h_FromTwo s1 s2) (isnewF h0).
Proof. unfold p_h_FromTwo. ckq. Qed.
Lemma ck_Append h0 hm s x : careful h0 hm (p_h_Append s x) (isnewF h0).
Proof. unfold p_h_Append, p_h_NewArrayRealVector. cbn iota. ckq. Qed.
Lemma ck_Add h0 hm s v : careful h0 hm (p_h_Add s v) (isnewF h0).
Proof. unfold p_h_Add. ckq. Qed.
Lemma ck2_cols h0 hm a : careful h0 hm (p_h2_cols a) any.
Proof. unfold p_h2_cols. ckq. Qed.
Lemma ck2_ckrow h0 hm a i : careful h0 hm (p_h2_ckrow a i) any.
Proof. unfold p_h2_ckrow. ckq. Qed.
Lemma ck2_ckcol h0 hm a i : careful h0 hm (p_h2_ckcol a i) any.
Proof. unfold p_h2_ckcol. repeat (ckq1 || apply ck2_cols). Qed.
Lemma ck_make2 h0 hm r c : careful h0 hm (p_h_make2 r c) (isnewS h0).
Proof. unfold p_h_make2. ckq. Qed.
Lemma ck2_New h0 hm r c : careful h0 hm (p_h2_New r c) (isnewS h0).
Proof. unfold p_h2_New. repeat (ckq1 || apply ck_make2). Qed.
Lemma ck2_copyIn h0 hm a : careful h0 hm (p_h2_copyIn a) (isnewS h0).
Proof. unfold p_h2_copyIn, p_h2_SetSubMatrix. change (isnil nilsl) with true. cbn iota. ckq. Qed.
Lemma ck2_copyOut h0 hm a : careful h0 hm (p_h2_copyOut a) (isnewS h0).
Proof. unfold p_h2_copyOut. repeat (ckq1 || apply ck2_cols). Qed.
Lemma ck2_Copy h0 hm a : careful h0 hm (p_h2_Copy a) (isnewS h0).
Proof. unfold p_h2_Copy. repeat (ckq1 || apply ck2_copyOut || apply ck2_copyIn). Qed.
Lemma ck2_FromSlices h0 hm a : careful h0 hm (p_h2_FromSlices a true) (isnewS h0).
Proof. apply ck2_copyIn. Qed.
Lemma ck2_ColumnAt h0 hm a j : careful h0 hm (p_h2_ColumnAt a j) (isnewF h0).
Proof. unfold p_h2_ColumnAt. repeat (ckq1 || apply ck2_ckcol). Qed.
Lemma ck2_RowAt h0 hm a j : careful h0 hm (p_h2_RowAt a j) (isnewF h0).
Proof. unfold p_h2_RowAt. repeat (ckq1 || apply ck2_ckrow || apply ck2_cols). Qed.
Lemma ck2_ColumnVectorAt h0 hm a j : careful h0 hm (p_h2_ColumnVectorAt a j) (isnewF h0).
Proof. unfold p_h2_ColumnVectorAt. repeat (ckq1 || apply ck2_ColumnAt). Qed.
Lemma ck2_RowVectorAt h0 hm a j : careful h0 hm (p_h2_RowVectorAt a j) (isnewF h0).
Proof. unfold p_h2_RowVectorAt. repeat (ckq1 || apply ck2_RowAt). Qed.
Lemma ck2_SubMatrix h0 hm a r0 r1 c0 c1 : careful h0 hm (p_h2_SubMatrix a r0 r1 c0 c1) (isnewS h0).
Proof.
  unfold p_h2_SubMatrix.
  repeat (ckq1 || apply ck2_ckrow || apply ck2_ckcol).
Qed.
Lemma ck2_RowMatrixAt h0 hm a j : careful h0 hm (p_h2_RowMatrixAt a j) (isnewS h0).
Proof. unfold p_h2_RowMatrixAt. repeat (ckq1 || apply ck2_ckrow || apply ck2_ckcol || apply ck2_cols || apply ck2_New). Qed.
Lemma ck2_ColumnMatrixAt h0 hm a j : careful h0 hm (p_h2_ColumnMatrixAt a j) (isnewS h0).
Proof. unfold p_h2_ColumnMatrixAt. repeat (ckq1 || apply ck2_ckrow || apply ck2_ckcol || apply ck2_cols || apply ck2_New). Qed.
Lemma ck2_Transpose h0 hm a : careful h0 hm (p_h2_Transpose a) (isnewS h0).
Proof. unfold p_h2_Transpose. repeat (ckq1 || apply ck2_cols). Qed.
Lemma ckd_Copy h0 hm s : careful h0 hm (p_hd_Copy s) (isnewF h0).
Proof. unfold p_hd_Copy. ckq. Qed.
Lemma ckd_Data h0 hm s : careful h0 hm (p_hd_Data s) (isnewS h0).
Proof. unfold p_hd_Data. ckq. Qed.
Lemma ckd_At h0 hm s i j : careful h0 hm (p_hd_At s i j) any.
Proof. unfold p_hd_At. ckq. Qed.
Lemma ckd_ColumnAt h0 hm s j : careful h0 hm (p_hd_ColumnAt s j) (isnewF h0).
Proof. unfold p_hd_ColumnAt. repeat (ckq1 || apply ckd_At). Qed.
Lemma ckd_RowAt h0 hm s j : careful h0 hm (p_hd_RowAt s j) (isnewF h0).
Proof. unfold p_hd_RowAt. repeat (ckq1 || apply ckd_At). Qed.
Lemma ckb_create h0 hm r c : careful h0 hm (p_hb_create r c) (isnewS h0).
Proof. unfold p_hb_create. ckq. Qed.
Lemma ckb_New h0 hm r c : careful h0 hm (p_hb_New r c) (isnewB h0).
Proof. unfold p_hb_New. repeat (ckq1 || apply ckb_create). Qed.
Lemma ckb_FromBlockData h0 hm r c s : isnewS h0 hm s -> careful h0 hm (p_hb_FromBlockData r c s) (isnewB h0).
Proof. intros. unfold p_hb_FromBlockData. ckq. Qed.
Lemma ckb_toBlocks h0 hm s : careful h0 hm (p_hb_toBlocks s) (isnewS h0).
Proof. unfold p_hb_toBlocks. ckq. Qed.
Lemma ckb_FromSlices h0 hm s : careful h0 hm (p_hb_FromSlices s) (isnewB h0).
Proof. unfold p_hb_FromSlices. repeat (ckq1 || apply ckb_toBlocks || (apply ckb_FromBlockData; auto)). Qed.
Lemma ckb_Copy h0 hm b : careful h0 hm (p_hb_Copy b) (isnewB h0).
Proof. unfold p_hb_Copy. repeat (ckq1 || apply ckb_create). Qed.
Lemma ckb_Data h0 hm b : careful h0 hm (p_hb_Data b) (isnewS h0).
Proof. unfold p_hb_Data. ckq. Qed.
Lemma ckb_ckrow h0 hm b i : careful h0 hm (p_hb_ckrow b i) any.
Proof. unfold p_hb_ckrow. ckq. Qed.
Lemma ckb_ckcol h0 hm b i : careful h0 hm (p_hb_ckcol b i) any.
Proof. unfold p_hb_ckcol. ckq. Qed.
Lemma ckb_RowAt h0 hm b i : careful h0 hm (p_hb_RowAt b i) (isnewF h0).
Proof. unfold p_hb_RowAt. repeat (ckq1 || apply ckb_ckrow). Qed.
Lemma ckb_ColumnAt h0 hm b i : careful h0 hm (p_hb_ColumnAt b i) (isnewF h0).
Proof. unfold p_hb_ColumnAt. repeat (ckq1 || apply ckb_ckcol). Qed.
Lemma ckb_part h0 hm s (sw a0 a1 b0 b1 : Z) d (dw dr dc : Z) : isnewF h0 hm d ->
  careful h0 hm (p_hb_part s sw a0 a1 b0 b1 d dw dr dc) any.
Proof. intros. unfold p_hb_part. ckq. Qed.
Lemma ckb_SubMatrix h0 hm b r0 r1 c0 c1 : careful h0 hm (p_hb_SubMatrix b r0 r1 c0 c1) (isnewB h0).
Proof.
  unfold p_hb_SubMatrix.
  repeat (ckq1 || apply ckb_ckrow || apply ckb_ckcol || apply ckb_New || (apply ckb_part; auto) ||
    match goal with H : isnewB _ ?o |- careful _ _ (prdS (hb_blocks ?o) _) _ => apply careful_rdS; exact H end).
Qed.
End S2.
Section S3.
Context {O : Ops}.
Implicit Types (x : HMat).
Lemma ck_modF h0 hm s i g : isnewF h0 hm s -> careful h0 hm (p_modF s i g) any.
Proof. intros. unfold p_modF. ckq. Qed.
End S3.
Ltac ckd1 :=
  match goal with
  | |- careful ?h0 ?h (pret ?x) ?P => is_evar P; apply (careful_ret h0 h x any); intros; exact I
  | |- careful _ _ (pdown _ _ _ _) _ => unfold pdown
  | |- careful _ _ (Done _) _ => apply careful_done
  | |- careful _ _ (p_modF _ _ _) _ => apply ck_modF; auto; fail
  | |- careful _ _ (pfor_brk _ _ _ _) _ =>
      apply careful_brk; let i := fresh "i" in let s := fresh "s" in let h := fresh "h" in let Hl := fresh "Hl" in
      intros i s h Hl; klift Hl
  | |- careful _ _ (pwhile _ _ _ _) _ =>
      apply careful_while; let s := fresh "s" in let h := fresh "h" in let Hl := fresh "Hl" in intros s h Hl; klift Hl
  | _ => ckq1
  end.
Ltac ckd := repeat ckd1.
Section S4.
Context {O : Ops}.
Implicit Types (x : HMat).
Lemma ckm_cols h0 hm x : careful h0 hm (p_hm_cols x) any.
Proof. destruct x; cbn; [apply ck2_cols|ckd..]. Qed.
Lemma ckm_Data h0 hm x : careful h0 hm (p_hm_Data x) (isnewS h0).
Proof. destruct x; cbn; [apply ck2_copyOut|apply ckd_Data|apply ckb_Data]. Qed.
Lemma ckm_IsSquare h0 hm x : careful h0 hm (p_hm_IsSquare x) any.
Proof. unfold p_hm_IsSquare. eapply careful_bind; [apply ckm_cols|]. intros. ckd. Qed.
Lemma ckd_SetEntry h0 hm d i j v : isnewF h0 hm d -> careful h0 hm (p_hd_SetEntry d i j v) any.
Proof. intros. unfold p_hd_SetEntry. ckd. Qed.
Lemma ckd_Transpose h0 hm d : careful h0 hm (p_hd_Transpose d) (isnewF h0).
Proof.
  unfold p_hd_Transpose. eapply careful_bind; [apply careful_makeF|]. intros c h1 Hl Hc. eapply careful_bind with (P := any).
  - ckd. apply ckd_At. unfold p_hd_SetEntry. ckd.
  - intros a h2 Hl2 _. klift Hl2. ckd.
Qed.
Lemma ckb_Transpose h0 hm b : careful h0 hm (p_hb_Transpose b) (isnewB h0).
Proof.
  unfold p_hb_Transpose. eapply careful_bind; [apply ckb_create|]. intros c h1 Hl Hc. ckd.
Qed.
Lemma ckm_Transpose h0 hm x : careful h0 hm (p_hm_Transpose x) (isnewM h0).
Proof.
  destruct x; cbn.
  - eapply careful_bind; [apply ck2_Transpose|]. intros. apply careful_ret. intros h' Hl. cbn. eapply isnewS_mono; eauto.
  - eapply careful_bind; [apply ckd_Transpose|]. intros. apply careful_ret. intros h' Hl. cbn. eapply isnewF_mono; eauto.
  - eapply careful_bind; [apply ckb_Transpose|]. intros. apply careful_ret. intros h' Hl. cbn. eapply isnewB_mono; eauto.
Qed.
Lemma cklu_reduce h0 hm lu row col n : isnewS h0 hm lu -> careful h0 hm (p_hlu_reduce lu row col n) any.
Proof. intros. unfold p_hlu_reduce. ckd. Qed.
Lemma cklu_swap h0 hm m mx col lu pv : isnewS h0 hm lu -> careful h0 hm (p_hlu_swap m mx col lu pv) any.
Proof. intros. unfold p_hlu_swap. ckd. Qed.
Lemma cklu_column h0 hm m thr lu col s : isnewS h0 hm lu -> careful h0 hm (p_hlu_column m thr lu col s) any.
Proof.
  intros. destruct s as [pv ev]. unfold p_hlu_column, p_hlu_upper, p_hlu_lower, p_hlu_divide.
  repeat first [apply cklu_reduce; auto; fail | apply cklu_swap; auto; fail | ckd1].
Qed.
Lemma ckNewLU h0 hm x thr : careful h0 hm (p_h_NewLU x thr) (fun h d => isnewS h0 h (hlu_lu d)).
Proof.
  unfold p_h_NewLU. repeat first [apply cklu_column; auto; fail | apply ckm_IsSquare | apply ckm_cols | apply ckm_Data | ckd1].
Qed.
Lemma ckNewCholesky h0 hm x rel pos : careful h0 hm (p_h_NewCholesky x rel pos) (isnewS h0).
Proof.
  unfold p_h_NewCholesky, p_hch_check, p_hch_step.
  repeat first [apply ckm_IsSquare | apply ckm_cols | apply ckm_Data | ckd1].
Qed.
Lemma ckNewQR h0 hm x : careful h0 hm (p_h_NewQR x) (fun h d => isnewS h0 h (hqr_qrt d) /\ isnewF h0 h (hqr_rDiag d)).
Proof.
  unfold p_h_NewQR, p_hqr_reflect.
  repeat first [apply ckm_Transpose | apply ckm_cols | apply ckm_Data | ckd1].
Qed.
Lemma ckNewHessenberg h0 hm x : careful h0 hm (p_h_NewHessenberg x) (fun h d => isnewS h0 h (hhs_hv d) /\ isnewF h0 h (hhs_ort d)).
Proof.
  unfold p_h_NewHessenberg, p_hhs_step.
  repeat first [apply ckm_IsSquare | apply ckm_cols | apply ckm_Data | ckd1].
Qed.
Lemma ck_FromSlicesM h0 hm s : careful h0 hm (p_h_NewRealMatrixFromSlices s) (isnewM h0).
Proof.
  unfold p_h_NewRealMatrixFromSlices. destruct (isnil s); [ckd|]. eapply careful_bind; [apply careful_rdS_any|].
  intros row0 h1 Hl _. destruct (isnil row0); [ckd|]. destruct (_ <=? _).
  - eapply careful_bind; [apply ck2_FromSlices|]. intros. apply careful_ret. intros. eapply isnewS_mono; eauto.
  - eapply careful_bind; [apply ckb_FromSlices|]. intros. apply careful_ret. intros. eapply isnewB_mono; eauto.
Qed.
Lemma ckqr_reflect h0 hm q d k u : isnewS h0 hm q -> isnewF h0 hm d -> careful h0 hm (p_hqr_reflect q d k u) any.
Proof. intros. unfold p_hqr_reflect. ckd. Qed.
Lemma ckrr_reflect h0 hm q d k p : isnewS h0 hm q -> isnewF h0 hm d -> careful h0 hm (p_hrr_reflect q d k p) any.
Proof. intros. unfold p_hrr_reflect. repeat first [apply ckqr_reflect; auto; fail | ckd1]. Qed.
Lemma ckNewRRQR h0 hm x : careful h0 hm (p_h_NewRRQR x) (fun h d => isnewS h0 h (hrr_qrt d) /\ isnewF h0 h (hrr_rDiag d)).
Proof.
  unfold p_h_NewRRQR.
  repeat first [apply ckrr_reflect; auto; fail | apply ckm_Transpose | apply ckm_cols | apply ckm_Data | ckd1].
Qed.
Lemma ckNewTriDiagonal h0 hm x : careful h0 hm (p_h_NewTriDiagonal x) (isnewT h0).
Proof.
  unfold p_h_NewTriDiagonal, p_htd_step, isnewT.
  repeat first [apply ckm_IsSquare | apply ckm_cols | apply ckm_Data | ckd1].
Qed.
Lemma ckbd_columns h0 hm hv k lo m from n a v0 : isnewS h0 hm hv -> (forall h, careful h0 h v0 any) -> careful h0 hm (p_hbd_columns hv k lo m from n a v0) any.
Proof. intros. unfold p_hbd_columns. ckd; auto. Qed.
Lemma ckbd_rows h0 hm hv hK lo m from n a v0 : isnewS h0 hm hv -> (forall h, careful h0 h v0 any) -> careful h0 hm (p_hbd_rows hv hK lo m from n a v0) any.
Proof. intros. unfold p_hbd_rows. ckd; auto. Qed.
Lemma ckbd_upper h0 hm hv mn sec m n k u : isnewS h0 hm hv -> isnewF h0 hm mn -> isnewF h0 hm sec -> careful h0 hm (p_hbd_upper hv mn sec m n k u) any.
Proof.
  intros. unfold p_hbd_upper.
  repeat first [apply ckbd_columns; [assumption|intros; ckd] | apply ckbd_rows; [assumption|intros; ckd] | ckd1].
Qed.
Lemma ckbd_lower h0 hm hv mn sec m n k u : isnewS h0 hm hv -> isnewF h0 hm mn -> isnewF h0 hm sec -> careful h0 hm (p_hbd_lower hv mn sec m n k u) any.
Proof.
  intros. unfold p_hbd_lower.
  repeat first [apply ckbd_columns; [assumption|intros; ckd] | apply ckbd_rows; [assumption|intros; ckd] | ckd1].
Qed.
Lemma ckNewBiDiagonal h0 hm x : careful h0 hm (p_h_NewBiDiagonal x) (isnewT h0).
Proof.
  unfold p_h_NewBiDiagonal, isnewT.
  repeat first [apply ckbd_upper; auto; fail | apply ckbd_lower; auto; fail | apply ckm_cols | apply ckm_Data | ckd1].
Qed.
Lemma ckrc_turn h0 hm order small b c r s : isnewS h0 hm b -> isnewS h0 hm c -> careful h0 hm (p_hrc_turn order small b c r s) any.
Proof. intros. destruct s. unfold p_hrc_turn. ckd. Qed.
Lemma ck_NewDim h0 hm r c : careful h0 hm (p_h_NewRealMatrixWithDimension r c) (isnewM h0).
Proof.
  unfold p_h_NewRealMatrixWithDimension. destruct (_ <=? _).
  - eapply careful_bind; [apply ck2_New|]. intros. apply careful_ret. intros. eapply isnewS_mono; eauto.
  - eapply careful_bind; [apply ckb_New|]. intros. apply careful_ret. intros. eapply isnewB_mono; eauto.
Qed.
Lemma ckm_SetEntry h0 hm x i j v : isnewM h0 hm x -> careful h0 hm (p_hm_SetEntry x i j v) any.
Proof.
  destruct x; cbn; intros H.
  - unfold p_h2_SetEntry, p_h2_ck, p_h2_ckrow, p_h2_ckcol, p_h2_cols. ckd.
  - apply ckd_SetEntry; auto.
  - unfold p_hb_SetEntry, p_hb_ckrow, p_hb_ckcol. ckd.
Qed.
Lemma ckNewRectChol h0 hm x small : careful h0 hm (p_h_NewRectChol x small) (isnewM h0).
Proof.
  unfold p_h_NewRectChol. eapply careful_bind; [apply ckm_Data|]. intros c h1 Hl1 Hc.
  eapply careful_bind; [apply ck_make2|]. intros b h2 Hl2 Hb. klift Hl2.
  eapply careful_bind; [apply careful_done|]. intros idx h3 Hl3 _. klift Hl3.
  eapply careful_bind; [apply careful_brk; intros i s h Hl; klift Hl; apply ckrc_turn; auto|].
  intros [f [index r]] h4 Hl4 _. klift Hl4. cbn [snd].
  eapply careful_bind; [apply ck_NewDim|]. intros root h5 Hl5 Hr.
  eapply careful_bind with (P := any); [|intros ? h6 Hl6 _; apply careful_ret; intros; eapply isnewM_mono; [|eauto]; eapply hle_trans; eauto].
  apply careful_for. intros i s h6 Hl6. apply careful_for. intros j s' h7 Hl7.
  eapply careful_bind; [apply careful_done|]. intros ii h8 Hl8 _.
  eapply careful_bind; [apply ck_rd2|]. intros v h9 Hl9 _. apply ckm_SetEntry.
  eapply isnewM_mono; [|eauto]. eapply hle_trans; [|eauto]. eapply hle_trans; [|eauto]. eapply hle_trans; eauto.
Qed.
End S4.
Section S5.
Context {O : Ops}.
Implicit Types (x : HMat).
Lemma ckm_At h0 hm x i j : careful h0 hm (p_hm_At x i j) any.
Proof.
  destruct x; cbn.
  - unfold p_h2_At, p_h2_ck, p_h2_ckrow, p_h2_ckcol, p_h2_cols. ckd.
  - apply ckd_At.
  - unfold p_hb_At, p_hb_ckrow, p_hb_ckcol. ckd.
Qed.
Lemma ckv_At h0 hm v i : careful h0 hm (p_hv_At v i) any.
Proof. apply ck_At. Qed.
Lemma ckv_ToArray h0 hm v : careful h0 hm (p_hv_ToArray v) (isnewF h0).
Proof. destruct v; cbn; ckd. Qed.
Lemma ck_newM h0 hm (m : prog slice) : careful h0 hm m (isnewS h0) -> careful h0 hm (pbind m (fun a => pret (HA a))) (isnewM h0).
Proof. intros H. eapply careful_bind; [exact H|]. intros. apply careful_ret. intros h' Hl. cbn. eapply isnewS_mono; eauto. Qed.
Lemma ck_Identity h0 hm n : careful h0 hm (p_h_NewRealIdentityMatrix n) (isnewM h0).
Proof.
  unfold p_h_NewRealIdentityMatrix. eapply careful_bind; [apply ck_NewDim|]. intros m h1 Hl Hm. eapply careful_bind with (P := any).
  - apply careful_for. intros i s h2 Hl2. apply ckm_SetEntry. eapply isnewM_mono; eauto.
  - intros a h2 Hl2 _. apply careful_ret. intros h3 Hl3. eapply isnewM_mono; [|eauto]. eapply hle_trans; eauto.
Qed.
Lemma ck_row_sub h0 hm n r c l : isnewF h0 hm r -> careful h0 hm (p_hrow_sub n r c l) any.
Proof. intros. unfold p_hrow_sub. ckd. Qed.
Lemma ck_row_div h0 hm n r l : isnewF h0 hm r -> careful h0 hm (p_hrow_div n r l) any.
Proof. intros. unfold p_hrow_div. ckd. Qed.
Ltac cks := repeat first [apply ckv_ToArray | apply ckm_At | apply ckm_cols | apply ckm_Data | apply ck2_copyIn | apply ck_make2 | apply ckb_create |
  apply ck_row_sub; auto; fail | apply ck_row_div; auto; fail | apply ck_newM | ckd1].
Lemma cklus_SolveVector h0 hm s b : careful h0 hm (p_hlus_SolveVector s b) (isnewF h0).
Proof. unfold p_hlus_SolveVector. cks. Qed.
Lemma ckchs_SolveVector h0 hm s b : careful h0 hm (p_hchs_SolveVector s b) (isnewF h0).
Proof. unfold p_hchs_SolveVector. cks. Qed.
Lemma ck_checkSingular h0 hm d mn r : careful h0 hm (p_h_checkSingular d mn r) any.
Proof. unfold p_h_checkSingular. cks. Qed.
Lemma ckqrs_SolveVector h0 hm s t b : careful h0 hm (p_hqrs_SolveVector s t b) (isnewF h0).
Proof. unfold p_hqrs_SolveVector. repeat first [apply ck_checkSingular | apply ckv_ToArray | ckd1]. Qed.
Lemma cklus_SolveMatrix h0 hm s x : careful h0 hm (p_hlus_SolveMatrix s x) (isnewM h0).
Proof. unfold p_hlus_SolveMatrix. cks. Qed.
Lemma ckchs_SolveMatrix h0 hm s x : careful h0 hm (p_hchs_SolveMatrix s x) (isnewM h0).
Proof. unfold p_hchs_SolveMatrix. cks. Qed.
Lemma ck_CopySub h0 hm x a b c e d : isnewS h0 hm d -> careful h0 hm (p_h_CopySubMatrix x a b c e d) any.
Proof. intros. unfold p_h_CopySubMatrix. cks. Qed.
Lemma ckqrs_forward h0 hm s m n k y al : isnewS h0 hm y -> isnewF h0 hm al -> careful h0 hm (p_hqrs_forward s m n k y al) any.
Proof. intros. unfold p_hqrs_forward. cks. Qed.
Lemma ckqrs_backward h0 hm s c n k y xb : isnewS h0 hm y -> isnewS h0 hm xb -> careful h0 hm (p_hqrs_backward s c n k y xb) any.
Proof. intros. unfold p_hqrs_backward. cks. Qed.
Lemma ckqrs_SolveMatrix h0 hm s t x : careful h0 hm (p_hqrs_SolveMatrix s t x) (isnewM h0).
Proof.
  unfold p_hqrs_SolveMatrix.
  repeat first [apply ck_checkSingular | apply ck_CopySub; auto; fail | apply ckqrs_forward; auto; fail | apply ckqrs_backward; auto; fail |
    apply careful_pan, ckb_FromBlockData; auto; fail | apply ckm_cols | apply ck_make2 | apply ckb_create | ckd1].
Qed.
Lemma clus_Inverse_k h0 hm s : careful h0 hm (p_hlus_Inverse s) (isnewM h0).
Proof. unfold p_hlus_Inverse. eapply careful_bind; [apply careful_pan, ck_Identity|]. intros. apply cklus_SolveMatrix. Qed.
Lemma cchs_Inverse_k h0 hm s : careful h0 hm (p_hchs_Inverse s) (isnewM h0).
Proof. unfold p_hchs_Inverse. eapply careful_bind; [apply careful_pan, ck_Identity|]. intros. apply ckchs_SolveMatrix. Qed.
Lemma cqrs_Inverse_k h0 hm s t : careful h0 hm (p_hqrs_Inverse s t) (isnewM h0).
Proof.
  unfold p_hqrs_Inverse. eapply careful_bind; [apply careful_rdS_any|]. intros r h1 _ _.
  eapply careful_bind; [apply careful_pan, ck_Identity|]. intros. apply ckqrs_SolveMatrix.
Qed.
Ltac cka := repeat first [apply ckv_ToArray | apply ck_At | apply ckm_At | apply ckm_cols | apply ck2_cols | apply ckd_At | apply ck2_copyIn | apply ck_newM |
  apply ckd_SetEntry; auto; fail | ckd1].
Lemma cka_h_ckAdd h0 hm (a : HMat) (m : HMat) : careful h0 hm (p_h_ckAdd a m) any.
Proof. unfold p_h_ckAdd. cka. Qed.
Lemma cka_h_ckMul h0 hm (a : HMat) (m : HMat) : careful h0 hm (p_h_ckMul a m) any.
Proof. unfold p_h_ckMul. cka. Qed.
Lemma cka_h2_Add h0 hm (a : slice) (m : HMat) : careful h0 hm (p_h2_Add a m) (isnewS h0).
Proof. unfold p_h2_Add. destruct m; repeat first [apply cka_h_ckAdd | apply ck_NewVector | apply ckv_ToArray | apply ck_At | apply ckm_At | apply ckm_cols | apply ck2_cols | apply ckd_At | apply ck2_copyIn | apply ckd_SetEntry; auto; fail | ckd1]. Qed.
Lemma cka_h2_Subtract h0 hm (a : slice) (m : HMat) : careful h0 hm (p_h2_Subtract a m) (isnewS h0).
Proof. unfold p_h2_Subtract. destruct m; repeat first [apply cka_h_ckAdd | apply ck_NewVector | apply ckv_ToArray | apply ck_At | apply ckm_At | apply ckm_cols | apply ck2_cols | apply ckd_At | apply ck2_copyIn | apply ckd_SetEntry; auto; fail | ckd1]. Qed.
Lemma cka_h2_Multiply h0 hm (a : slice) (m : HMat) : careful h0 hm (p_h2_Multiply a m) (isnewS h0).
Proof. unfold p_h2_Multiply. destruct m; repeat first [apply cka_h_ckMul | apply ck_NewVector | apply ckv_ToArray | apply ck_At | apply ckm_At | apply ckm_cols | apply ck2_cols | apply ckd_At | apply ck2_copyIn | apply ckd_SetEntry; auto; fail | ckd1]. Qed.
Lemma cka_h2_ScalarAdd h0 hm (a : slice) (d : F) : careful h0 hm (p_h2_ScalarAdd a d) (isnewS h0).
Proof. unfold p_h2_ScalarAdd. cka. Qed.
Lemma cka_h2_ScalarMultiply h0 hm (a : slice) (d : F) : careful h0 hm (p_h2_ScalarMultiply a d) (isnewS h0).
Proof. unfold p_h2_ScalarMultiply. cka. Qed.
Lemma cka_h2_Trace h0 hm (a : slice) : careful h0 hm (p_h2_Trace a) any.
Proof. unfold p_h2_Trace. cka. Qed.
Lemma cka_h2_Operate h0 hm (a : slice) (v : slice) : careful h0 hm (p_h2_Operate a v) (isnewF h0).
Proof. unfold p_h2_Operate. cka. Qed.
Lemma cka_h2_OperateVector h0 hm (a : slice) (vec : HVec) : careful h0 hm (p_h2_OperateVector a vec) (isnewF h0).
Proof. unfold p_h2_OperateVector. destruct vec; repeat first [apply cka_h2_Operate | apply ck_NewVector | apply ckv_ToArray | apply ck_At | apply ckm_At | apply ckm_cols | apply ck2_cols | apply ckd_At | apply ck2_copyIn | apply ckd_SetEntry; auto; fail | ckd1]. Qed.
Lemma cka_h2_PreMultiply h0 hm (a : slice) (v : slice) : careful h0 hm (p_h2_PreMultiply a v) (isnewF h0).
Proof. unfold p_h2_PreMultiply. cka. Qed.
Lemma cka_h2_PreMultiplyVector h0 hm (a : slice) (vec : HVec) : careful h0 hm (p_h2_PreMultiplyVector a vec) (isnewF h0).
Proof. unfold p_h2_PreMultiplyVector. destruct vec; repeat first [apply cka_h2_PreMultiply | apply ck_NewVector | apply ckv_ToArray | apply ck_At | apply ckm_At | apply ckm_cols | apply ck2_cols | apply ckd_At | apply ck2_copyIn | apply ckd_SetEntry; auto; fail | ckd1]. Qed.
Lemma cka_hd_NewDim h0 hm (dimension : Z) : careful h0 hm (p_hd_NewDim dimension) (isnewF h0).
Proof. unfold p_hd_NewDim. cka. Qed.
Lemma cka_hd_Add h0 hm (d : slice) (m : HMat) : careful h0 hm (p_hd_Add d m) (isnewF h0).
Proof. unfold p_hd_Add. destruct m; repeat first [apply cka_h_ckAdd | apply cka_hd_NewDim | apply ck_NewVector | apply ckv_ToArray | apply ck_At | apply ckm_At | apply ckm_cols | apply ck2_cols | apply ckd_At | apply ck2_copyIn | apply ckd_SetEntry; auto; fail | ckd1]. Qed.
Lemma cka_hd_Subtract h0 hm (d : slice) (m : HMat) : careful h0 hm (p_hd_Subtract d m) (isnewF h0).
Proof. unfold p_hd_Subtract. destruct m; repeat first [apply cka_h_ckAdd | apply cka_hd_NewDim | apply ck_NewVector | apply ckv_ToArray | apply ck_At | apply ckm_At | apply ckm_cols | apply ck2_cols | apply ckd_At | apply ck2_copyIn | apply ckd_SetEntry; auto; fail | ckd1]. Qed.
Lemma cka_hd_MultiplyDiag h0 hm (d : slice) (e : slice) : careful h0 hm (p_hd_MultiplyDiag d e) (isnewF h0).
Proof. unfold p_hd_MultiplyDiag. cka. Qed.
Lemma cka_hd_Multiply h0 hm (d : slice) (m : HMat) : careful h0 hm (p_hd_Multiply d m) (isnewM h0).
Proof. unfold p_hd_Multiply. destruct m; repeat first [apply cka_h_ckMul | apply cka_hd_MultiplyDiag | apply ck_NewVector | apply ckv_ToArray | apply ck_At | apply ckm_At | apply ckm_cols | apply ck2_cols | apply ckd_At | apply ck2_copyIn | apply ckd_SetEntry; auto; fail | ckd1]. Qed.
Lemma cka_hd_Operate h0 hm (d : slice) (v : slice) : careful h0 hm (p_hd_Operate d v) (isnewF h0).
Proof. unfold p_hd_Operate. repeat first [apply cka_h_ckMul | apply cka_hd_MultiplyDiag | apply ck_NewVector | apply ckv_ToArray | apply ck_At | apply ckm_At | apply ckm_cols | apply ck2_cols | apply ckd_At | apply ck2_copyIn | apply ckd_SetEntry; auto; fail | ckd1]. Qed.
Lemma cka_hd_OperateVector h0 hm (d : slice) (vec : HVec) : careful h0 hm (p_hd_OperateVector d vec) (isnewF h0).
Proof. unfold p_hd_OperateVector. destruct vec; repeat first [apply cka_hd_Operate | apply ck_NewVector | apply ckv_ToArray | apply ck_At | apply ckm_At | apply ckm_cols | apply ck2_cols | apply ckd_At | apply ck2_copyIn | apply ckd_SetEntry; auto; fail | ckd1]. Qed.
Lemma cka_hd_PreMultiplyVector h0 hm (d : slice) (vec : HVec) : careful h0 hm (p_hd_PreMultiplyVector d vec) (isnewF h0).
Proof. unfold p_hd_PreMultiplyVector. destruct vec; repeat first [apply cka_hd_Operate | apply ck_NewVector | apply ckv_ToArray | apply ck_At | apply ckm_At | apply ckm_cols | apply ck2_cols | apply ckd_At | apply ck2_copyIn | apply ckd_SetEntry; auto; fail | ckd1]. Qed.
Lemma cka_hd_ScalarAdd h0 hm (d : slice) (x : F) : careful h0 hm (p_hd_ScalarAdd d x) (isnewF h0).
Proof. unfold p_hd_ScalarAdd. repeat first [apply cka_hd_NewDim | apply ck_NewVector | apply ckv_ToArray | apply ck_At | apply ckm_At | apply ckm_cols | apply ck2_cols | apply ckd_At | apply ck2_copyIn | apply ckd_SetEntry; auto; fail | ckd1]. Qed.
Lemma cka_hd_ScalarMultiply h0 hm (d : slice) (x : F) : careful h0 hm (p_hd_ScalarMultiply d x) (isnewF h0).
Proof. unfold p_hd_ScalarMultiply. repeat first [apply cka_hd_NewDim | apply ck_NewVector | apply ckv_ToArray | apply ck_At | apply ckm_At | apply ckm_cols | apply ck2_cols | apply ckd_At | apply ck2_copyIn | apply ckd_SetEntry; auto; fail | ckd1]. Qed.
Lemma cka_hb_Add h0 hm (b : HBlk) (mat : HMat) : careful h0 hm (p_hb_Add b mat) (isnewB h0).
Proof. unfold p_hb_Add. cbv zeta. destruct mat; repeat first [apply cka_h_ckAdd | apply cka_h_ckMul | apply ckb_New | apply ckm_At | apply ckm_cols | ckd1]. Qed.
Lemma cka_hb_Subtract h0 hm (b : HBlk) (mat : HMat) : careful h0 hm (p_hb_Subtract b mat) (isnewB h0).
Proof. unfold p_hb_Subtract. cbv zeta. destruct mat; repeat first [apply cka_h_ckAdd | apply cka_h_ckMul | apply ckb_New | apply ckm_At | apply ckm_cols | ckd1]. Qed.
Lemma cka_hb_ScalarAdd h0 hm (b : HBlk) (d : F) : careful h0 hm (p_hb_ScalarAdd b d) (isnewB h0).
Proof. unfold p_hb_ScalarAdd. cbv zeta. repeat first [apply cka_h_ckAdd | apply cka_h_ckMul | apply ckb_New | apply ckm_At | apply ckm_cols | ckd1]. Qed.
Lemma cka_hb_ScalarMultiply h0 hm (b : HBlk) (d : F) : careful h0 hm (p_hb_ScalarMultiply b d) (isnewB h0).
Proof. unfold p_hb_ScalarMultiply. cbv zeta. repeat first [apply cka_h_ckAdd | apply cka_h_ckMul | apply ckb_New | apply ckm_At | apply ckm_cols | ckd1]. Qed.
Lemma cka_hb_dot4 h0 hm (tBlock mBlock : slice) (jWidth lStart lEnd nStart : Z) : careful h0 hm (p_hb_dot4 tBlock mBlock jWidth lStart lEnd nStart) any.
Proof. unfold p_hb_dot4. cbv zeta. repeat first [apply cka_h_ckAdd | apply cka_h_ckMul | apply ckb_New | apply ckm_At | apply ckm_cols | ckd1]. Qed.
Lemma cka_hb_Multiply h0 hm (b : HBlk) (mat : HMat) : careful h0 hm (p_hb_Multiply b mat) (isnewB h0).
Proof. unfold p_hb_Multiply. cbv zeta. destruct mat; repeat first [apply cka_hb_dot4 | apply cka_h_ckAdd | apply cka_h_ckMul | apply ckb_New | apply ckm_At | apply ckm_cols | ckd1]. Qed.
Lemma cka_hb_Trace h0 hm (b : HBlk) : careful h0 hm (p_hb_Trace b) any.
Proof. unfold p_hb_Trace. repeat first [apply (ckm_At _ _ (HB b)) | ckd1]. Qed.
Lemma cka_hb_Operate h0 hm (b : HBlk) (v : slice) : careful h0 hm (p_hb_Operate b v) (isnewF h0).
Proof. unfold p_hb_Operate. cbv zeta. repeat first [apply cka_h_ckAdd | apply cka_h_ckMul | apply ckb_New | apply ckm_At | apply ckm_cols | ckd1]. Qed.
Lemma cka_hb_OperateVector h0 hm (b : HBlk) (vec : HVec) : careful h0 hm (p_hb_OperateVector b vec) (isnewF h0).
Proof. unfold p_hb_OperateVector. cbv zeta. destruct vec; repeat first [apply cka_hb_Operate | apply cka_h_ckAdd | apply cka_h_ckMul | apply ckb_New | apply ckm_At | apply ckm_cols | ckd1]. Qed.
Lemma cka_hb_PreMultiply h0 hm (b : HBlk) (v : slice) : careful h0 hm (p_hb_PreMultiply b v) (isnewF h0).
Proof. unfold p_hb_PreMultiply. cbv zeta. repeat first [apply cka_h_ckAdd | apply cka_h_ckMul | apply ckb_New | apply ckm_At | apply ckm_cols | ckd1]. Qed.
Lemma cka_hb_PreMultiplyVector h0 hm (b : HBlk) (vec : HVec) : careful h0 hm (p_hb_PreMultiplyVector b vec) (isnewF h0).
Proof. unfold p_hb_PreMultiplyVector. cbv zeta. destruct vec; repeat first [apply cka_hb_PreMultiply | apply cka_h_ckAdd | apply cka_h_ckMul | apply ckb_New | apply ckm_At | apply ckm_cols | ckd1]. Qed.
End S5.

(** The constructors of HeapDec.v write only to storage they made. *)
From Coq Require Import ZArith List Lia Bool.
From Verif Require Import Base BaseLemmas Scalar Vector Matrix Heap HeapDec HeapSpec HeapFacts HeapIndep.
Import ListNotations.
Open Scope Z_scope.

Section Loops.
Context {O : Ops}.
Lemma keeps_up_brk {T} h0 hm n i (body : Z -> T -> M (bool * T)) (s : T) :
  (forall i s hm', hle hm hm' -> keeps h0 hm' (body i s) any) -> keeps h0 hm (mup_brk n i body s) any.
Proof.
  revert i s hm. induction n as [|n IH]; intros i s hm Hb; cbn [mup_brk].
  - apply keeps_ret. intros; exact I.
  - eapply keeps_bind; [apply Hb, hle_refl|]. intros bs h1 Hl _. destruct (fst bs).
    + apply keeps_ret. intros; exact I.
    + apply IH. intros i' s' hm' Hl'. apply Hb. eapply hle_trans; eauto.
Qed.
Lemma keeps_for_brk {T} h0 hm lo hi (body : Z -> T -> M (bool * T)) (s : T) :
  (forall i s hm', hle hm hm' -> keeps h0 hm' (body i s) any) -> keeps h0 hm (mfor_brk lo hi body s) any.
Proof. apply keeps_up_brk. Qed.
Lemma keeps_pure {A} h0 hm (r : res A) : keeps h0 hm (pure r) any.
Proof. unfold pure. apply keeps_read. Qed.
Lemma k_modF h0 hm s i g : isnewF h0 hm s -> keeps h0 hm (modF s i g) any.
Proof. intros. unfold modF. kq. Qed.
End Loops.
Ltac kd1 :=
  match goal with
  | |- keeps ?h0 ?h (ret ?x) ?P => is_evar P; apply (keeps_ret h0 h x any); intros; exact I
  | |- keeps _ _ (mdown _ _ _ _) _ => unfold mdown
  | |- keeps _ _ (pure _) _ => apply keeps_pure
  | |- keeps _ _ (modF _ _ _) _ => apply k_modF; auto; fail
  | |- keeps _ _ (mfor_brk _ _ _ _) _ =>
      apply keeps_for_brk; let i := fresh "i" in let s := fresh "s" in let h := fresh "h" in let Hl := fresh "Hl" in
      intros i s h Hl; klift Hl
  | _ => kq1
  end.
Ltac kd := repeat kd1.

Section HeapDecFacts.
Context {O : Ops}.
Implicit Types (x : HMat).

Lemma km_cols h0 hm x : keeps h0 hm (hm_cols x) any.
Proof. destruct x; cbn; [apply k2_cols|kd..]. Qed.
Lemma km_Data h0 hm x : keeps h0 hm (hm_Data x) (isnewS h0).
Proof. destruct x; cbn; [apply k2_copyOut|apply kd_Data|apply kb_Data]. Qed.
Lemma km_IsSquare h0 hm x : keeps h0 hm (hm_IsSquare x) any.
Proof. unfold hm_IsSquare. eapply keeps_bind; [apply km_cols|]. intros. kd. Qed.
Lemma kd_SetEntry h0 hm d i j v : isnewF h0 hm d -> keeps h0 hm (hd_SetEntry d i j v) any.
Proof. intros. unfold hd_SetEntry. kd. Qed.
Lemma kd_Transpose h0 hm d : keeps h0 hm (hd_Transpose d) (isnewF h0).
Proof.
  unfold hd_Transpose. eapply keeps_bind; [apply keeps_makeF|]. intros c h1 Hl Hc. eapply keeps_bind with (P := any).
  - kd. apply kd_At. unfold hd_SetEntry. kd.
  - intros a h2 Hl2 _. klift Hl2. kd.
Qed.
Lemma kb_Transpose h0 hm b : keeps h0 hm (hb_Transpose b) (isnewB h0).
Proof.
  unfold hb_Transpose. eapply keeps_bind; [apply kb_create|]. intros c h1 Hl Hc. kd.
Qed.
Definition isnewM (h0 h : heap) (x : HMat) : Prop := match x with HA a => isnewS h0 h a | HD d => isnewF h0 h d | HB b => isnewB h0 h b end.
Lemma km_Transpose h0 hm x : keeps h0 hm (hm_Transpose x) (isnewM h0).
Proof.
  destruct x; cbn.
  - eapply keeps_bind; [apply k2_Transpose|]. intros. apply keeps_ret. intros h' Hl. cbn. eapply isnewS_mono; eauto.
  - eapply keeps_bind; [apply kd_Transpose|]. intros. apply keeps_ret. intros h' Hl. cbn. eapply isnewF_mono; eauto.
  - eapply keeps_bind; [apply kb_Transpose|]. intros. apply keeps_ret. intros h' Hl. cbn. eapply isnewB_mono; eauto.
Qed.
Definition hm_obj (x : HMat) : obj := match x with HA a => OM a | HD d => OF d | HB b => OM (hb_blocks b) end.

Lemma klu_reduce h0 hm lu row col n : isnewS h0 hm lu -> keeps h0 hm (hlu_reduce lu row col n) any.
Proof. intros. unfold hlu_reduce. kd. Qed.
Lemma klu_swap h0 hm m mx col lu pv : isnewS h0 hm lu -> keeps h0 hm (hlu_swap m mx col lu pv) any.
Proof. intros. unfold hlu_swap. kd. Qed.
Lemma klu_column h0 hm m thr lu col s : isnewS h0 hm lu -> keeps h0 hm (hlu_column m thr lu col s) any.
Proof.
  intros. destruct s as [pv ev]. unfold hlu_column, hlu_upper, hlu_lower, hlu_divide.
  repeat first [apply klu_reduce; auto; fail | apply klu_swap; auto; fail | kd1].
Qed.
Lemma kNewLU h0 hm x thr : keeps h0 hm (h_NewLU x thr) (fun h d => isnewS h0 h (hlu_lu d)).
Proof.
  unfold h_NewLU. repeat first [apply klu_column; auto; fail | apply km_IsSquare | apply km_cols | apply km_Data | kd1].
Qed.
Lemma kNewCholesky h0 hm x rel pos : keeps h0 hm (h_NewCholesky x rel pos) (isnewS h0).
Proof.
  unfold h_NewCholesky, hch_check, hch_step.
  repeat first [apply km_IsSquare | apply km_cols | apply km_Data | kd1].
Qed.
Lemma kNewQR h0 hm x : keeps h0 hm (h_NewQR x) (fun h d => isnewS h0 h (hqr_qrt d) /\ isnewF h0 h (hqr_rDiag d)).
Proof.
  unfold h_NewQR, hqr_reflect.
  repeat first [apply km_Transpose | apply km_cols | apply km_Data | kd1].
Qed.
Lemma kNewHessenberg h0 hm x : keeps h0 hm (h_NewHessenberg x) (fun h d => isnewS h0 h (hhs_hv d) /\ isnewF h0 h (hhs_ort d)).
Proof.
  unfold h_NewHessenberg, hhs_step.
  repeat first [apply km_IsSquare | apply km_cols | apply km_Data | kd1].
Qed.
Lemma k_FromSlicesM h0 hm s : keeps h0 hm (h_NewRealMatrixFromSlices s) (isnewM h0).
Proof.
  unfold h_NewRealMatrixFromSlices. destruct (isnil s); [kd|]. eapply keeps_bind; [apply keeps_rdS_any|].
  intros row0 h1 Hl _. destruct (isnil row0); [kd|]. destruct (_ <=? _).
  - eapply keeps_bind; [apply k2_FromSlices|]. intros. apply keeps_ret. intros. eapply isnewS_mono; eauto.
  - eapply keeps_bind; [apply kb_FromSlices|]. intros. apply keeps_ret. intros. eapply isnewB_mono; eauto.
Qed.

Lemma kqr_reflect h0 hm q d k u : isnewS h0 hm q -> isnewF h0 hm d -> keeps h0 hm (hqr_reflect q d k u) any.
Proof. intros. unfold hqr_reflect. kd. Qed.
Lemma krr_reflect h0 hm q d k p : isnewS h0 hm q -> isnewF h0 hm d -> keeps h0 hm (hrr_reflect q d k p) any.
Proof. intros. unfold hrr_reflect. repeat first [apply kqr_reflect; auto; fail | kd1]. Qed.
Lemma kNewRRQR h0 hm x : keeps h0 hm (h_NewRRQR x) (fun h d => isnewS h0 h (hrr_qrt d) /\ isnewF h0 h (hrr_rDiag d)).
Proof.
  unfold h_NewRRQR.
  repeat first [apply krr_reflect; auto; fail | apply km_Transpose | apply km_cols | apply km_Data | kd1].
Qed.
Definition isnewT h0 h d := isnewS h0 h (htd_hv d) /\ isnewF h0 h (htd_main d) /\ isnewF h0 h (htd_sec d).
Lemma kNewTriDiagonal h0 hm x : keeps h0 hm (h_NewTriDiagonal x) (isnewT h0).
Proof.
  unfold h_NewTriDiagonal, htd_step, isnewT.
  repeat first [apply km_IsSquare | apply km_cols | apply km_Data | kd1].
Qed.
Lemma kbd_columns h0 hm hv k lo m from n a v0 : isnewS h0 hm hv -> (forall h, keeps h0 h v0 any) -> keeps h0 hm (hbd_columns hv k lo m from n a v0) any.
Proof. intros. unfold hbd_columns. kd; auto. Qed.
Lemma kbd_rows h0 hm hv hK lo m from n a v0 : isnewS h0 hm hv -> (forall h, keeps h0 h v0 any) -> keeps h0 hm (hbd_rows hv hK lo m from n a v0) any.
Proof. intros. unfold hbd_rows. kd; auto. Qed.
Lemma kbd_upper h0 hm hv mn sec m n k u : isnewS h0 hm hv -> isnewF h0 hm mn -> isnewF h0 hm sec -> keeps h0 hm (hbd_upper hv mn sec m n k u) any.
Proof.
  intros. unfold hbd_upper.
  repeat first [apply kbd_columns; [assumption|intros; kd] | apply kbd_rows; [assumption|intros; kd] | kd1].
Qed.
Lemma kbd_lower h0 hm hv mn sec m n k u : isnewS h0 hm hv -> isnewF h0 hm mn -> isnewF h0 hm sec -> keeps h0 hm (hbd_lower hv mn sec m n k u) any.
Proof.
  intros. unfold hbd_lower.
  repeat first [apply kbd_columns; [assumption|intros; kd] | apply kbd_rows; [assumption|intros; kd] | kd1].
Qed.
Lemma kNewBiDiagonal h0 hm x : keeps h0 hm (h_NewBiDiagonal x) (isnewT h0).
Proof.
  unfold h_NewBiDiagonal, isnewT.
  repeat first [apply kbd_upper; auto; fail | apply kbd_lower; auto; fail | apply km_cols | apply km_Data | kd1].
Qed.
Lemma krc_turn h0 hm order small b c r s : isnewS h0 hm b -> isnewS h0 hm c -> keeps h0 hm (hrc_turn order small b c r s) any.
Proof. intros. destruct s. unfold hrc_turn. kd. Qed.
Lemma k_NewDim h0 hm r c : keeps h0 hm (h_NewRealMatrixWithDimension r c) (isnewM h0).
Proof.
  unfold h_NewRealMatrixWithDimension. destruct (_ <=? _).
  - eapply keeps_bind; [apply k2_New|]. intros. apply keeps_ret. intros. eapply isnewS_mono; eauto.
  - eapply keeps_bind; [apply kb_New|]. intros. apply keeps_ret. intros. eapply isnewB_mono; eauto.
Qed.
Lemma isnewM_mono h0 h h' x : hle h h' -> isnewM h0 h x -> isnewM h0 h' x.
Proof. intros Hl. destruct x; cbn; [apply isnewS_mono|apply isnewF_mono|apply isnewB_mono]; auto. Qed.
Lemma km_SetEntry h0 hm x i j v : isnewM h0 hm x -> keeps h0 hm (hm_SetEntry x i j v) any.
Proof.
  destruct x; cbn; intros H.
  - unfold h2_SetEntry, h2_ck, h2_ckrow, h2_ckcol, h2_cols. kd.
  - apply kd_SetEntry; auto.
  - unfold hb_SetEntry, hb_ckrow, hb_ckcol. kd.
Qed.
Lemma kNewRectChol h0 hm x small : keeps h0 hm (h_NewRectChol x small) (isnewM h0).
Proof.
  unfold h_NewRectChol. eapply keeps_bind; [apply km_Data|]. intros c h1 Hl1 Hc.
  eapply keeps_bind; [apply k_make2|]. intros b h2 Hl2 Hb. klift Hl2.
  eapply keeps_bind; [apply keeps_pure|]. intros idx h3 Hl3 _. klift Hl3.
  eapply keeps_bind; [apply keeps_for_brk; intros i s h Hl; klift Hl; apply krc_turn; auto|].
  intros [f [index r]] h4 Hl4 _. klift Hl4. cbn [snd].
  eapply keeps_bind; [apply k_NewDim|]. intros root h5 Hl5 Hr.
  eapply keeps_bind with (P := any); [|intros ? h6 Hl6 _; apply keeps_ret; intros; eapply isnewM_mono; [|eauto]; eapply hle_trans; eauto].
  apply keeps_for. intros i s h6 Hl6. apply keeps_for. intros j s' h7 Hl7.
  eapply keeps_bind; [apply keeps_pure|]. intros ii h8 Hl8 _.
  eapply keeps_bind; [apply k_rd2|]. intros v h9 Hl9 _. apply km_SetEntry.
  eapply isnewM_mono; [|eauto]. eapply hle_trans; [|eauto]. eapply hle_trans; [|eauto]. eapply hle_trans; eauto.
Qed.
Lemma NewLU_separate x thr : separate (h_NewLU x thr) (fun d => OM (hlu_lu d)).
Proof. apply keeps_separate. intros. apply kNewLU. Qed.
Lemma NewCholesky_separate x rel pos : separate (h_NewCholesky x rel pos) OM.
Proof. apply keeps_separate. intros. apply kNewCholesky. Qed.
Lemma keeps_imp {A} h0 hm (m : M A) (P Q : heap -> A -> Prop) : (forall h a, P h a -> Q h a) -> keeps h0 hm m P -> keeps h0 hm m Q.
Proof. intros I H h He Hl r h' E. destruct (H h He Hl r h' E) as (A1 & A2 & A3). split; [|split]; auto. Qed.
Lemma NewQR_separate x : separate (h_NewQR x) (fun d => OM (hqr_qrt d)) /\ separate (h_NewQR x) (fun d => OF (hqr_rDiag d)).
Proof. split; apply keeps_separate; intros; (eapply keeps_imp; [|apply kNewQR]); cbn; tauto. Qed.
Lemma NewHessenberg_separate x : separate (h_NewHessenberg x) (fun d => OM (hhs_hv d)) /\ separate (h_NewHessenberg x) (fun d => OF (hhs_ort d)).
Proof. split; apply keeps_separate; intros; (eapply keeps_imp; [|apply kNewHessenberg]); cbn; tauto. Qed.
Lemma NewRRQR_separate x : separate (h_NewRRQR x) (fun d => OM (hrr_qrt d)) /\ separate (h_NewRRQR x) (fun d => OF (hrr_rDiag d)).
Proof. split; apply keeps_separate; intros; (eapply keeps_imp; [|apply kNewRRQR]); cbn; tauto. Qed.
Lemma NewTri_separate x : separate (h_NewTriDiagonal x) (fun d => OM (htd_hv d)) /\ separate (h_NewTriDiagonal x) (fun d => OF (htd_main d)) /\
  separate (h_NewTriDiagonal x) (fun d => OF (htd_sec d)).
Proof. repeat apply conj; apply keeps_separate; intros; (eapply keeps_imp; [|apply kNewTriDiagonal]); unfold isnewT; cbn; tauto. Qed.
Lemma NewBi_separate x : separate (h_NewBiDiagonal x) (fun d => OM (htd_hv d)) /\ separate (h_NewBiDiagonal x) (fun d => OF (htd_main d)) /\
  separate (h_NewBiDiagonal x) (fun d => OF (htd_sec d)).
Proof. repeat apply conj; apply keeps_separate; intros; (eapply keeps_imp; [|apply kNewBiDiagonal]); unfold isnewT; cbn; tauto. Qed.
Lemma NewRectChol_separate x small : separate (h_NewRectChol x small) hm_obj.
Proof. apply keeps_separate; intros; (eapply keeps_imp; [|apply kNewRectChol]). intros h [?|?|?]; cbn; auto. Qed.
Lemma FromSlices_separate s : separate (h_NewRealMatrixFromSlices s) hm_obj.
Proof. apply keeps_separate; intros; (eapply keeps_imp; [|apply k_FromSlicesM]). intros h [?|?|?]; cbn; auto. Qed.
Lemma LT_separate t : separate (h_LT (mkHCh t None)) (fun r => hm_obj (fst r)).
Proof.
  apply keeps_separate. intros. unfold h_LT. cbn [hch_cachedLT hch_lT].
  eapply keeps_bind; [apply keeps_mpan, k_FromSlicesM|]. intros m h1 Hl Hm. apply keeps_ret. intros h Hl'.
  apply (isnewM_mono _ _ _ _ Hl') in Hm. destruct m; exact Hm.
Qed.
Lemma LT_again d h m d' h1 : h_LT d h = (Ok (m, d'), h1) -> forall h2, h_LT d' h2 = (Ok (m, d'), h2).
Proof.
  unfold h_LT. destruct (hch_cachedLT d) as [c|] eqn:Ec.
  - intros [= <- <- <-] h2. rewrite Ec. reflexivity.
  - unfold mbind, mpan. destruct (h_NewRealMatrixFromSlices (hch_lT d) h) as [[r|e|e] h'].
    + intros [= <- <- <-] h2. cbn. reflexivity.
    + discriminate.
    + discriminate.
Qed.
End HeapDecFacts.

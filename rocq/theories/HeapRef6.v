(** The decompositions of two matrices with the same entries. *)
From Coq Require Import ZArith List Lia Bool.
From Verif Require Import Base BaseLemmas Scalar Vector Matrix MatSpec MatFacts Array2DFacts DiagSpec RealMatrixM MatHist.
From Verif Require Import Heap HeapSpec HeapDec HeapRefSpec HeapRef2 HeapRef3 HeapRef4 HeapRef5.
From Verif Require Import LU Cholesky QR Hess Tridiag Bidiag RectChol.
Import ListNotations.
Open Scope Z_scope.

Section Ref6.
Context {O : Ops}.

Lemma MRep_view h o d : MRep h o d -> view h (OM o) = d.
Proof. intros [H _]. cbn [view]. induction H as [|s r l l' [E _] H IH]; cbn; congruence. Qed.
Lemma VRep_view h s r : VRep h s r -> view h (OF s) = [r].
Proof. intros [E _]. cbn [view]. congruence. Qed.
Lemma HMat_value h x r c f : HMatIs h x r c f -> exists m, library m /\ MatIs m r c f.
Proof.
  intros H. destruct (HMat_pos _ _ _ _ _ H) as [Hr Hc]. destruct (HMat_data _ _ _ _ _ H) as (o & h' & hd & d & _ & _ & HT). exists (MArr (mkA2D (Some d))). split; [exact I|]. apply MatIs_arr; auto.
Qed.
Lemma sim_alike {A B C} (m : M A) (m' : M B) (v : res C) h h' P P' (R : heap -> A -> heap -> B -> Prop) : sim m v h P -> sim m' v h' P' ->
  (forall k a k' b c, P k a c -> P' k' b c -> R k a k' b) -> alike m h m' h' R.
Proof.
  unfold sim, alike. destruct (m h) as [[a|e|e] k], (m' h') as [[b|e'|e'] k'], v as [x|u|u]; try contradiction; try congruence. eauto.
Qed.
Ltac two H1 H2 L := let m := fresh "m" in let Lm := fresh in let Hm := fresh in
  destruct (HMat_value _ _ _ _ _ H1) as (m & Lm & Hm); eapply sim_alike; [eapply (L _ _ _ _ _ m); eauto|eapply (L _ _ _ _ _ m); eauto|cbv beta];
  intros ? ? ? ? ?; intros; repeat match goal with H : _ /\ _ |- _ => destruct H end;
  repeat match goal with H : MRep _ _ _ |- _ => apply MRep_view in H | H : VRep _ _ _ |- _ => apply VRep_view in H end; repeat split; congruence.
Lemma same_LU h x h' x' r c f thr : HMatIs h x r c f -> HMatIs h' x' r c f -> alike (h_NewLU x thr) h (h_NewLU x' thr) h' (fun k a k' b =>
  view k (OM (hlu_lu a)) = view k' (OM (hlu_lu b)) /\ hlu_pivot a = hlu_pivot b /\ hlu_even a = hlu_even b /\ hlu_singular a = hlu_singular b).
Proof. intros H1 H2. two H1 H2 (@ref_LU O). Qed.
Lemma same_Cholesky h x h' x' r c f rel pos : HMatIs h x r c f -> HMatIs h' x' r c f -> alike (h_NewCholesky x rel pos) h (h_NewCholesky x' rel pos) h' (fun k a k' b =>
  view k (OM a) = view k' (OM b)).
Proof. intros H1 H2. two H1 H2 (@ref_Cholesky O). Qed.
Lemma same_Hessenberg h x h' x' r c f : HMatIs h x r c f -> HMatIs h' x' r c f -> alike (h_NewHessenberg x) h (h_NewHessenberg x') h' (fun k a k' b =>
  view k (OM (hhs_hv a)) = view k' (OM (hhs_hv b)) /\ view k (OF (hhs_ort a)) = view k' (OF (hhs_ort b))).
Proof. intros H1 H2. two H1 H2 (@ref_Hessenberg O). Qed.
Lemma same_TriDiagonal h x h' x' r c f : HMatIs h x r c f -> HMatIs h' x' r c f -> alike (h_NewTriDiagonal x) h (h_NewTriDiagonal x') h' (fun k a k' b =>
  view k (OM (htd_hv a)) = view k' (OM (htd_hv b)) /\ view k (OF (htd_main a)) = view k' (OF (htd_main b)) /\ view k (OF (htd_sec a)) = view k' (OF (htd_sec b))).
Proof. intros H1 H2. two H1 H2 (@ref_TriDiagonal O). Qed.
Lemma same_BiDiagonal h x h' x' r c f : HMatIs h x r c f -> HMatIs h' x' r c f -> alike (h_NewBiDiagonal x) h (h_NewBiDiagonal x') h' (fun k a k' b =>
  view k (OM (htd_hv a)) = view k' (OM (htd_hv b)) /\ view k (OF (htd_main a)) = view k' (OF (htd_main b)) /\ view k (OF (htd_sec a)) = view k' (OF (htd_sec b))).
Proof. intros H1 H2. two H1 H2 (@ref_BiDiagonal O). Qed.
Lemma same_QR h x h' x' r c f : zero_like fzero -> HMatIs h x r c f -> HMatIs h' x' r c f -> alike (h_NewQR x) h (h_NewQR x') h' (fun k a k' b =>
  view k (OM (hqr_qrt a)) = view k' (OM (hqr_qrt b)) /\ view k (OF (hqr_rDiag a)) = view k' (OF (hqr_rDiag b))).
Proof. intros Hz H1 H2. two H1 H2 (fun h x r c f m => ref_QR h x r c f m fzero). Qed.
Lemma same_RRQR h x h' x' r c f : zero_like fzero -> HMatIs h x r c f -> HMatIs h' x' r c f -> alike (h_NewRRQR x) h (h_NewRRQR x') h' (fun k a k' b =>
  view k (OM (hrr_qrt a)) = view k' (OM (hrr_qrt b)) /\ view k (OF (hrr_rDiag a)) = view k' (OF (hrr_rDiag b)) /\ hrr_p a = hrr_p b).
Proof. intros Hz H1 H2. two H1 H2 (fun h x r c f m => ref_RRQR h x r c f m fzero). Qed.
Lemma same_RectChol h x h' x' r c f small : HMatIs h x r c f -> HMatIs h' x' r c f -> alike (h_NewRectChol x small) h (h_NewRectChol x' small) h' (fun k a k' b =>
  exists w g, HMatIs k a r w g /\ HMatIs k' b r w g).
Proof.
  intros H1 H2. destruct (HMat_value _ _ _ _ _ H1) as (m & Lm & Hm). eapply sim_alike; [eapply (ref_RectChol _ _ _ _ _ m); eauto|eapply (ref_RectChol _ _ _ _ _ m); eauto|cbv beta].
  intros k a k' b d (g & A1 & A2) (g' & B1 & B2). exists (rc_rank d), g. split; [auto|]. eapply HMat_ext; [|exact B1]. intros i j Hi Hj.
  destruct A2 as (_ & _ & _ & A & _), B2 as (_ & _ & _ & B & _). specialize (A i j Hi Hj). specialize (B i j Hi Hj). congruence.
Qed.
Lemma same_all : forall h x h' x' r c f, HMatIs h x r c f -> HMatIs h' x' r c f ->
  (forall thr, alike (h_NewLU x thr) h (h_NewLU x' thr) h' (fun k a k' b =>
    view k (OM (hlu_lu a)) = view k' (OM (hlu_lu b)) /\ hlu_pivot a = hlu_pivot b /\ hlu_even a = hlu_even b /\ hlu_singular a = hlu_singular b)) /\
  (forall rel pos, alike (h_NewCholesky x rel pos) h (h_NewCholesky x' rel pos) h' (fun k a k' b => view k (OM a) = view k' (OM b))) /\
  alike (h_NewHessenberg x) h (h_NewHessenberg x') h' (fun k a k' b =>
    view k (OM (hhs_hv a)) = view k' (OM (hhs_hv b)) /\ view k (OF (hhs_ort a)) = view k' (OF (hhs_ort b))) /\
  alike (h_NewTriDiagonal x) h (h_NewTriDiagonal x') h' (fun k a k' b =>
    view k (OM (htd_hv a)) = view k' (OM (htd_hv b)) /\ view k (OF (htd_main a)) = view k' (OF (htd_main b)) /\ view k (OF (htd_sec a)) = view k' (OF (htd_sec b))) /\
  alike (h_NewBiDiagonal x) h (h_NewBiDiagonal x') h' (fun k a k' b =>
    view k (OM (htd_hv a)) = view k' (OM (htd_hv b)) /\ view k (OF (htd_main a)) = view k' (OF (htd_main b)) /\ view k (OF (htd_sec a)) = view k' (OF (htd_sec b))) /\
  (forall small, alike (h_NewRectChol x small) h (h_NewRectChol x' small) h' (fun k a k' b =>
    exists w g, HMatIs k a r w g /\ HMatIs k' b r w g)) /\
  (zero_like fzero ->
    alike (h_NewQR x) h (h_NewQR x') h' (fun k a k' b =>
      view k (OM (hqr_qrt a)) = view k' (OM (hqr_qrt b)) /\ view k (OF (hqr_rDiag a)) = view k' (OF (hqr_rDiag b))) /\
    alike (h_NewRRQR x) h (h_NewRRQR x') h' (fun k a k' b =>
      view k (OM (hrr_qrt a)) = view k' (OM (hrr_qrt b)) /\ view k (OF (hrr_rDiag a)) = view k' (OF (hrr_rDiag b)) /\ hrr_p a = hrr_p b)).
Proof.
  intros h x h' x' r c f H1 H2. split; [intros; eapply same_LU; eauto|]. split; [intros; eapply same_Cholesky; eauto|]. split; [eapply same_Hessenberg; eauto|].
  split; [eapply same_TriDiagonal; eauto|]. split; [eapply same_BiDiagonal; eauto|]. split; [intros; eapply same_RectChol; eauto|]. intros Hz. split; [eapply same_QR; eauto|eapply same_RRQR; eauto].
Qed.
End Ref6.

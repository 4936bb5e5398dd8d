(** The programs of HeapCoCode.v do the same whatever numbers the arrays have. *)
From Coq Require Import ZArith QArith List Lia Bool.
From Verif Require Import Base BaseLemmas Scalar Vector Matrix Heap HeapDec HeapSolve HeapCo HeapCoCode HeapFacts HeapCoFacts HeapCoRel.
Import ListNotations.
Open Scope Z_scope.

Section Par.
Context {O : Ops}.
Variable g : heap.
Notation relF := (relF g).
Notation relS := (relS g).
Notation prel := (prel g).
(** Arguments and results that differ only in the numbers. *)
Definition relV (r : rho) (v v' : HVec) : Prop :=
  match v, v' with HArr s, HArr s' => relF r s s' | HOther d, HOther d' => d = d' | _, _ => False end.
Definition relB (r : rho) (b b' : HBlk) : Prop :=
  relS r (hb_blocks b) (hb_blocks b') /\
  b' = mkHBlk (hb_blocks b') (hb_rows b) (hb_columns b) (hb_blockRows b) (hb_blockColumns b).
Definition relM (r : rho) (x x' : HMat) : Prop :=
  match x, x' with HA s, HA s' => relS r s s' | HD s, HD s' => relF r s s' | HB s, HB s' => relB r s s' | _, _ => False end.
Definition relLU (r : rho) (d d' : HLU) : Prop :=
  relS r (hlu_lu d) (hlu_lu d') /\ d' = mkHLU (hlu_lu d') (hlu_pivot d) (hlu_even d) (hlu_singular d).
Definition relQR (r : rho) (d d' : HQR) : Prop := relS r (hqr_qrt d) (hqr_qrt d') /\ relF r (hqr_rDiag d) (hqr_rDiag d').
Definition relRR (r : rho) (d d' : HRR) : Prop :=
  relS r (hrr_qrt d) (hrr_qrt d') /\ relF r (hrr_rDiag d) (hrr_rDiag d') /\ hrr_p d' = hrr_p d.
Definition relHs (r : rho) (d d' : HHs) : Prop := relS r (hhs_hv d) (hhs_hv d') /\ relF r (hhs_ort d) (hhs_ort d').
Definition relTd (r : rho) (d d' : HTd) : Prop :=
  relS r (htd_hv d) (htd_hv d') /\ relF r (htd_main d) (htd_main d') /\ relF r (htd_sec d) (htd_sec d').

Lemma F_len r s s' : relF r s s' -> sl_len s' = sl_len s.
Proof. intros [_ (H1 & H2 & H3)]. auto. Qed.
Lemma S_len r s s' : relS r s s' -> sl_len s' = sl_len s.
Proof. intros [_ (H1 & H2 & H3)]. auto. Qed.
Lemma ren_nil n l a a' : 0 <= n -> ren n l a a' -> (a' =? -1) = (a =? -1).
Proof. intros Hn [[H1 H2]|(H1 & H2 & H3)]; [congruence|]. destruct (Z.eqb_spec a' (-1)), (Z.eqb_spec a (-1)); auto; lia. Qed.
Lemma F_nil r s s' : relF r s s' -> isnil s' = isnil s.
Proof. intros [H _]. unfold isnil. eapply ren_nil; [|exact H]; apply len_nonneg. Qed.
Lemma S_nil r s s' : relS r s s' -> isnil s' = isnil s.
Proof. intros [H _]. unfold isnil. eapply ren_nil; [|exact H]; apply len_nonneg. Qed.
Lemma S_rows r s s' : relS r s s' -> h2_rows s' = h2_rows s.
Proof. intros H. unfold h2_rows. rewrite (S_nil _ _ _ H), (S_len _ _ _ H). auto. Qed.
Lemma V_dim r v v' : relV r v v' -> hv_dim v' = hv_dim v.
Proof. destruct v, v'; cbn; intros H; try contradiction; [eapply F_len; eauto|congruence]. Qed.
Lemma M_rows r x x' : relM r x x' -> hm_rows x' = hm_rows x.
Proof. destruct x, x'; cbn [relM hm_rows]; intros H; try contradiction; [eapply S_rows; eauto|eapply F_len; eauto|]. destruct H as [_ ->]. reflexivity. Qed.
Lemma relV_mono r r' v v' : grows r r' -> relV r v v' -> relV r' v v'.
Proof. intros G. destruct v, v'; cbn; auto. apply relF_mono; auto. Qed.
Lemma relB_mono r r' v v' : grows r r' -> relB r v v' -> relB r' v v'.
Proof. intros G [H1 H2]. split; auto. eapply relS_mono; eauto. Qed.
Lemma relM_mono r r' v v' : grows r r' -> relM r v v' -> relM r' v v'.
Proof. intros G. destruct v, v'; cbn; auto; [apply relS_mono|apply relF_mono|apply relB_mono]; auto. Qed.
Lemma relLU_mono r r' v v' : grows r r' -> relLU r v v' -> relLU r' v v'.
Proof. intros G [H1 H2]. split; auto. eapply relS_mono; eauto. Qed.
Lemma relQR_mono r r' v v' : grows r r' -> relQR r v v' -> relQR r' v v'.
Proof. intros G [H1 H2]. split; [eapply relS_mono; eauto|eapply relF_mono; eauto]. Qed.

Ltac norm := repeat match goal with
  | H : relF _ ?s ?s' |- context [sl_len ?s'] => is_var s'; rewrite (F_len _ _ _ H)
  | H : relS _ ?s ?s' |- context [sl_len ?s'] => is_var s'; rewrite (S_len _ _ _ H)
  | H : relF _ ?s ?s' |- context [isnil ?s'] => is_var s'; rewrite (F_nil _ _ _ H)
  | H : relS _ ?s ?s' |- context [isnil ?s'] => is_var s'; rewrite (S_nil _ _ _ H)
  | H : relS _ ?s ?s' |- context [h2_rows ?s'] => is_var s'; rewrite (S_rows _ _ _ H)
  | H : relV _ ?s ?s' |- context [hv_dim ?s'] => is_var s'; rewrite (V_dim _ _ _ H)
  | H : relM _ ?s ?s' |- context [hm_rows ?s'] => is_var s'; rewrite (M_rows _ _ _ H)
  | |- context [hb_width (mkHBlk ?x ?a ?b ?c ?d)] => is_var x; change (hb_width (mkHBlk x a b c d)) with (hb_width (mkHBlk nilsl a b c d))
  | |- context [hb_height (mkHBlk ?x ?a ?b ?c ?d)] => is_var x; change (hb_height (mkHBlk x a b c d)) with (hb_height (mkHBlk nilsl a b c d))
  | |- context [hb_pos (mkHBlk ?x ?a ?b ?c ?d)] => is_var x; change (hb_pos (mkHBlk x a b c d)) with (hb_pos (mkHBlk nilsl a b c d))
  end.
Ltac open_up := repeat match goal with
  | H : @req _ _ _ _ |- _ => unfold req in H; subst
  | H : @eq (list _) ?d ?d' |- _ => is_var d'; subst d'
  | H : relB _ ?b ?b' |- _ => let E := fresh "E" in destruct b as [?u ?u ?u ?u ?u], b' as [?u ?u ?u ?u ?u]; destruct H as [H E]; cbn in H, E; injection E as -> -> -> ->
  | H : relLU _ ?b ?b' |- _ => let E := fresh "E" in destruct b as [?u ?u ?u ?u], b' as [?u ?u ?u ?u]; destruct H as [H E]; cbn in H, E; injection E as -> -> ->
  | H : relQR _ ?b ?b' |- _ => let E := fresh "E" in destruct b as [?u ?u], b' as [?u ?u]; destruct H as [H E]; cbn in H, E
  end.
Ltac lift G := match type of G with grows ?r ?r' =>
  repeat match goal with
  | H : relF r _ _ |- _ => apply (relF_mono g r r' _ _ G) in H
  | H : relS r _ _ |- _ => apply (relS_mono g r r' _ _ G) in H
  | H : relV r _ _ |- _ => apply (relV_mono r r' _ _ G) in H
  | H : relM r _ _ |- _ => apply (relM_mono r r' _ _ G) in H
  end; clear G end.
Ltac args := solve [eassumption | apply rel_nilS | apply rel_nil | split; [cbn; eassumption|reflexivity] | split; cbn; eassumption
  | cbn; eassumption | cbn [relM]; split; [cbn; eassumption|reflexivity]].
Ltac fin :=
  match goal with
  | |- prel ?R _ (pret ?a) (pret ?b) => is_evar R; let T := type of a in unify R (@req T); apply prel_ret; reflexivity
  | |- prel _ _ (pret _) (pret _) => apply prel_ret; unfold req, relM, relB, relLU, relQR, relRR, relHs, relTd; cbn; solve [auto 8]
  | |- prel _ _ (ppanic _) _ => apply prel_panic
  | |- prel _ _ (perr _) _ => apply prel_err
  | |- prel _ _ (Done _) _ => apply prel_done
  | |- prel _ _ (prdF _ _) _ => apply prel_rdF; assumption
  | |- prel _ _ (prdS _ _) _ => apply prel_rdS; assumption
  | |- prel _ _ (pwrF _ _ _) _ => apply prel_wrF; assumption
  | |- prel _ _ (pwrS _ _ _) _ => apply prel_wrS; assumption
  | |- prel _ _ (pnewF _) _ => apply prel_newF
  | |- prel _ _ (pmakeF _) _ => apply prel_makeF
  | |- prel _ _ (pmakeS _) _ => apply prel_makeS
  | |- prel _ _ (pappendF _) _ => apply prel_appendF; assumption
  | |- prel _ _ (preslice _ _ _) _ => apply prel_reslice; assumption
  | |- prel _ _ (pgocopy _ _) _ => apply prel_gocopy; assumption
  end.
Ltac pr lem :=
  match goal with
  | |- prel _ _ (if ?b then _ else _) (if ?b then _ else _) => destruct b; pr lem
  | |- prel _ _ (match ?p with (_, _) => _ end) _ => destruct p; pr lem
  | |- prel _ _ (pbind _ _) _ => let G := fresh "G" in eapply prel_bind; [pr lem|intros ? G ? ? ?; lift G; open_up; norm; pr lem]
  | |- prel _ _ (ppan _) _ => apply prel_pan; pr lem
  | |- prel _ _ (pfor _ _ _ _) _ => let G := fresh "G" in apply prel_for; intros ? G ? ?; lift G; pr lem
  | |- prel _ _ (pdown _ _ _ _) _ => let G := fresh "G" in apply prel_down; intros ? G ? ?; lift G; pr lem
  | |- prel _ _ (pfor_brk _ _ _ _) _ => let G := fresh "G" in apply prel_brk; intros ? G ? ?; lift G; pr lem
  | |- _ => first [fin | lem]
  end.

Lemma par_modF rr (s : slice) (s' : slice) (i : Z) (gf : F -> F) : relF rr s s' -> prel req rr (p_modF s i gf) (p_modF s' i gf).
Proof. intros. open_up. unfold p_modF. cbv zeta. norm. cbn [relM relV relB hb_blocks hb_rows hb_columns hb_blockRows hb_blockColumns hlu_lu hlu_pivot hlu_even hlu_singular hqr_qrt hqr_rDiag] in *; try contradiction; open_up; norm; pr ltac:(idtac; fail). Qed.
Lemma par_rd2 rr (s : slice) (s' : slice) (i : Z) (j : Z) : relS rr s s' -> prel req rr (p_rd2 s i j) (p_rd2 s' i j).
Proof. intros. open_up. unfold p_rd2. cbv zeta. norm. cbn [relM relV relB hb_blocks hb_rows hb_columns hb_blockRows hb_blockColumns hlu_lu hlu_pivot hlu_even hlu_singular hqr_qrt hqr_rDiag] in *; try contradiction; open_up; norm; pr ltac:(idtac; fail). Qed.
Lemma par_wr2 rr (s : slice) (s' : slice) (i : Z) (j : Z) (x : F) : relS rr s s' -> prel req rr (p_wr2 s i j x) (p_wr2 s' i j x).
Proof. intros. open_up. unfold p_wr2. cbv zeta. norm. cbn [relM relV relB hb_blocks hb_rows hb_columns hb_blockRows hb_blockColumns hlu_lu hlu_pivot hlu_even hlu_singular hqr_qrt hqr_rDiag] in *; try contradiction; open_up; norm; pr ltac:(idtac; fail). Qed.
Lemma par_copyrange rr (d : slice) (d' : slice) (i : Z) (j : Z) (s : slice) (s' : slice) (k : Z) (l : Z) : relF rr d d' -> relF rr s s' -> prel req rr (p_copyrange d i j s k l) (p_copyrange d' i j s' k l).
Proof. intros. open_up. unfold p_copyrange. cbv zeta. norm. cbn [relM relV relB hb_blocks hb_rows hb_columns hb_blockRows hb_blockColumns hlu_lu hlu_pivot hlu_even hlu_singular hqr_qrt hqr_rDiag] in *; try contradiction; open_up; norm; pr ltac:(idtac; fail). Qed.
Lemma par_hv_At rr (v : HVec) (v' : HVec) (i : Z) : relV rr v v' -> prel req rr (p_hv_At v i) (p_hv_At v' i).
Proof. intros. open_up. unfold p_hv_At. cbv zeta. norm. destruct v, v'; cbn [relM relV relB hb_blocks hb_rows hb_columns hb_blockRows hb_blockColumns hlu_lu hlu_pivot hlu_even hlu_singular hqr_qrt hqr_rDiag] in *; try contradiction; open_up; norm; pr ltac:(idtac; fail). Qed.
Lemma par_hcheck rr (s : slice) (s' : slice) (i : Z) : relF rr s s' -> prel req rr (p_hcheck s i) (p_hcheck s' i).
Proof. intros. open_up. unfold p_hcheck. cbv zeta. norm. cbn [relM relV relB hb_blocks hb_rows hb_columns hb_blockRows hb_blockColumns hlu_lu hlu_pivot hlu_even hlu_singular hqr_qrt hqr_rDiag] in *; try contradiction; open_up; norm; pr ltac:(idtac; fail). Qed.
Lemma par_h_NewArrayRealVectorCopy rr (v : HVec) (v' : HVec) : relV rr v v' -> prel relF rr (p_h_NewArrayRealVectorCopy v) (p_h_NewArrayRealVectorCopy v').
Proof. intros. open_up. unfold p_h_NewArrayRealVectorCopy. cbv zeta. norm. cbn [relM relV relB hb_blocks hb_rows hb_columns hb_blockRows hb_blockColumns hlu_lu hlu_pivot hlu_even hlu_singular hqr_qrt hqr_rDiag] in *; try contradiction; open_up; norm; pr ltac:(idtac; first [eapply par_hv_At; args]). Qed.
Lemma par_h_NewArrayRealVectorFromSlice rr (d : slice) (d' : slice) : relF rr d d' -> prel relF rr (p_h_NewArrayRealVectorFromSlice d) (p_h_NewArrayRealVectorFromSlice d').
Proof. intros. open_up. unfold p_h_NewArrayRealVectorFromSlice. cbv zeta. norm. cbn [relM relV relB hb_blocks hb_rows hb_columns hb_blockRows hb_blockColumns hlu_lu hlu_pivot hlu_even hlu_singular hqr_qrt hqr_rDiag] in *; try contradiction; open_up; norm; pr ltac:(idtac; fail). Qed.
Lemma par_h_NewArrayRealVector rr (d : slice) (d' : slice) (copyArray : bool) : relF rr d d' -> prel relF rr (p_h_NewArrayRealVector d copyArray) (p_h_NewArrayRealVector d' copyArray).
Proof. intros. open_up. unfold p_h_NewArrayRealVector. cbv zeta. norm. cbn [relM relV relB hb_blocks hb_rows hb_columns hb_blockRows hb_blockColumns hlu_lu hlu_pivot hlu_even hlu_singular hqr_qrt hqr_rDiag] in *; try contradiction; open_up; norm; pr ltac:(idtac; first [eapply par_h_NewArrayRealVectorFromSlice; args]). Qed.
Lemma par_h_ToArray rr (arv : slice) (arv' : slice) : relF rr arv arv' -> prel relF rr (p_h_ToArray arv) (p_h_ToArray arv').
Proof. intros. open_up. unfold p_h_ToArray. cbv zeta. norm. cbn [relM relV relB hb_blocks hb_rows hb_columns hb_blockRows hb_blockColumns hlu_lu hlu_pivot hlu_even hlu_singular hqr_qrt hqr_rDiag] in *; try contradiction; open_up; norm; pr ltac:(idtac; fail). Qed.
Lemma par_h_SubVector rr (arv : slice) (arv' : slice) (index : Z) (n : Z) : relF rr arv arv' -> prel relF rr (p_h_SubVector arv index n) (p_h_SubVector arv' index n).
Proof. intros. open_up. unfold p_h_SubVector. cbv zeta. norm. cbn [relM relV relB hb_blocks hb_rows hb_columns hb_blockRows hb_blockColumns hlu_lu hlu_pivot hlu_even hlu_singular hqr_qrt hqr_rDiag] in *; try contradiction; open_up; norm; pr ltac:(idtac; first [eapply par_hcheck; args]). Qed.
Lemma par_h_FromTwo rr (v1 : slice) (v1' : slice) (v2 : slice) (v2' : slice) : relF rr v1 v1' -> relF rr v2 v2' -> prel relF rr (p_h_FromTwo v1 v2) (p_h_FromTwo v1' v2').
Proof. intros. open_up. unfold p_h_FromTwo. cbv zeta. norm. cbn [relM relV relB hb_blocks hb_rows hb_columns hb_blockRows hb_blockColumns hlu_lu hlu_pivot hlu_even hlu_singular hqr_qrt hqr_rDiag] in *; try contradiction; open_up; norm; pr ltac:(idtac; fail). Qed.
Lemma par_h_Append rr (arv : slice) (arv' : slice) (x : F) : relF rr arv arv' -> prel relF rr (p_h_Append arv x) (p_h_Append arv' x).
Proof. intros. open_up. unfold p_h_Append. cbv zeta. norm. cbn [relM relV relB hb_blocks hb_rows hb_columns hb_blockRows hb_blockColumns hlu_lu hlu_pivot hlu_even hlu_singular hqr_qrt hqr_rDiag] in *; try contradiction; open_up; norm; pr ltac:(idtac; first [eapply par_h_NewArrayRealVector; args]). Qed.
Lemma par_h_Add rr (arv : slice) (arv' : slice) (v : HVec) (v' : HVec) : relF rr arv arv' -> relV rr v v' -> prel relF rr (p_h_Add arv v) (p_h_Add arv' v').
Proof. intros. open_up. unfold p_h_Add. cbv zeta. norm. cbn [relM relV relB hb_blocks hb_rows hb_columns hb_blockRows hb_blockColumns hlu_lu hlu_pivot hlu_even hlu_singular hqr_qrt hqr_rDiag] in *; try contradiction; open_up; norm; pr ltac:(idtac; first [eapply par_hv_At; args]). Qed.
Lemma par_h2_cols rr (a : slice) (a' : slice) : relS rr a a' -> prel req rr (p_h2_cols a) (p_h2_cols a').
Proof. intros. open_up. unfold p_h2_cols. cbv zeta. norm. cbn [relM relV relB hb_blocks hb_rows hb_columns hb_blockRows hb_blockColumns hlu_lu hlu_pivot hlu_even hlu_singular hqr_qrt hqr_rDiag] in *; try contradiction; open_up; norm; pr ltac:(idtac; fail). Qed.
Lemma par_h2_ckrow rr (a : slice) (a' : slice) (i : Z) : relS rr a a' -> prel req rr (p_h2_ckrow a i) (p_h2_ckrow a' i).
Proof. intros. open_up. unfold p_h2_ckrow. cbv zeta. norm. cbn [relM relV relB hb_blocks hb_rows hb_columns hb_blockRows hb_blockColumns hlu_lu hlu_pivot hlu_even hlu_singular hqr_qrt hqr_rDiag] in *; try contradiction; open_up; norm; pr ltac:(idtac; fail). Qed.
Lemma par_h2_ckcol rr (a : slice) (a' : slice) (j : Z) : relS rr a a' -> prel req rr (p_h2_ckcol a j) (p_h2_ckcol a' j).
Proof. intros. open_up. unfold p_h2_ckcol. cbv zeta. norm. cbn [relM relV relB hb_blocks hb_rows hb_columns hb_blockRows hb_blockColumns hlu_lu hlu_pivot hlu_even hlu_singular hqr_qrt hqr_rDiag] in *; try contradiction; open_up; norm; pr ltac:(idtac; first [eapply par_h2_cols; args]). Qed.
Lemma par_h2_ck rr (a : slice) (a' : slice) (i : Z) (j : Z) : relS rr a a' -> prel req rr (p_h2_ck a i j) (p_h2_ck a' i j).
Proof. intros. open_up. unfold p_h2_ck. cbv zeta. norm. cbn [relM relV relB hb_blocks hb_rows hb_columns hb_blockRows hb_blockColumns hlu_lu hlu_pivot hlu_even hlu_singular hqr_qrt hqr_rDiag] in *; try contradiction; open_up; norm; pr ltac:(idtac; first [eapply par_h2_ckrow; args | eapply par_h2_ckcol; args]). Qed.
Lemma par_h_make2 rr (r : Z) (c : Z) : prel relS rr (p_h_make2 r c) (p_h_make2 r c).
Proof. intros. open_up. unfold p_h_make2. cbv zeta. norm. cbn [relM relV relB hb_blocks hb_rows hb_columns hb_blockRows hb_blockColumns hlu_lu hlu_pivot hlu_even hlu_singular hqr_qrt hqr_rDiag] in *; try contradiction; open_up; norm; pr ltac:(idtac; fail). Qed.
Lemma par_h2_New rr (r : Z) (c : Z) : prel relS rr (p_h2_New r c) (p_h2_New r c).
Proof. intros. open_up. unfold p_h2_New. cbv zeta. norm. cbn [relM relV relB hb_blocks hb_rows hb_columns hb_blockRows hb_blockColumns hlu_lu hlu_pivot hlu_even hlu_singular hqr_qrt hqr_rDiag] in *; try contradiction; open_up; norm; pr ltac:(idtac; first [eapply par_h_make2; args]). Qed.
Lemma par_h2_At rr (a : slice) (a' : slice) (i : Z) (j : Z) : relS rr a a' -> prel req rr (p_h2_At a i j) (p_h2_At a' i j).
Proof. intros. open_up. unfold p_h2_At. cbv zeta. norm. cbn [relM relV relB hb_blocks hb_rows hb_columns hb_blockRows hb_blockColumns hlu_lu hlu_pivot hlu_even hlu_singular hqr_qrt hqr_rDiag] in *; try contradiction; open_up; norm; pr ltac:(idtac; first [eapply par_rd2; args | eapply par_h2_ck; args]). Qed.
Lemma par_h2_SetEntry rr (a : slice) (a' : slice) (i : Z) (j : Z) (x : F) : relS rr a a' -> prel req rr (p_h2_SetEntry a i j x) (p_h2_SetEntry a' i j x).
Proof. intros. open_up. unfold p_h2_SetEntry. cbv zeta. norm. cbn [relM relV relB hb_blocks hb_rows hb_columns hb_blockRows hb_blockColumns hlu_lu hlu_pivot hlu_even hlu_singular hqr_qrt hqr_rDiag] in *; try contradiction; open_up; norm; pr ltac:(idtac; first [eapply par_wr2; args | eapply par_h2_ck; args]). Qed.
Lemma par_h2_SetSubMatrix rr (a : slice) (a' : slice) (sub : slice) (sub' : slice) (row : Z) (column : Z) : relS rr a a' -> relS rr sub sub' -> prel relS rr (p_h2_SetSubMatrix a sub row column) (p_h2_SetSubMatrix a' sub' row column).
Proof. intros. open_up. unfold p_h2_SetSubMatrix. cbv zeta. norm. cbn [relM relV relB hb_blocks hb_rows hb_columns hb_blockRows hb_blockColumns hlu_lu hlu_pivot hlu_even hlu_singular hqr_qrt hqr_rDiag] in *; try contradiction; open_up; norm; pr ltac:(idtac; first [eapply par_rd2; args | eapply par_copyrange; args | eapply par_h2_ckrow; args | eapply par_h2_ckcol; args | eapply par_h2_SetEntry; args]). Qed.
Lemma par_h2_copyIn rr (sub : slice) (sub' : slice) : relS rr sub sub' -> prel relS rr (p_h2_copyIn sub) (p_h2_copyIn sub').
Proof. intros. open_up. unfold p_h2_copyIn. cbv zeta. norm. cbn [relM relV relB hb_blocks hb_rows hb_columns hb_blockRows hb_blockColumns hlu_lu hlu_pivot hlu_even hlu_singular hqr_qrt hqr_rDiag] in *; try contradiction; open_up; norm; pr ltac:(idtac; first [eapply par_h2_SetSubMatrix; args]). Qed.
Lemma par_h2_copyOut rr (a : slice) (a' : slice) : relS rr a a' -> prel relS rr (p_h2_copyOut a) (p_h2_copyOut a').
Proof. intros. open_up. unfold p_h2_copyOut. cbv zeta. norm. cbn [relM relV relB hb_blocks hb_rows hb_columns hb_blockRows hb_blockColumns hlu_lu hlu_pivot hlu_even hlu_singular hqr_qrt hqr_rDiag] in *; try contradiction; open_up; norm; pr ltac:(idtac; first [eapply par_copyrange; args | eapply par_h2_cols; args]). Qed.
Lemma par_h2_Data rr (a : slice) (a' : slice) : relS rr a a' -> prel relS rr (p_h2_Data a) (p_h2_Data a').
Proof. intros. open_up. unfold p_h2_Data. cbv zeta. norm. cbn [relM relV relB hb_blocks hb_rows hb_columns hb_blockRows hb_blockColumns hlu_lu hlu_pivot hlu_even hlu_singular hqr_qrt hqr_rDiag] in *; try contradiction; open_up; norm; pr ltac:(idtac; first [eapply par_h2_copyOut; args]). Qed.
Lemma par_h2_Copy rr (a : slice) (a' : slice) : relS rr a a' -> prel relS rr (p_h2_Copy a) (p_h2_Copy a').
Proof. intros. open_up. unfold p_h2_Copy. cbv zeta. norm. cbn [relM relV relB hb_blocks hb_rows hb_columns hb_blockRows hb_blockColumns hlu_lu hlu_pivot hlu_even hlu_singular hqr_qrt hqr_rDiag] in *; try contradiction; open_up; norm; pr ltac:(idtac; first [eapply par_h2_copyIn; args | eapply par_h2_copyOut; args]). Qed.
Lemma par_h2_FromSlices rr (data : slice) (data' : slice) (copyArray : bool) : relS rr data data' -> prel relS rr (p_h2_FromSlices data copyArray) (p_h2_FromSlices data' copyArray).
Proof. intros. open_up. unfold p_h2_FromSlices. cbv zeta. norm. cbn [relM relV relB hb_blocks hb_rows hb_columns hb_blockRows hb_blockColumns hlu_lu hlu_pivot hlu_even hlu_singular hqr_qrt hqr_rDiag] in *; try contradiction; open_up; norm; pr ltac:(idtac; first [eapply par_h2_copyIn; args]). Qed.
Lemma par_h2_ColumnAt rr (a : slice) (a' : slice) (j : Z) : relS rr a a' -> prel relF rr (p_h2_ColumnAt a j) (p_h2_ColumnAt a' j).
Proof. intros. open_up. unfold p_h2_ColumnAt. cbv zeta. norm. cbn [relM relV relB hb_blocks hb_rows hb_columns hb_blockRows hb_blockColumns hlu_lu hlu_pivot hlu_even hlu_singular hqr_qrt hqr_rDiag] in *; try contradiction; open_up; norm; pr ltac:(idtac; first [eapply par_rd2; args | eapply par_h2_ckcol; args]). Qed.
Lemma par_h2_RowAt rr (a : slice) (a' : slice) (i : Z) : relS rr a a' -> prel relF rr (p_h2_RowAt a i) (p_h2_RowAt a' i).
Proof. intros. open_up. unfold p_h2_RowAt. cbv zeta. norm. cbn [relM relV relB hb_blocks hb_rows hb_columns hb_blockRows hb_blockColumns hlu_lu hlu_pivot hlu_even hlu_singular hqr_qrt hqr_rDiag] in *; try contradiction; open_up; norm; pr ltac:(idtac; first [eapply par_copyrange; args | eapply par_h2_cols; args | eapply par_h2_ckrow; args]). Qed.
Lemma par_h2_RowVectorAt rr (a : slice) (a' : slice) (i : Z) : relS rr a a' -> prel relF rr (p_h2_RowVectorAt a i) (p_h2_RowVectorAt a' i).
Proof. intros. open_up. unfold p_h2_RowVectorAt. cbv zeta. norm. cbn [relM relV relB hb_blocks hb_rows hb_columns hb_blockRows hb_blockColumns hlu_lu hlu_pivot hlu_even hlu_singular hqr_qrt hqr_rDiag] in *; try contradiction; open_up; norm; pr ltac:(idtac; first [eapply par_h2_RowAt; args]). Qed.
Lemma par_h2_ColumnVectorAt rr (a : slice) (a' : slice) (j : Z) : relS rr a a' -> prel relF rr (p_h2_ColumnVectorAt a j) (p_h2_ColumnVectorAt a' j).
Proof. intros. open_up. unfold p_h2_ColumnVectorAt. cbv zeta. norm. cbn [relM relV relB hb_blocks hb_rows hb_columns hb_blockRows hb_blockColumns hlu_lu hlu_pivot hlu_even hlu_singular hqr_qrt hqr_rDiag] in *; try contradiction; open_up; norm; pr ltac:(idtac; first [eapply par_h2_ColumnAt; args]). Qed.
Lemma par_h2_SubMatrix rr (a : slice) (a' : slice) (r0 : Z) (r1 : Z) (c0 : Z) (c1 : Z) : relS rr a a' -> prel relS rr (p_h2_SubMatrix a r0 r1 c0 c1) (p_h2_SubMatrix a' r0 r1 c0 c1).
Proof. intros. open_up. unfold p_h2_SubMatrix. cbv zeta. norm. cbn [relM relV relB hb_blocks hb_rows hb_columns hb_blockRows hb_blockColumns hlu_lu hlu_pivot hlu_even hlu_singular hqr_qrt hqr_rDiag] in *; try contradiction; open_up; norm; pr ltac:(idtac; first [eapply par_copyrange; args | eapply par_h2_ckrow; args | eapply par_h2_ckcol; args]). Qed.
Lemma par_h2_RowMatrixAt rr (a : slice) (a' : slice) (row : Z) : relS rr a a' -> prel relS rr (p_h2_RowMatrixAt a row) (p_h2_RowMatrixAt a' row).
Proof. intros. open_up. unfold p_h2_RowMatrixAt. cbv zeta. norm. cbn [relM relV relB hb_blocks hb_rows hb_columns hb_blockRows hb_blockColumns hlu_lu hlu_pivot hlu_even hlu_singular hqr_qrt hqr_rDiag] in *; try contradiction; open_up; norm; pr ltac:(idtac; first [eapply par_rd2; args | eapply par_wr2; args | eapply par_h2_cols; args | eapply par_h2_ckrow; args | eapply par_h2_New; args]). Qed.
Lemma par_h2_ColumnMatrixAt rr (a : slice) (a' : slice) (column : Z) : relS rr a a' -> prel relS rr (p_h2_ColumnMatrixAt a column) (p_h2_ColumnMatrixAt a' column).
Proof. intros. open_up. unfold p_h2_ColumnMatrixAt. cbv zeta. norm. cbn [relM relV relB hb_blocks hb_rows hb_columns hb_blockRows hb_blockColumns hlu_lu hlu_pivot hlu_even hlu_singular hqr_qrt hqr_rDiag] in *; try contradiction; open_up; norm; pr ltac:(idtac; first [eapply par_rd2; args | eapply par_wr2; args | eapply par_h2_ckcol; args | eapply par_h2_New; args]). Qed.
Lemma par_h2_Transpose rr (a : slice) (a' : slice) : relS rr a a' -> prel relS rr (p_h2_Transpose a) (p_h2_Transpose a').
Proof. intros. open_up. unfold p_h2_Transpose. cbv zeta. norm. cbn [relM relV relB hb_blocks hb_rows hb_columns hb_blockRows hb_blockColumns hlu_lu hlu_pivot hlu_even hlu_singular hqr_qrt hqr_rDiag] in *; try contradiction; open_up; norm; pr ltac:(idtac; first [eapply par_rd2; args | eapply par_wr2; args | eapply par_h2_cols; args]). Qed.
Lemma par_hd_Copy rr (d : slice) (d' : slice) : relF rr d d' -> prel relF rr (p_hd_Copy d) (p_hd_Copy d').
Proof. intros. open_up. unfold p_hd_Copy. cbv zeta. norm. cbn [relM relV relB hb_blocks hb_rows hb_columns hb_blockRows hb_blockColumns hlu_lu hlu_pivot hlu_even hlu_singular hqr_qrt hqr_rDiag] in *; try contradiction; open_up; norm; pr ltac:(idtac; fail). Qed.
Lemma par_hd_Data rr (d : slice) (d' : slice) : relF rr d d' -> prel relS rr (p_hd_Data d) (p_hd_Data d').
Proof. intros. open_up. unfold p_hd_Data. cbv zeta. norm. cbn [relM relV relB hb_blocks hb_rows hb_columns hb_blockRows hb_blockColumns hlu_lu hlu_pivot hlu_even hlu_singular hqr_qrt hqr_rDiag] in *; try contradiction; open_up; norm; pr ltac:(idtac; first [eapply par_wr2; args]). Qed.
Lemma par_hd_At rr (d : slice) (d' : slice) (i : Z) (j : Z) : relF rr d d' -> prel req rr (p_hd_At d i j) (p_hd_At d' i j).
Proof. intros. open_up. unfold p_hd_At. cbv zeta. norm. cbn [relM relV relB hb_blocks hb_rows hb_columns hb_blockRows hb_blockColumns hlu_lu hlu_pivot hlu_even hlu_singular hqr_qrt hqr_rDiag] in *; try contradiction; open_up; norm; pr ltac:(idtac; first [eapply par_hcheck; args]). Qed.
Lemma par_hd_SetEntry rr (d : slice) (d' : slice) (i : Z) (j : Z) (x : F) : relF rr d d' -> prel req rr (p_hd_SetEntry d i j x) (p_hd_SetEntry d' i j x).
Proof. intros. open_up. unfold p_hd_SetEntry. cbv zeta. norm. cbn [relM relV relB hb_blocks hb_rows hb_columns hb_blockRows hb_blockColumns hlu_lu hlu_pivot hlu_even hlu_singular hqr_qrt hqr_rDiag] in *; try contradiction; open_up; norm; pr ltac:(idtac; first [eapply par_hcheck; args]). Qed.
Lemma par_hd_ColumnAt rr (d : slice) (d' : slice) (j : Z) : relF rr d d' -> prel relF rr (p_hd_ColumnAt d j) (p_hd_ColumnAt d' j).
Proof. intros. open_up. unfold p_hd_ColumnAt. cbv zeta. norm. cbn [relM relV relB hb_blocks hb_rows hb_columns hb_blockRows hb_blockColumns hlu_lu hlu_pivot hlu_even hlu_singular hqr_qrt hqr_rDiag] in *; try contradiction; open_up; norm; pr ltac:(idtac; first [eapply par_hcheck; args | eapply par_hd_At; args]). Qed.
Lemma par_hd_RowAt rr (d : slice) (d' : slice) (i : Z) : relF rr d d' -> prel relF rr (p_hd_RowAt d i) (p_hd_RowAt d' i).
Proof. intros. open_up. unfold p_hd_RowAt. cbv zeta. norm. cbn [relM relV relB hb_blocks hb_rows hb_columns hb_blockRows hb_blockColumns hlu_lu hlu_pivot hlu_even hlu_singular hqr_qrt hqr_rDiag] in *; try contradiction; open_up; norm; pr ltac:(idtac; first [eapply par_hcheck; args | eapply par_hd_At; args]). Qed.
Lemma par_hb_create rr (rows : Z) (columns : Z) : prel relS rr (p_hb_create rows columns) (p_hb_create rows columns).
Proof. intros. open_up. unfold p_hb_create. cbv zeta. norm. cbn [relM relV relB hb_blocks hb_rows hb_columns hb_blockRows hb_blockColumns hlu_lu hlu_pivot hlu_even hlu_singular hqr_qrt hqr_rDiag] in *; try contradiction; open_up; norm; pr ltac:(idtac; fail). Qed.
Lemma par_hb_New rr (rows : Z) (columns : Z) : prel relB rr (p_hb_New rows columns) (p_hb_New rows columns).
Proof. intros. open_up. unfold p_hb_New. cbv zeta. norm. cbn [relM relV relB hb_blocks hb_rows hb_columns hb_blockRows hb_blockColumns hlu_lu hlu_pivot hlu_even hlu_singular hqr_qrt hqr_rDiag] in *; try contradiction; open_up; norm; pr ltac:(idtac; first [eapply par_hb_create; args]). Qed.
Lemma par_hb_FromBlockData rr (rows : Z) (columns : Z) (blockData : slice) (blockData' : slice) : relS rr blockData blockData' -> prel relB rr (p_hb_FromBlockData rows columns blockData) (p_hb_FromBlockData rows columns blockData').
Proof. intros. open_up. unfold p_hb_FromBlockData. cbv zeta. norm. cbn [relM relV relB hb_blocks hb_rows hb_columns hb_blockRows hb_blockColumns hlu_lu hlu_pivot hlu_even hlu_singular hqr_qrt hqr_rDiag] in *; try contradiction; open_up; norm; pr ltac:(idtac; fail). Qed.
Lemma par_hb_toBlocks rr (raw : slice) (raw' : slice) : relS rr raw raw' -> prel relS rr (p_hb_toBlocks raw) (p_hb_toBlocks raw').
Proof. intros. open_up. unfold p_hb_toBlocks. cbv zeta. norm. cbn [relM relV relB hb_blocks hb_rows hb_columns hb_blockRows hb_blockColumns hlu_lu hlu_pivot hlu_even hlu_singular hqr_qrt hqr_rDiag] in *; try contradiction; open_up; norm; pr ltac:(idtac; first [eapply par_copyrange; args]). Qed.
Lemma par_hb_FromSlices rr (raw : slice) (raw' : slice) : relS rr raw raw' -> prel relB rr (p_hb_FromSlices raw) (p_hb_FromSlices raw').
Proof. intros. open_up. unfold p_hb_FromSlices. cbv zeta. norm. cbn [relM relV relB hb_blocks hb_rows hb_columns hb_blockRows hb_blockColumns hlu_lu hlu_pivot hlu_even hlu_singular hqr_qrt hqr_rDiag] in *; try contradiction; open_up; norm; pr ltac:(idtac; first [eapply par_hb_FromBlockData; args | eapply par_hb_toBlocks; args]). Qed.
Lemma par_hb_Copy rr (b : HBlk) (b' : HBlk) : relB rr b b' -> prel relB rr (p_hb_Copy b) (p_hb_Copy b').
Proof. intros. open_up. unfold p_hb_Copy. cbv zeta. norm. cbn [relM relV relB hb_blocks hb_rows hb_columns hb_blockRows hb_blockColumns hlu_lu hlu_pivot hlu_even hlu_singular hqr_qrt hqr_rDiag] in *; try contradiction; open_up; norm; pr ltac:(idtac; first [eapply par_hb_create; args]). Qed.
Lemma par_hb_Data rr (b : HBlk) (b' : HBlk) : relB rr b b' -> prel relS rr (p_hb_Data b) (p_hb_Data b').
Proof. intros. open_up. unfold p_hb_Data. cbv zeta. norm. cbn [relM relV relB hb_blocks hb_rows hb_columns hb_blockRows hb_blockColumns hlu_lu hlu_pivot hlu_even hlu_singular hqr_qrt hqr_rDiag] in *; try contradiction; open_up; norm; pr ltac:(idtac; first [eapply par_copyrange; args]). Qed.
Lemma par_hb_ckrow rr (b : HBlk) (b' : HBlk) (i : Z) : relB rr b b' -> prel req rr (p_hb_ckrow b i) (p_hb_ckrow b' i).
Proof. intros. open_up. unfold p_hb_ckrow. cbv zeta. norm. cbn [relM relV relB hb_blocks hb_rows hb_columns hb_blockRows hb_blockColumns hlu_lu hlu_pivot hlu_even hlu_singular hqr_qrt hqr_rDiag] in *; try contradiction; open_up; norm; pr ltac:(idtac; fail). Qed.
Lemma par_hb_ckcol rr (b : HBlk) (b' : HBlk) (j : Z) : relB rr b b' -> prel req rr (p_hb_ckcol b j) (p_hb_ckcol b' j).
Proof. intros. open_up. unfold p_hb_ckcol. cbv zeta. norm. cbn [relM relV relB hb_blocks hb_rows hb_columns hb_blockRows hb_blockColumns hlu_lu hlu_pivot hlu_even hlu_singular hqr_qrt hqr_rDiag] in *; try contradiction; open_up; norm; pr ltac:(idtac; fail). Qed.
Lemma par_hb_At rr (b : HBlk) (b' : HBlk) (i : Z) (j : Z) : relB rr b b' -> prel req rr (p_hb_At b i j) (p_hb_At b' i j).
Proof. intros. open_up. unfold p_hb_At. cbv zeta. norm. cbn [relM relV relB hb_blocks hb_rows hb_columns hb_blockRows hb_blockColumns hlu_lu hlu_pivot hlu_even hlu_singular hqr_qrt hqr_rDiag] in *; try contradiction; open_up; norm; pr ltac:(idtac; first [eapply par_rd2; args | eapply par_hb_ckrow; args | eapply par_hb_ckcol; args]). Qed.
Lemma par_hb_SetEntry rr (b : HBlk) (b' : HBlk) (i : Z) (j : Z) (x : F) : relB rr b b' -> prel req rr (p_hb_SetEntry b i j x) (p_hb_SetEntry b' i j x).
Proof. intros. open_up. unfold p_hb_SetEntry. cbv zeta. norm. cbn [relM relV relB hb_blocks hb_rows hb_columns hb_blockRows hb_blockColumns hlu_lu hlu_pivot hlu_even hlu_singular hqr_qrt hqr_rDiag] in *; try contradiction; open_up; norm; pr ltac:(idtac; first [eapply par_wr2; args | eapply par_hb_ckrow; args | eapply par_hb_ckcol; args]). Qed.
Lemma par_hb_RowAt rr (b : HBlk) (b' : HBlk) (row : Z) : relB rr b b' -> prel relF rr (p_hb_RowAt b row) (p_hb_RowAt b' row).
Proof. intros. open_up. unfold p_hb_RowAt. cbv zeta. norm. cbn [relM relV relB hb_blocks hb_rows hb_columns hb_blockRows hb_blockColumns hlu_lu hlu_pivot hlu_even hlu_singular hqr_qrt hqr_rDiag] in *; try contradiction; open_up; norm; pr ltac:(idtac; first [eapply par_copyrange; args | eapply par_hb_ckrow; args]). Qed.
Lemma par_hb_ColumnAt rr (b : HBlk) (b' : HBlk) (column : Z) : relB rr b b' -> prel relF rr (p_hb_ColumnAt b column) (p_hb_ColumnAt b' column).
Proof. intros. open_up. unfold p_hb_ColumnAt. cbv zeta. norm. cbn [relM relV relB hb_blocks hb_rows hb_columns hb_blockRows hb_blockColumns hlu_lu hlu_pivot hlu_even hlu_singular hqr_qrt hqr_rDiag] in *; try contradiction; open_up; norm; pr ltac:(idtac; first [eapply par_rd2; args | eapply par_hb_ckcol; args]). Qed.
Lemma par_hb_part rr (src : slice) (src' : slice) (sw : Z) (sr0 : Z) (sr1 : Z) (sc0 : Z) (sc1 : Z) (dst : slice) (dst' : slice) (dw : Z) (dr0 : Z) (dc0 : Z) : relF rr src src' -> relF rr dst dst' -> prel req rr (p_hb_part src sw sr0 sr1 sc0 sc1 dst dw dr0 dc0) (p_hb_part src' sw sr0 sr1 sc0 sc1 dst' dw dr0 dc0).
Proof. intros. open_up. unfold p_hb_part. cbv zeta. norm. cbn [relM relV relB hb_blocks hb_rows hb_columns hb_blockRows hb_blockColumns hlu_lu hlu_pivot hlu_even hlu_singular hqr_qrt hqr_rDiag] in *; try contradiction; open_up; norm; pr ltac:(idtac; first [eapply par_copyrange; args]). Qed.
Lemma par_hb_SubMatrix rr (b : HBlk) (b' : HBlk) (r0 : Z) (r1 : Z) (c0 : Z) (c1 : Z) : relB rr b b' -> prel relB rr (p_hb_SubMatrix b r0 r1 c0 c1) (p_hb_SubMatrix b' r0 r1 c0 c1).
Proof. intros. open_up. unfold p_hb_SubMatrix. cbv zeta. norm. cbn [relM relV relB hb_blocks hb_rows hb_columns hb_blockRows hb_blockColumns hlu_lu hlu_pivot hlu_even hlu_singular hqr_qrt hqr_rDiag] in *; try contradiction; open_up; norm; pr ltac:(idtac; first [eapply par_hb_New; args | eapply par_hb_ckrow; args | eapply par_hb_ckcol; args | eapply par_hb_part; args]). Qed.
Lemma par_hm_cols rr (x : HMat) (x' : HMat) : relM rr x x' -> prel req rr (p_hm_cols x) (p_hm_cols x').
Proof. intros. open_up. unfold p_hm_cols. cbv zeta. norm. destruct x, x'; cbn [relM relV relB hb_blocks hb_rows hb_columns hb_blockRows hb_blockColumns hlu_lu hlu_pivot hlu_even hlu_singular hqr_qrt hqr_rDiag] in *; try contradiction; open_up; norm; pr ltac:(idtac; first [eapply par_h2_cols; args]). Qed.
Lemma par_hm_Data rr (x : HMat) (x' : HMat) : relM rr x x' -> prel relS rr (p_hm_Data x) (p_hm_Data x').
Proof. intros. open_up. unfold p_hm_Data. cbv zeta. norm. destruct x, x'; cbn [relM relV relB hb_blocks hb_rows hb_columns hb_blockRows hb_blockColumns hlu_lu hlu_pivot hlu_even hlu_singular hqr_qrt hqr_rDiag] in *; try contradiction; open_up; norm; pr ltac:(idtac; first [eapply par_h2_Data; args | eapply par_hd_Data; args | eapply par_hb_Data; args]). Qed.
Lemma par_hm_IsSquare rr (x : HMat) (x' : HMat) : relM rr x x' -> prel req rr (p_hm_IsSquare x) (p_hm_IsSquare x').
Proof. intros. open_up. unfold p_hm_IsSquare. cbv zeta. norm. cbn [relM relV relB hb_blocks hb_rows hb_columns hb_blockRows hb_blockColumns hlu_lu hlu_pivot hlu_even hlu_singular hqr_qrt hqr_rDiag] in *; try contradiction; open_up; norm; pr ltac:(idtac; first [eapply par_hm_cols; args]). Qed.
Lemma par_hd_Transpose rr (d : slice) (d' : slice) : relF rr d d' -> prel relF rr (p_hd_Transpose d) (p_hd_Transpose d').
Proof. intros. open_up. unfold p_hd_Transpose. cbv zeta. norm. cbn [relM relV relB hb_blocks hb_rows hb_columns hb_blockRows hb_blockColumns hlu_lu hlu_pivot hlu_even hlu_singular hqr_qrt hqr_rDiag] in *; try contradiction; open_up; norm; pr ltac:(idtac; first [eapply par_hd_At; args | eapply par_hd_SetEntry; args]). Qed.
Lemma par_hb_Transpose rr (b : HBlk) (b' : HBlk) : relB rr b b' -> prel relB rr (p_hb_Transpose b) (p_hb_Transpose b').
Proof. intros. open_up. unfold p_hb_Transpose. cbv zeta. norm. cbn [relM relV relB hb_blocks hb_rows hb_columns hb_blockRows hb_blockColumns hlu_lu hlu_pivot hlu_even hlu_singular hqr_qrt hqr_rDiag] in *; try contradiction; open_up; norm; pr ltac:(idtac; first [eapply par_rd2; args | eapply par_wr2; args | eapply par_hb_create; args]). Qed.
Lemma par_hm_Transpose rr (x : HMat) (x' : HMat) : relM rr x x' -> prel relM rr (p_hm_Transpose x) (p_hm_Transpose x').
Proof. intros. open_up. unfold p_hm_Transpose. cbv zeta. norm. destruct x, x'; cbn [relM relV relB hb_blocks hb_rows hb_columns hb_blockRows hb_blockColumns hlu_lu hlu_pivot hlu_even hlu_singular hqr_qrt hqr_rDiag] in *; try contradiction; open_up; norm; pr ltac:(idtac; first [eapply par_h2_Transpose; args | eapply par_hd_Transpose; args | eapply par_hb_Transpose; args]). Qed.
Lemma par_hlu_reduce rr (lu : slice) (lu' : slice) (row : Z) (col : Z) (n : Z) : relS rr lu lu' -> prel req rr (p_hlu_reduce lu row col n) (p_hlu_reduce lu' row col n).
Proof. intros. open_up. unfold p_hlu_reduce. cbv zeta. norm. cbn [relM relV relB hb_blocks hb_rows hb_columns hb_blockRows hb_blockColumns hlu_lu hlu_pivot hlu_even hlu_singular hqr_qrt hqr_rDiag] in *; try contradiction; open_up; norm; pr ltac:(idtac; first [eapply par_rd2; args]). Qed.
Lemma par_hlu_upper rr (col : Z) (lu : slice) (lu' : slice) : relS rr lu lu' -> prel req rr (p_hlu_upper col lu) (p_hlu_upper col lu').
Proof. intros. open_up. unfold p_hlu_upper. cbv zeta. norm. cbn [relM relV relB hb_blocks hb_rows hb_columns hb_blockRows hb_blockColumns hlu_lu hlu_pivot hlu_even hlu_singular hqr_qrt hqr_rDiag] in *; try contradiction; open_up; norm; pr ltac:(idtac; first [eapply par_hlu_reduce; args]). Qed.
Lemma par_hlu_lower rr (m : Z) (col : Z) (lu : slice) (lu' : slice) : relS rr lu lu' -> prel req rr (p_hlu_lower m col lu) (p_hlu_lower m col lu').
Proof. intros. open_up. unfold p_hlu_lower. cbv zeta. norm. cbn [relM relV relB hb_blocks hb_rows hb_columns hb_blockRows hb_blockColumns hlu_lu hlu_pivot hlu_even hlu_singular hqr_qrt hqr_rDiag] in *; try contradiction; open_up; norm; pr ltac:(idtac; first [eapply par_hlu_reduce; args]). Qed.
Lemma par_hlu_swap rr (m : Z) (max : Z) (col : Z) (lu : slice) (lu' : slice) (pivot : list Z) : relS rr lu lu' -> prel req rr (p_hlu_swap m max col lu pivot) (p_hlu_swap m max col lu' pivot).
Proof. intros. open_up. unfold p_hlu_swap. cbv zeta. norm. cbn [relM relV relB hb_blocks hb_rows hb_columns hb_blockRows hb_blockColumns hlu_lu hlu_pivot hlu_even hlu_singular hqr_qrt hqr_rDiag] in *; try contradiction; open_up; norm; pr ltac:(idtac; fail). Qed.
Lemma par_hlu_divide rr (m : Z) (col : Z) (lu : slice) (lu' : slice) : relS rr lu lu' -> prel req rr (p_hlu_divide m col lu) (p_hlu_divide m col lu').
Proof. intros. open_up. unfold p_hlu_divide. cbv zeta. norm. cbn [relM relV relB hb_blocks hb_rows hb_columns hb_blockRows hb_blockColumns hlu_lu hlu_pivot hlu_even hlu_singular hqr_qrt hqr_rDiag] in *; try contradiction; open_up; norm; pr ltac:(idtac; first [eapply par_rd2; args | eapply par_wr2; args]). Qed.
Lemma par_hlu_column rr (m : Z) (threshold : F) (lu : slice) (lu' : slice) (col : Z) (s : list Z * bool) : relS rr lu lu' -> prel req rr (p_hlu_column m threshold lu col s) (p_hlu_column m threshold lu' col s).
Proof. intros. open_up. destruct s. unfold p_hlu_column. cbv zeta. norm. cbn [relM relV relB hb_blocks hb_rows hb_columns hb_blockRows hb_blockColumns hlu_lu hlu_pivot hlu_even hlu_singular hqr_qrt hqr_rDiag] in *; try contradiction; open_up; norm; pr ltac:(idtac; first [eapply par_rd2; args | eapply par_hlu_upper; args | eapply par_hlu_lower; args | eapply par_hlu_swap; args | eapply par_hlu_divide; args]). Qed.
Lemma par_h_NewLU rr (x : HMat) (x' : HMat) (threshold : F) : relM rr x x' -> prel relLU rr (p_h_NewLU x threshold) (p_h_NewLU x' threshold).
Proof. intros. open_up. unfold p_h_NewLU. cbv zeta. norm. cbn [relM relV relB hb_blocks hb_rows hb_columns hb_blockRows hb_blockColumns hlu_lu hlu_pivot hlu_even hlu_singular hqr_qrt hqr_rDiag] in *; try contradiction; open_up; norm; pr ltac:(idtac; first [eapply par_hm_cols; args | eapply par_hm_Data; args | eapply par_hm_IsSquare; args | eapply par_hlu_column; args]). Qed.
Lemma par_hch_check rr (order : Z) (rel : F) (lT : slice) (lT' : slice) : relS rr lT lT' -> prel req rr (p_hch_check order rel lT) (p_hch_check order rel lT').
Proof. intros. open_up. unfold p_hch_check. cbv zeta. norm. cbn [relM relV relB hb_blocks hb_rows hb_columns hb_blockRows hb_blockColumns hlu_lu hlu_pivot hlu_even hlu_singular hqr_qrt hqr_rDiag] in *; try contradiction; open_up; norm; pr ltac:(idtac; fail). Qed.
Lemma par_hch_step rr (order : Z) (pos : F) (lT : slice) (lT' : slice) (i : Z) (u : unit) : relS rr lT lT' -> prel req rr (p_hch_step order pos lT i u) (p_hch_step order pos lT' i u).
Proof. intros. open_up. unfold p_hch_step. cbv zeta. norm. cbn [relM relV relB hb_blocks hb_rows hb_columns hb_blockRows hb_blockColumns hlu_lu hlu_pivot hlu_even hlu_singular hqr_qrt hqr_rDiag] in *; try contradiction; open_up; norm; pr ltac:(idtac; first [eapply par_modF; args]). Qed.
Lemma par_h_NewCholesky rr (x : HMat) (x' : HMat) (rel : F) (pos : F) : relM rr x x' -> prel relS rr (p_h_NewCholesky x rel pos) (p_h_NewCholesky x' rel pos).
Proof. intros. open_up. unfold p_h_NewCholesky. cbv zeta. norm. cbn [relM relV relB hb_blocks hb_rows hb_columns hb_blockRows hb_blockColumns hlu_lu hlu_pivot hlu_even hlu_singular hqr_qrt hqr_rDiag] in *; try contradiction; open_up; norm; pr ltac:(idtac; first [eapply par_hm_Data; args | eapply par_hm_IsSquare; args | eapply par_hch_check; args | eapply par_hch_step; args]). Qed.
Lemma par_hqr_reflect rr (qrt : slice) (qrt' : slice) (rDiag : slice) (rDiag' : slice) (minor : Z) (u : unit) : relS rr qrt qrt' -> relF rr rDiag rDiag' -> prel req rr (p_hqr_reflect qrt rDiag minor u) (p_hqr_reflect qrt' rDiag' minor u).
Proof. intros. open_up. unfold p_hqr_reflect. cbv zeta. norm. cbn [relM relV relB hb_blocks hb_rows hb_columns hb_blockRows hb_blockColumns hlu_lu hlu_pivot hlu_even hlu_singular hqr_qrt hqr_rDiag] in *; try contradiction; open_up; norm; pr ltac:(idtac; first [eapply par_modF; args]). Qed.
Lemma par_h_NewQR rr (x : HMat) (x' : HMat) : relM rr x x' -> prel relQR rr (p_h_NewQR x) (p_h_NewQR x').
Proof. intros. open_up. unfold p_h_NewQR. cbv zeta. norm. cbn [relM relV relB hb_blocks hb_rows hb_columns hb_blockRows hb_blockColumns hlu_lu hlu_pivot hlu_even hlu_singular hqr_qrt hqr_rDiag] in *; try contradiction; open_up; norm; pr ltac:(idtac; first [eapply par_hm_cols; args | eapply par_hm_Data; args | eapply par_hm_Transpose; args | eapply par_hqr_reflect; args]). Qed.
Lemma par_hhs_step rr (n : Z) (hv : slice) (hv' : slice) (ort : slice) (ort' : slice) (m : Z) (u : unit) : relS rr hv hv' -> relF rr ort ort' -> prel req rr (p_hhs_step n hv ort m u) (p_hhs_step n hv' ort' m u).
Proof. intros. open_up. unfold p_hhs_step. cbv zeta. norm. cbn [relM relV relB hb_blocks hb_rows hb_columns hb_blockRows hb_blockColumns hlu_lu hlu_pivot hlu_even hlu_singular hqr_qrt hqr_rDiag] in *; try contradiction; open_up; norm; pr ltac:(idtac; first [eapply par_modF; args | eapply par_rd2; args | eapply par_wr2; args]). Qed.
Lemma par_h_NewHessenberg rr (x : HMat) (x' : HMat) : relM rr x x' -> prel relHs rr (p_h_NewHessenberg x) (p_h_NewHessenberg x').
Proof. intros. open_up. unfold p_h_NewHessenberg. cbv zeta. norm. cbn [relM relV relB hb_blocks hb_rows hb_columns hb_blockRows hb_blockColumns hlu_lu hlu_pivot hlu_even hlu_singular hqr_qrt hqr_rDiag] in *; try contradiction; open_up; norm; pr ltac:(idtac; first [eapply par_hm_Data; args | eapply par_hm_IsSquare; args | eapply par_hhs_step; args]). Qed.
Lemma par_hrr_reflect rr (qrt : slice) (qrt' : slice) (rDiag : slice) (rDiag' : slice) (minor : Z) (p : list Z) : relS rr qrt qrt' -> relF rr rDiag rDiag' -> prel req rr (p_hrr_reflect qrt rDiag minor p) (p_hrr_reflect qrt' rDiag' minor p).
Proof. intros. open_up. unfold p_hrr_reflect. cbv zeta. norm. cbn [relM relV relB hb_blocks hb_rows hb_columns hb_blockRows hb_blockColumns hlu_lu hlu_pivot hlu_even hlu_singular hqr_qrt hqr_rDiag] in *; try contradiction; open_up; norm; pr ltac:(idtac; first [eapply par_rd2; args | eapply par_hqr_reflect; args]). Qed.
Lemma par_h_NewRRQR rr (x : HMat) (x' : HMat) : relM rr x x' -> prel relRR rr (p_h_NewRRQR x) (p_h_NewRRQR x').
Proof. intros. open_up. unfold p_h_NewRRQR. cbv zeta. norm. cbn [relM relV relB hb_blocks hb_rows hb_columns hb_blockRows hb_blockColumns hlu_lu hlu_pivot hlu_even hlu_singular hqr_qrt hqr_rDiag] in *; try contradiction; open_up; norm; pr ltac:(idtac; first [eapply par_hm_cols; args | eapply par_hm_Data; args | eapply par_hm_Transpose; args | eapply par_hrr_reflect; args]). Qed.
Lemma par_htd_step rr (m : Z) (hv : slice) (hv' : slice) (mn : slice) (mn' : slice) (sec : slice) (sec' : slice) (z : slice) (z' : slice) (k : Z) (u : unit) : relS rr hv hv' -> relF rr mn mn' -> relF rr sec sec' -> relF rr z z' -> prel req rr (p_htd_step m hv mn sec z k u) (p_htd_step m hv' mn' sec' z' k u).
Proof. intros. open_up. unfold p_htd_step. cbv zeta. norm. cbn [relM relV relB hb_blocks hb_rows hb_columns hb_blockRows hb_blockColumns hlu_lu hlu_pivot hlu_even hlu_singular hqr_qrt hqr_rDiag] in *; try contradiction; open_up; norm; pr ltac:(idtac; first [eapply par_modF; args]). Qed.
Lemma par_h_NewTriDiagonal rr (x : HMat) (x' : HMat) : relM rr x x' -> prel relTd rr (p_h_NewTriDiagonal x) (p_h_NewTriDiagonal x').
Proof. intros. open_up. unfold p_h_NewTriDiagonal. cbv zeta. norm. cbn [relM relV relB hb_blocks hb_rows hb_columns hb_blockRows hb_blockColumns hlu_lu hlu_pivot hlu_even hlu_singular hqr_qrt hqr_rDiag] in *; try contradiction; open_up; norm; pr ltac:(idtac; first [eapply par_rd2; args | eapply par_hm_Data; args | eapply par_hm_IsSquare; args | eapply par_htd_step; args]). Qed.
Lemma par_hbd_upper rr (hv : slice) (hv' : slice) (mn : slice) (mn' : slice) (sec : slice) (sec' : slice) (m : Z) (n : Z) (k : Z) (u : unit) : relS rr hv hv' -> relF rr mn mn' -> relF rr sec sec' -> prel req rr (p_hbd_upper hv mn sec m n k u) (p_hbd_upper hv' mn' sec' m n k u).
Proof. intros. open_up. unfold p_hbd_upper, p_hbd_columns, p_hbd_rows. cbv zeta. norm. cbn [relM relV relB hb_blocks hb_rows hb_columns hb_blockRows hb_blockColumns hlu_lu hlu_pivot hlu_even hlu_singular hqr_qrt hqr_rDiag] in *; try contradiction; open_up; norm; pr ltac:(idtac; first [eapply par_modF; args | eapply par_rd2; args]). Qed.
Lemma par_hbd_lower rr (hv : slice) (hv' : slice) (mn : slice) (mn' : slice) (sec : slice) (sec' : slice) (m : Z) (n : Z) (k : Z) (u : unit) : relS rr hv hv' -> relF rr mn mn' -> relF rr sec sec' -> prel req rr (p_hbd_lower hv mn sec m n k u) (p_hbd_lower hv' mn' sec' m n k u).
Proof. intros. open_up. unfold p_hbd_lower, p_hbd_columns, p_hbd_rows. cbv zeta. norm. cbn [relM relV relB hb_blocks hb_rows hb_columns hb_blockRows hb_blockColumns hlu_lu hlu_pivot hlu_even hlu_singular hqr_qrt hqr_rDiag] in *; try contradiction; open_up; norm; pr ltac:(idtac; first [eapply par_modF; args | eapply par_rd2; args]). Qed.
Lemma par_h_NewBiDiagonal rr (x : HMat) (x' : HMat) : relM rr x x' -> prel relTd rr (p_h_NewBiDiagonal x) (p_h_NewBiDiagonal x').
Proof. intros. open_up. unfold p_h_NewBiDiagonal. cbv zeta. norm. cbn [relM relV relB hb_blocks hb_rows hb_columns hb_blockRows hb_blockColumns hlu_lu hlu_pivot hlu_even hlu_singular hqr_qrt hqr_rDiag] in *; try contradiction; open_up; norm; pr ltac:(idtac; first [eapply par_hm_cols; args | eapply par_hm_Data; args | eapply par_hbd_upper; args | eapply par_hbd_lower; args]). Qed.
Lemma par_hm_SetEntry rr (x : HMat) (x' : HMat) (i : Z) (j : Z) (v : F) : relM rr x x' -> prel req rr (p_hm_SetEntry x i j v) (p_hm_SetEntry x' i j v).
Proof. intros. open_up. unfold p_hm_SetEntry. cbv zeta. norm. destruct x, x'; cbn [relM relV relB hb_blocks hb_rows hb_columns hb_blockRows hb_blockColumns hlu_lu hlu_pivot hlu_even hlu_singular hqr_qrt hqr_rDiag] in *; try contradiction; open_up; norm; pr ltac:(idtac; first [eapply par_h2_SetEntry; args | eapply par_hd_SetEntry; args | eapply par_hb_SetEntry; args]). Qed.
Lemma par_h_NewRealMatrixWithDimension rr (r : Z) (c : Z) : prel relM rr (p_h_NewRealMatrixWithDimension r c) (p_h_NewRealMatrixWithDimension r c).
Proof. intros. open_up. unfold p_h_NewRealMatrixWithDimension. cbv zeta. norm. cbn [relM relV relB hb_blocks hb_rows hb_columns hb_blockRows hb_blockColumns hlu_lu hlu_pivot hlu_even hlu_singular hqr_qrt hqr_rDiag] in *; try contradiction; open_up; norm; pr ltac:(idtac; first [eapply par_h2_New; args | eapply par_hb_New; args]). Qed.
Lemma par_hrc_turn rr (order : Z) (small : F) (b : slice) (b' : slice) (c : slice) (c' : slice) (r : Z) (s : list Z * Z) : relS rr b b' -> relS rr c c' -> prel req rr (p_hrc_turn order small b c r s) (p_hrc_turn order small b' c' r s).
Proof. intros. open_up. unfold p_hrc_turn. cbv zeta. norm. cbn [relM relV relB hb_blocks hb_rows hb_columns hb_blockRows hb_blockColumns hlu_lu hlu_pivot hlu_even hlu_singular hqr_qrt hqr_rDiag] in *; try contradiction; open_up; norm; pr ltac:(idtac; first [eapply par_rd2; args | eapply par_wr2; args]). Qed.
Lemma par_h_NewRectChol rr (x : HMat) (x' : HMat) (small : F) : relM rr x x' -> prel relM rr (p_h_NewRectChol x small) (p_h_NewRectChol x' small).
Proof. intros. open_up. unfold p_h_NewRectChol. cbv zeta. norm. cbn [relM relV relB hb_blocks hb_rows hb_columns hb_blockRows hb_blockColumns hlu_lu hlu_pivot hlu_even hlu_singular hqr_qrt hqr_rDiag] in *; try contradiction; open_up; norm; pr ltac:(idtac; first [eapply par_rd2; args | eapply par_h_make2; args | eapply par_hm_Data; args | eapply par_hm_SetEntry; args | eapply par_h_NewRealMatrixWithDimension; args | eapply par_hrc_turn; args]). Qed.
Lemma par_h_NewRealMatrixFromSlices rr (data : slice) (data' : slice) : relS rr data data' -> prel relM rr (p_h_NewRealMatrixFromSlices data) (p_h_NewRealMatrixFromSlices data').
Proof. intros. open_up. unfold p_h_NewRealMatrixFromSlices. cbv zeta. norm. cbn [relM relV relB hb_blocks hb_rows hb_columns hb_blockRows hb_blockColumns hlu_lu hlu_pivot hlu_even hlu_singular hqr_qrt hqr_rDiag] in *; try contradiction; open_up; norm; pr ltac:(idtac; first [eapply par_h2_FromSlices; args | eapply par_hb_FromSlices; args]). Qed.
Lemma par_hm_At rr (x : HMat) (x' : HMat) (i : Z) (j : Z) : relM rr x x' -> prel req rr (p_hm_At x i j) (p_hm_At x' i j).
Proof. intros. open_up. unfold p_hm_At. cbv zeta. norm. destruct x, x'; cbn [relM relV relB hb_blocks hb_rows hb_columns hb_blockRows hb_blockColumns hlu_lu hlu_pivot hlu_even hlu_singular hqr_qrt hqr_rDiag] in *; try contradiction; open_up; norm; pr ltac:(idtac; first [eapply par_h2_At; args | eapply par_hd_At; args | eapply par_hb_At; args]). Qed.
Lemma par_hv_ToArray rr (v : HVec) (v' : HVec) : relV rr v v' -> prel relF rr (p_hv_ToArray v) (p_hv_ToArray v').
Proof. intros. open_up. unfold p_hv_ToArray. cbv zeta. norm. destruct v, v'; cbn [relM relV relB hb_blocks hb_rows hb_columns hb_blockRows hb_blockColumns hlu_lu hlu_pivot hlu_even hlu_singular hqr_qrt hqr_rDiag] in *; try contradiction; open_up; norm; pr ltac:(idtac; fail). Qed.
Lemma par_h_NewRealIdentityMatrix rr (n : Z) : prel relM rr (p_h_NewRealIdentityMatrix n) (p_h_NewRealIdentityMatrix n).
Proof. intros. open_up. unfold p_h_NewRealIdentityMatrix. cbv zeta. norm. cbn [relM relV relB hb_blocks hb_rows hb_columns hb_blockRows hb_blockColumns hlu_lu hlu_pivot hlu_even hlu_singular hqr_qrt hqr_rDiag] in *; try contradiction; open_up; norm; pr ltac:(idtac; first [eapply par_hm_SetEntry; args | eapply par_h_NewRealMatrixWithDimension; args]). Qed.
Lemma par_hlus_SolveVector rr (s : HLU) (s' : HLU) (b : HVec) (b' : HVec) : relLU rr s s' -> relV rr b b' -> prel relF rr (p_hlus_SolveVector s b) (p_hlus_SolveVector s' b').
Proof. intros. open_up. unfold p_hlus_SolveVector. cbv zeta. norm. cbn [relM relV relB hb_blocks hb_rows hb_columns hb_blockRows hb_blockColumns hlu_lu hlu_pivot hlu_even hlu_singular hqr_qrt hqr_rDiag] in *; try contradiction; open_up; norm; pr ltac:(idtac; first [eapply par_rd2; args | eapply par_hv_At; args]). Qed.
Lemma par_hrow_sub rr (n : Z) (rI : slice) (rI' : slice) (rC : slice) (rC' : slice) (l : F) : relF rr rI rI' -> relF rr rC rC' -> prel req rr (p_hrow_sub n rI rC l) (p_hrow_sub n rI' rC' l).
Proof. intros. open_up. unfold p_hrow_sub. cbv zeta. norm. cbn [relM relV relB hb_blocks hb_rows hb_columns hb_blockRows hb_blockColumns hlu_lu hlu_pivot hlu_even hlu_singular hqr_qrt hqr_rDiag] in *; try contradiction; open_up; norm; pr ltac:(idtac; fail). Qed.
Lemma par_hrow_div rr (n : Z) (rC : slice) (rC' : slice) (u : F) : relF rr rC rC' -> prel req rr (p_hrow_div n rC u) (p_hrow_div n rC' u).
Proof. intros. open_up. unfold p_hrow_div. cbv zeta. norm. cbn [relM relV relB hb_blocks hb_rows hb_columns hb_blockRows hb_blockColumns hlu_lu hlu_pivot hlu_even hlu_singular hqr_qrt hqr_rDiag] in *; try contradiction; open_up; norm; pr ltac:(idtac; fail). Qed.
Lemma par_hlus_SolveMatrix rr (s : HLU) (s' : HLU) (b : HMat) (b' : HMat) : relLU rr s s' -> relM rr b b' -> prel relM rr (p_hlus_SolveMatrix s b) (p_hlus_SolveMatrix s' b').
Proof. intros. open_up. unfold p_hlus_SolveMatrix. cbv zeta. norm. cbn [relM relV relB hb_blocks hb_rows hb_columns hb_blockRows hb_blockColumns hlu_lu hlu_pivot hlu_even hlu_singular hqr_qrt hqr_rDiag] in *; try contradiction; open_up; norm; pr ltac:(idtac; first [eapply par_rd2; args | eapply par_h2_copyIn; args | eapply par_hm_cols; args | eapply par_hm_At; args | eapply par_hrow_sub; args | eapply par_hrow_div; args]). Qed.
Lemma par_hlus_Inverse rr (s : HLU) (s' : HLU) : relLU rr s s' -> prel relM rr (p_hlus_Inverse s) (p_hlus_Inverse s').
Proof. intros. open_up. unfold p_hlus_Inverse. cbv zeta. norm. cbn [relM relV relB hb_blocks hb_rows hb_columns hb_blockRows hb_blockColumns hlu_lu hlu_pivot hlu_even hlu_singular hqr_qrt hqr_rDiag] in *; try contradiction; open_up; norm; pr ltac:(idtac; first [eapply par_h_NewRealIdentityMatrix; args | eapply par_hlus_SolveMatrix; args]). Qed.
Lemma par_hchs_SolveVector rr (lT : slice) (lT' : slice) (b : HVec) (b' : HVec) : relS rr lT lT' -> relV rr b b' -> prel relF rr (p_hchs_SolveVector lT b) (p_hchs_SolveVector lT' b').
Proof. intros. open_up. unfold p_hchs_SolveVector. cbv zeta. norm. cbn [relM relV relB hb_blocks hb_rows hb_columns hb_blockRows hb_blockColumns hlu_lu hlu_pivot hlu_even hlu_singular hqr_qrt hqr_rDiag] in *; try contradiction; open_up; norm; pr ltac:(idtac; first [eapply par_rd2; args | eapply par_hv_ToArray; args]). Qed.
Lemma par_hchs_SolveMatrix rr (lT : slice) (lT' : slice) (b : HMat) (b' : HMat) : relS rr lT lT' -> relM rr b b' -> prel relM rr (p_hchs_SolveMatrix lT b) (p_hchs_SolveMatrix lT' b').
Proof. intros. open_up. unfold p_hchs_SolveMatrix. cbv zeta. norm. cbn [relM relV relB hb_blocks hb_rows hb_columns hb_blockRows hb_blockColumns hlu_lu hlu_pivot hlu_even hlu_singular hqr_qrt hqr_rDiag] in *; try contradiction; open_up; norm; pr ltac:(idtac; first [eapply par_rd2; args | eapply par_h2_copyIn; args | eapply par_hm_cols; args | eapply par_hm_Data; args | eapply par_hrow_sub; args | eapply par_hrow_div; args]). Qed.
Lemma par_hchs_Inverse rr (lT : slice) (lT' : slice) : relS rr lT lT' -> prel relM rr (p_hchs_Inverse lT) (p_hchs_Inverse lT').
Proof. intros. open_up. unfold p_hchs_Inverse. cbv zeta. norm. cbn [relM relV relB hb_blocks hb_rows hb_columns hb_blockRows hb_blockColumns hlu_lu hlu_pivot hlu_even hlu_singular hqr_qrt hqr_rDiag] in *; try contradiction; open_up; norm; pr ltac:(idtac; first [eapply par_h_NewRealIdentityMatrix; args | eapply par_hchs_SolveMatrix; args]). Qed.
Lemma par_h_checkSingular rr (diag : slice) (diag' : slice) (min : F) (raise : bool) : relF rr diag diag' -> prel req rr (p_h_checkSingular diag min raise) (p_h_checkSingular diag' min raise).
Proof. intros. open_up. unfold p_h_checkSingular. cbv zeta. norm. cbn [relM relV relB hb_blocks hb_rows hb_columns hb_blockRows hb_blockColumns hlu_lu hlu_pivot hlu_even hlu_singular hqr_qrt hqr_rDiag] in *; try contradiction; open_up; norm; pr ltac:(idtac; fail). Qed.
Lemma par_hqrs_SolveVector rr (s : HQR) (s' : HQR) (threshold : F) (b : HVec) (b' : HVec) : relQR rr s s' -> relV rr b b' -> prel relF rr (p_hqrs_SolveVector s threshold b) (p_hqrs_SolveVector s' threshold b').
Proof. intros. open_up. unfold p_hqrs_SolveVector. cbv zeta. norm. cbn [relM relV relB hb_blocks hb_rows hb_columns hb_blockRows hb_blockColumns hlu_lu hlu_pivot hlu_even hlu_singular hqr_qrt hqr_rDiag] in *; try contradiction; open_up; norm; pr ltac:(idtac; first [eapply par_hv_ToArray; args | eapply par_h_checkSingular; args]). Qed.
Lemma par_h_CopySubMatrix rr (b : HMat) (b' : HMat) (startRow : Z) (endRow : Z) (startColumn : Z) (endColumn : Z) (destination : slice) (destination' : slice) : relM rr b b' -> relS rr destination destination' -> prel req rr (p_h_CopySubMatrix b startRow endRow startColumn endColumn destination) (p_h_CopySubMatrix b' startRow endRow startColumn endColumn destination').
Proof. intros. open_up. unfold p_h_CopySubMatrix. cbv zeta. norm. cbn [relM relV relB hb_blocks hb_rows hb_columns hb_blockRows hb_blockColumns hlu_lu hlu_pivot hlu_even hlu_singular hqr_qrt hqr_rDiag] in *; try contradiction; open_up; norm; pr ltac:(idtac; first [eapply par_wr2; args | eapply par_hm_cols; args | eapply par_hm_At; args]). Qed.
Lemma par_hqrs_forward rr (s : HQR) (s' : HQR) (m : Z) (n : Z) (kWidth : Z) (y : slice) (y' : slice) (alpha : slice) (alpha' : slice) : relQR rr s s' -> relS rr y y' -> relF rr alpha alpha' -> prel req rr (p_hqrs_forward s m n kWidth y alpha) (p_hqrs_forward s' m n kWidth y' alpha').
Proof. intros. open_up. unfold p_hqrs_forward. cbv zeta. norm. cbn [relM relV relB hb_blocks hb_rows hb_columns hb_blockRows hb_blockColumns hlu_lu hlu_pivot hlu_even hlu_singular hqr_qrt hqr_rDiag] in *; try contradiction; open_up; norm; pr ltac:(idtac; fail). Qed.
Lemma par_hqrs_backward rr (s : HQR) (s' : HQR) (cBlocks : Z) (kBlock : Z) (kWidth : Z) (y : slice) (y' : slice) (xBlocks : slice) (xBlocks' : slice) : relQR rr s s' -> relS rr y y' -> relS rr xBlocks xBlocks' -> prel req rr (p_hqrs_backward s cBlocks kBlock kWidth y xBlocks) (p_hqrs_backward s' cBlocks kBlock kWidth y' xBlocks').
Proof. intros. open_up. unfold p_hqrs_backward. cbv zeta. norm. cbn [relM relV relB hb_blocks hb_rows hb_columns hb_blockRows hb_blockColumns hlu_lu hlu_pivot hlu_even hlu_singular hqr_qrt hqr_rDiag] in *; try contradiction; open_up; norm; pr ltac:(idtac; fail). Qed.
Lemma par_hqrs_SolveMatrix rr (s : HQR) (s' : HQR) (threshold : F) (b : HMat) (b' : HMat) : relQR rr s s' -> relM rr b b' -> prel relM rr (p_hqrs_SolveMatrix s threshold b) (p_hqrs_SolveMatrix s' threshold b').
Proof. intros. open_up. unfold p_hqrs_SolveMatrix. cbv zeta. norm. cbn [relM relV relB hb_blocks hb_rows hb_columns hb_blockRows hb_blockColumns hlu_lu hlu_pivot hlu_even hlu_singular hqr_qrt hqr_rDiag] in *; try contradiction; open_up; norm; pr ltac:(idtac; first [eapply par_h_make2; args | eapply par_hb_create; args | eapply par_hb_FromBlockData; args | eapply par_hm_cols; args | eapply par_h_checkSingular; args | eapply par_h_CopySubMatrix; args | eapply par_hqrs_forward; args | eapply par_hqrs_backward; args]). Qed.
Lemma par_hqrs_Inverse rr (s : HQR) (s' : HQR) (threshold : F) : relQR rr s s' -> prel relM rr (p_hqrs_Inverse s threshold) (p_hqrs_Inverse s' threshold).
Proof. intros. open_up. unfold p_hqrs_Inverse. cbv zeta. norm. cbn [relM relV relB hb_blocks hb_rows hb_columns hb_blockRows hb_blockColumns hlu_lu hlu_pivot hlu_even hlu_singular hqr_qrt hqr_rDiag] in *; try contradiction; open_up; norm; pr ltac:(idtac; first [eapply par_h_NewRealIdentityMatrix; args | eapply par_hqrs_SolveMatrix; args]). Qed.
Lemma par_h_ckAdd rr (a : HMat) (a' : HMat) (m : HMat) (m' : HMat) : relM rr a a' -> relM rr m m' -> prel req rr (p_h_ckAdd a m) (p_h_ckAdd a' m').
Proof. intros. open_up. unfold p_h_ckAdd. cbv zeta. norm. cbn [relM relV relB hb_blocks hb_rows hb_columns hb_blockRows hb_blockColumns hlu_lu hlu_pivot hlu_even hlu_singular hqr_qrt hqr_rDiag] in *; try contradiction; open_up; norm; pr ltac:(idtac; first [eapply par_hm_cols; args]). Qed.
Lemma par_h_ckMul rr (a : HMat) (a' : HMat) (m : HMat) (m' : HMat) : relM rr a a' -> relM rr m m' -> prel req rr (p_h_ckMul a m) (p_h_ckMul a' m').
Proof. intros. open_up. unfold p_h_ckMul. cbv zeta. norm. cbn [relM relV relB hb_blocks hb_rows hb_columns hb_blockRows hb_blockColumns hlu_lu hlu_pivot hlu_even hlu_singular hqr_qrt hqr_rDiag] in *; try contradiction; open_up; norm; pr ltac:(idtac; first [eapply par_hm_cols; args]). Qed.
Lemma par_h2_Add rr (a : slice) (a' : slice) (m : HMat) (m' : HMat) : relS rr a a' -> relM rr m m' -> prel relS rr (p_h2_Add a m) (p_h2_Add a' m').
Proof. intros. open_up. unfold p_h2_Add. cbv zeta. norm. destruct m, m'; cbn [relM relV relB hb_blocks hb_rows hb_columns hb_blockRows hb_blockColumns hlu_lu hlu_pivot hlu_even hlu_singular hqr_qrt hqr_rDiag] in *; try contradiction; open_up; norm; pr ltac:(idtac; first [eapply par_hm_At; args | eapply par_h2_cols; args | eapply par_h_ckAdd; args]). Qed.
Lemma par_h2_Subtract rr (a : slice) (a' : slice) (m : HMat) (m' : HMat) : relS rr a a' -> relM rr m m' -> prel relS rr (p_h2_Subtract a m) (p_h2_Subtract a' m').
Proof. intros. open_up. unfold p_h2_Subtract. cbv zeta. norm. destruct m, m'; cbn [relM relV relB hb_blocks hb_rows hb_columns hb_blockRows hb_blockColumns hlu_lu hlu_pivot hlu_even hlu_singular hqr_qrt hqr_rDiag] in *; try contradiction; open_up; norm; pr ltac:(idtac; first [eapply par_hm_At; args | eapply par_h2_cols; args | eapply par_h_ckAdd; args]). Qed.
Lemma par_h2_Multiply rr (a : slice) (a' : slice) (m : HMat) (m' : HMat) : relS rr a a' -> relM rr m m' -> prel relS rr (p_h2_Multiply a m) (p_h2_Multiply a' m').
Proof. intros. open_up. unfold p_h2_Multiply. cbv zeta. norm. destruct m, m'; cbn [relM relV relB hb_blocks hb_rows hb_columns hb_blockRows hb_blockColumns hlu_lu hlu_pivot hlu_even hlu_singular hqr_qrt hqr_rDiag] in *; try contradiction; open_up; norm; pr ltac:(idtac; first [eapply par_hm_At; args | eapply par_hm_cols; args | eapply par_h2_cols; args | eapply par_rd2; args | eapply par_wr2; args | eapply par_h_ckMul; args]). Qed.
Lemma par_h2_ScalarAdd rr (a : slice) (a' : slice) (d : F) : relS rr a a' -> prel relS rr (p_h2_ScalarAdd a d) (p_h2_ScalarAdd a' d).
Proof. intros. open_up. unfold p_h2_ScalarAdd. cbv zeta. norm. cbn [relM relV relB hb_blocks hb_rows hb_columns hb_blockRows hb_blockColumns hlu_lu hlu_pivot hlu_even hlu_singular hqr_qrt hqr_rDiag] in *; try contradiction; open_up; norm; pr ltac:(idtac; first [eapply par_h2_cols; args | eapply par_rd2; args | eapply par_wr2; args]). Qed.
Lemma par_h2_ScalarMultiply rr (a : slice) (a' : slice) (d : F) : relS rr a a' -> prel relS rr (p_h2_ScalarMultiply a d) (p_h2_ScalarMultiply a' d).
Proof. intros. open_up. unfold p_h2_ScalarMultiply. cbv zeta. norm. cbn [relM relV relB hb_blocks hb_rows hb_columns hb_blockRows hb_blockColumns hlu_lu hlu_pivot hlu_even hlu_singular hqr_qrt hqr_rDiag] in *; try contradiction; open_up; norm; pr ltac:(idtac; first [eapply par_h2_cols; args | eapply par_rd2; args | eapply par_wr2; args]). Qed.
Lemma par_h2_Trace rr (a : slice) (a' : slice) : relS rr a a' -> prel req rr (p_h2_Trace a) (p_h2_Trace a').
Proof. intros. open_up. unfold p_h2_Trace. cbv zeta. norm. cbn [relM relV relB hb_blocks hb_rows hb_columns hb_blockRows hb_blockColumns hlu_lu hlu_pivot hlu_even hlu_singular hqr_qrt hqr_rDiag] in *; try contradiction; open_up; norm; pr ltac:(idtac; first [eapply par_h2_cols; args | eapply par_rd2; args]). Qed.
Lemma par_h2_Operate rr (a : slice) (a' : slice) (v : slice) (v' : slice) : relS rr a a' -> relF rr v v' -> prel relF rr (p_h2_Operate a v) (p_h2_Operate a' v').
Proof. intros. open_up. unfold p_h2_Operate. cbv zeta. norm. cbn [relM relV relB hb_blocks hb_rows hb_columns hb_blockRows hb_blockColumns hlu_lu hlu_pivot hlu_even hlu_singular hqr_qrt hqr_rDiag] in *; try contradiction; open_up; norm; pr ltac:(idtac; first [eapply par_h2_cols; args | eapply par_rd2; args]). Qed.
Lemma par_h2_OperateVector rr (a : slice) (a' : slice) (vec : HVec) (vec' : HVec) : relS rr a a' -> relV rr vec vec' -> prel relF rr (p_h2_OperateVector a vec) (p_h2_OperateVector a' vec').
Proof. intros. open_up. unfold p_h2_OperateVector. cbv zeta. norm. destruct vec, vec'; cbn [relM relV relB hb_blocks hb_rows hb_columns hb_blockRows hb_blockColumns hlu_lu hlu_pivot hlu_even hlu_singular hqr_qrt hqr_rDiag] in *; try contradiction; open_up; norm; pr ltac:(idtac; first [eapply par_h2_cols; args | eapply par_h2_Operate; args]). Qed.
Lemma par_h2_PreMultiply rr (a : slice) (a' : slice) (v : slice) (v' : slice) : relS rr a a' -> relF rr v v' -> prel relF rr (p_h2_PreMultiply a v) (p_h2_PreMultiply a' v').
Proof. intros. open_up. unfold p_h2_PreMultiply. cbv zeta. norm. cbn [relM relV relB hb_blocks hb_rows hb_columns hb_blockRows hb_blockColumns hlu_lu hlu_pivot hlu_even hlu_singular hqr_qrt hqr_rDiag] in *; try contradiction; open_up; norm; pr ltac:(idtac; first [eapply par_h2_cols; args | eapply par_rd2; args]). Qed.
Lemma par_h2_PreMultiplyVector rr (a : slice) (a' : slice) (vec : HVec) (vec' : HVec) : relS rr a a' -> relV rr vec vec' -> prel relF rr (p_h2_PreMultiplyVector a vec) (p_h2_PreMultiplyVector a' vec').
Proof. intros. open_up. unfold p_h2_PreMultiplyVector. cbv zeta. norm. destruct vec, vec'; cbn [relM relV relB hb_blocks hb_rows hb_columns hb_blockRows hb_blockColumns hlu_lu hlu_pivot hlu_even hlu_singular hqr_qrt hqr_rDiag] in *; try contradiction; open_up; norm; pr ltac:(idtac; first [eapply par_h2_cols; args | eapply par_h2_PreMultiply; args]). Qed.
Lemma par_hd_NewDim rr (dimension : Z) : prel relF rr (p_hd_NewDim dimension) (p_hd_NewDim dimension).
Proof. intros. open_up. unfold p_hd_NewDim. cbv zeta. norm. cbn [relM relV relB hb_blocks hb_rows hb_columns hb_blockRows hb_blockColumns hlu_lu hlu_pivot hlu_even hlu_singular hqr_qrt hqr_rDiag] in *; try contradiction; open_up; norm; pr ltac:(idtac; fail). Qed.
Lemma par_hd_Add rr (d : slice) (d' : slice) (m : HMat) (m' : HMat) : relF rr d d' -> relM rr m m' -> prel relF rr (p_hd_Add d m) (p_hd_Add d' m').
Proof. intros. open_up. unfold p_hd_Add. cbv zeta. norm. destruct m, m'; cbn [relM relV relB hb_blocks hb_rows hb_columns hb_blockRows hb_blockColumns hlu_lu hlu_pivot hlu_even hlu_singular hqr_qrt hqr_rDiag] in *; try contradiction; open_up; norm; pr ltac:(idtac; first [eapply par_hm_At; args | eapply par_hm_cols; args | eapply par_hd_At; args | eapply par_hd_SetEntry; args | eapply par_h_ckAdd; args | eapply par_hd_NewDim; args]). Qed.
Lemma par_hd_Subtract rr (d : slice) (d' : slice) (m : HMat) (m' : HMat) : relF rr d d' -> relM rr m m' -> prel relF rr (p_hd_Subtract d m) (p_hd_Subtract d' m').
Proof. intros. open_up. unfold p_hd_Subtract. cbv zeta. norm. destruct m, m'; cbn [relM relV relB hb_blocks hb_rows hb_columns hb_blockRows hb_blockColumns hlu_lu hlu_pivot hlu_even hlu_singular hqr_qrt hqr_rDiag] in *; try contradiction; open_up; norm; pr ltac:(idtac; first [eapply par_hm_At; args | eapply par_hm_cols; args | eapply par_hd_At; args | eapply par_hd_SetEntry; args | eapply par_h_ckAdd; args | eapply par_hd_NewDim; args]). Qed.
Lemma par_hd_MultiplyDiag rr (d : slice) (d' : slice) (e : slice) (e' : slice) : relF rr d d' -> relF rr e e' -> prel relF rr (p_hd_MultiplyDiag d e) (p_hd_MultiplyDiag d' e').
Proof. intros. open_up. unfold p_hd_MultiplyDiag. cbv zeta. norm. cbn [relM relV relB hb_blocks hb_rows hb_columns hb_blockRows hb_blockColumns hlu_lu hlu_pivot hlu_even hlu_singular hqr_qrt hqr_rDiag] in *; try contradiction; open_up; norm; pr ltac:(idtac; fail). Qed.
Lemma par_hd_Multiply rr (d : slice) (d' : slice) (m : HMat) (m' : HMat) : relF rr d d' -> relM rr m m' -> prel relM rr (p_hd_Multiply d m) (p_hd_Multiply d' m').
Proof. intros. open_up. unfold p_hd_Multiply. cbv zeta. norm. destruct m, m'; cbn [relM relV relB hb_blocks hb_rows hb_columns hb_blockRows hb_blockColumns hlu_lu hlu_pivot hlu_even hlu_singular hqr_qrt hqr_rDiag] in *; try contradiction; open_up; norm; pr ltac:(idtac; first [eapply par_hm_At; args | eapply par_hm_cols; args | eapply par_h2_copyIn; args | eapply par_wr2; args | eapply par_h_ckMul; args | eapply par_hd_MultiplyDiag; args]). Qed.
Lemma par_hd_Operate rr (d : slice) (d' : slice) (v : slice) (v' : slice) : relF rr d d' -> relF rr v v' -> prel relF rr (p_hd_Operate d v) (p_hd_Operate d' v').
Proof. intros. open_up. unfold p_hd_Operate. cbv zeta. norm. cbn [relM relV relB hb_blocks hb_rows hb_columns hb_blockRows hb_blockColumns hlu_lu hlu_pivot hlu_even hlu_singular hqr_qrt hqr_rDiag] in *; try contradiction; open_up; norm; pr ltac:(idtac; first [eapply par_h_ckMul; args | eapply par_hd_MultiplyDiag; args]). Qed.
Lemma par_hd_OperateVector rr (d : slice) (d' : slice) (vec : HVec) (vec' : HVec) : relF rr d d' -> relV rr vec vec' -> prel relF rr (p_hd_OperateVector d vec) (p_hd_OperateVector d' vec').
Proof. intros. open_up. unfold p_hd_OperateVector. cbv zeta. norm. destruct vec, vec'; cbn [relM relV relB hb_blocks hb_rows hb_columns hb_blockRows hb_blockColumns hlu_lu hlu_pivot hlu_even hlu_singular hqr_qrt hqr_rDiag] in *; try contradiction; open_up; norm; pr ltac:(idtac; first [eapply par_hv_At; args | eapply par_hd_At; args | eapply par_hd_Operate; args]). Qed.
Lemma par_hd_PreMultiplyVector rr (d : slice) (d' : slice) (vec : HVec) (vec' : HVec) : relF rr d d' -> relV rr vec vec' -> prel relF rr (p_hd_PreMultiplyVector d vec) (p_hd_PreMultiplyVector d' vec').
Proof.
  intros Hd Hv. unfold p_hd_PreMultiplyVector.
  assert (A : prel relF rr (match vec with HArr s => pret s | HOther _ => p_hv_ToArray vec end) (match vec' with HArr s => pret s | HOther _ => p_hv_ToArray vec' end)).
  { destruct vec, vec'; try contradiction; [apply prel_ret; exact Hv|apply par_hv_ToArray; exact Hv]. }
  eapply prel_bind; [exact A|]. intros r1 G a a' Ha. eapply prel_bind; [apply par_hd_Operate; [eapply relF_mono; eauto|exact Ha]|].
  intros r2 G2 b b' Hb. apply prel_pan, par_h_NewArrayRealVector; auto.
Qed.
Lemma par_hd_ScalarAdd rr (d : slice) (d' : slice) (x : F) : relF rr d d' -> prel relF rr (p_hd_ScalarAdd d x) (p_hd_ScalarAdd d' x).
Proof. intros. open_up. unfold p_hd_ScalarAdd. cbv zeta. norm. cbn [relM relV relB hb_blocks hb_rows hb_columns hb_blockRows hb_blockColumns hlu_lu hlu_pivot hlu_even hlu_singular hqr_qrt hqr_rDiag] in *; try contradiction; open_up; norm; pr ltac:(idtac; first [eapply par_hd_At; args | eapply par_hd_SetEntry; args | eapply par_hd_NewDim; args]). Qed.
Lemma par_hd_ScalarMultiply rr (d : slice) (d' : slice) (x : F) : relF rr d d' -> prel relF rr (p_hd_ScalarMultiply d x) (p_hd_ScalarMultiply d' x).
Proof. intros. open_up. unfold p_hd_ScalarMultiply. cbv zeta. norm. cbn [relM relV relB hb_blocks hb_rows hb_columns hb_blockRows hb_blockColumns hlu_lu hlu_pivot hlu_even hlu_singular hqr_qrt hqr_rDiag] in *; try contradiction; open_up; norm; pr ltac:(idtac; first [eapply par_hd_At; args | eapply par_hd_SetEntry; args | eapply par_hd_NewDim; args]). Qed.
Ltac prb lem :=
  match goal with
  | |- prel _ _ (if ?b then _ else _) (if ?b then _ else _) => destruct b; prb lem
  | |- prel _ _ (match ?p with (_, _) => _ end) _ => destruct p; prb lem
  | |- prel _ _ (pbind _ _) _ => let G := fresh "G" in eapply prel_bind; [prb lem|intros ? G ? ? ?; lift G; open_up; cbn [hb_blocks hb_rows hb_columns hb_blockRows hb_blockColumns]; norm; prb lem]
  | |- prel _ _ (ppan _) _ => apply prel_pan; prb lem
  | |- prel _ _ (pfor _ _ _ _) _ => let G := fresh "G" in apply prel_for; intros ? G ? ?; lift G; prb lem
  | |- prel _ _ (pwhile _ _ _ _) _ => let G := fresh "G" in apply prel_while; intros ? G ?; lift G; prb lem
  | |- _ => first [fin | lem]
  end.
Lemma par_hb_Add rr (b : HBlk) (b' : HBlk) (mat : HMat) (mat' : HMat) : relB rr b b' -> relM rr mat mat' -> prel relB rr (p_hb_Add b mat) (p_hb_Add b' mat').
Proof. intros. open_up. unfold p_hb_Add. cbv zeta. norm. destruct mat, mat'; cbn [relM relV relB hb_blocks hb_rows hb_columns hb_blockRows hb_blockColumns] in *; try contradiction; open_up; norm; prb ltac:(idtac; first [eapply par_hm_At; args | eapply par_hm_cols; args | eapply par_hb_New; args | eapply par_hb_At; args | eapply par_rd2; args | eapply par_wr2; args | eapply par_h_ckAdd; args | eapply par_h_ckMul; args]). Qed.
Lemma par_hb_Subtract rr (b : HBlk) (b' : HBlk) (mat : HMat) (mat' : HMat) : relB rr b b' -> relM rr mat mat' -> prel relB rr (p_hb_Subtract b mat) (p_hb_Subtract b' mat').
Proof. intros. open_up. unfold p_hb_Subtract. cbv zeta. norm. destruct mat, mat'; cbn [relM relV relB hb_blocks hb_rows hb_columns hb_blockRows hb_blockColumns] in *; try contradiction; open_up; norm; prb ltac:(idtac; first [eapply par_hm_At; args | eapply par_hm_cols; args | eapply par_hb_New; args | eapply par_hb_At; args | eapply par_rd2; args | eapply par_wr2; args | eapply par_h_ckAdd; args | eapply par_h_ckMul; args]). Qed.
Lemma par_hb_ScalarAdd rr (b : HBlk) (b' : HBlk) (d : F) : relB rr b b' -> prel relB rr (p_hb_ScalarAdd b d) (p_hb_ScalarAdd b' d).
Proof. intros. open_up. unfold p_hb_ScalarAdd. cbv zeta. norm. cbn [relM relV relB hb_blocks hb_rows hb_columns hb_blockRows hb_blockColumns] in *; try contradiction; open_up; norm; prb ltac:(idtac; first [eapply par_hm_At; args | eapply par_hm_cols; args | eapply par_hb_New; args | eapply par_hb_At; args | eapply par_rd2; args | eapply par_wr2; args | eapply par_h_ckAdd; args | eapply par_h_ckMul; args]). Qed.
Lemma par_hb_ScalarMultiply rr (b : HBlk) (b' : HBlk) (d : F) : relB rr b b' -> prel relB rr (p_hb_ScalarMultiply b d) (p_hb_ScalarMultiply b' d).
Proof. intros. open_up. unfold p_hb_ScalarMultiply. cbv zeta. norm. cbn [relM relV relB hb_blocks hb_rows hb_columns hb_blockRows hb_blockColumns] in *; try contradiction; open_up; norm; prb ltac:(idtac; first [eapply par_hm_At; args | eapply par_hm_cols; args | eapply par_hb_New; args | eapply par_hb_At; args | eapply par_rd2; args | eapply par_wr2; args | eapply par_h_ckAdd; args | eapply par_h_ckMul; args]). Qed.
Lemma par_hb_dot4 rr (tBlock : slice) (tBlock' : slice) (mBlock : slice) (mBlock' : slice) (jWidth : Z) (lStart : Z) (lEnd : Z) (nStart : Z) : relF rr tBlock tBlock' -> relF rr mBlock mBlock' -> prel req rr (p_hb_dot4 tBlock mBlock jWidth lStart lEnd nStart) (p_hb_dot4 tBlock' mBlock' jWidth lStart lEnd nStart).
Proof. intros. open_up. unfold p_hb_dot4. cbv zeta. norm. cbn [relM relV relB hb_blocks hb_rows hb_columns hb_blockRows hb_blockColumns] in *; try contradiction; open_up; norm; prb ltac:(idtac; first [eapply par_hm_At; args | eapply par_hm_cols; args | eapply par_hb_New; args | eapply par_hb_At; args | eapply par_rd2; args | eapply par_wr2; args | eapply par_h_ckAdd; args | eapply par_h_ckMul; args]). Qed.
Lemma par_hb_Multiply rr (b : HBlk) (b' : HBlk) (mat : HMat) (mat' : HMat) : relB rr b b' -> relM rr mat mat' -> prel relB rr (p_hb_Multiply b mat) (p_hb_Multiply b' mat').
Proof. intros. open_up. unfold p_hb_Multiply. cbv zeta. norm. destruct mat, mat'; cbn [relM relV relB hb_blocks hb_rows hb_columns hb_blockRows hb_blockColumns] in *; try contradiction; open_up; norm; prb ltac:(idtac; first [eapply par_hm_At; args | eapply par_hm_cols; args | eapply par_hb_New; args | eapply par_hb_At; args | eapply par_rd2; args | eapply par_wr2; args | eapply par_h_ckAdd; args | eapply par_h_ckMul; args | eapply par_hb_dot4; args]). Qed.
Lemma par_hb_Trace rr (b : HBlk) (b' : HBlk) : relB rr b b' -> prel req rr (p_hb_Trace b) (p_hb_Trace b').
Proof. intros. open_up. unfold p_hb_Trace. cbv zeta. norm. cbn [relM relV relB hb_blocks hb_rows hb_columns hb_blockRows hb_blockColumns] in *; try contradiction; open_up; norm; prb ltac:(idtac; first [eapply par_hm_At; args | eapply par_hm_cols; args | eapply par_hb_New; args | eapply par_hb_At; args | eapply par_rd2; args | eapply par_wr2; args | eapply par_h_ckAdd; args | eapply par_h_ckMul; args]). Qed.
Lemma par_hb_Operate rr (b : HBlk) (b' : HBlk) (v : slice) (v' : slice) : relB rr b b' -> relF rr v v' -> prel relF rr (p_hb_Operate b v) (p_hb_Operate b' v').
Proof. intros. open_up. unfold p_hb_Operate. cbv zeta. norm. cbn [relM relV relB hb_blocks hb_rows hb_columns hb_blockRows hb_blockColumns] in *; try contradiction; open_up; norm; prb ltac:(idtac; first [eapply par_hm_At; args | eapply par_hm_cols; args | eapply par_hb_New; args | eapply par_hb_At; args | eapply par_rd2; args | eapply par_wr2; args | eapply par_h_ckAdd; args | eapply par_h_ckMul; args]). Qed.
Lemma par_hb_OperateVector rr (b : HBlk) (b' : HBlk) (vec : HVec) (vec' : HVec) : relB rr b b' -> relV rr vec vec' -> prel relF rr (p_hb_OperateVector b vec) (p_hb_OperateVector b' vec').
Proof. intros. open_up. unfold p_hb_OperateVector. cbv zeta. norm. destruct vec, vec'; cbn [relM relV relB hb_blocks hb_rows hb_columns hb_blockRows hb_blockColumns] in *; try contradiction; open_up; norm; prb ltac:(idtac; first [eapply par_hm_At; args | eapply par_hm_cols; args | eapply par_hb_New; args | eapply par_hb_At; args | eapply par_rd2; args | eapply par_wr2; args | eapply par_h_ckAdd; args | eapply par_h_ckMul; args | eapply par_hb_Operate; args]). Qed.
Lemma par_hb_PreMultiply rr (b : HBlk) (b' : HBlk) (v : slice) (v' : slice) : relB rr b b' -> relF rr v v' -> prel relF rr (p_hb_PreMultiply b v) (p_hb_PreMultiply b' v').
Proof. intros. open_up. unfold p_hb_PreMultiply. cbv zeta. norm. cbn [relM relV relB hb_blocks hb_rows hb_columns hb_blockRows hb_blockColumns] in *; try contradiction; open_up; norm; prb ltac:(idtac; first [eapply par_hm_At; args | eapply par_hm_cols; args | eapply par_hb_New; args | eapply par_hb_At; args | eapply par_rd2; args | eapply par_wr2; args | eapply par_h_ckAdd; args | eapply par_h_ckMul; args]). Qed.
Lemma par_hb_PreMultiplyVector rr (b : HBlk) (b' : HBlk) (vec : HVec) (vec' : HVec) : relB rr b b' -> relV rr vec vec' -> prel relF rr (p_hb_PreMultiplyVector b vec) (p_hb_PreMultiplyVector b' vec').
Proof. intros. open_up. unfold p_hb_PreMultiplyVector. cbv zeta. norm. destruct vec, vec'; cbn [relM relV relB hb_blocks hb_rows hb_columns hb_blockRows hb_blockColumns] in *; try contradiction; open_up; norm; prb ltac:(idtac; first [eapply par_hm_At; args | eapply par_hm_cols; args | eapply par_hb_New; args | eapply par_hb_At; args | eapply par_rd2; args | eapply par_wr2; args | eapply par_h_ckAdd; args | eapply par_h_ckMul; args | eapply par_hb_PreMultiply; args]). Qed.
End Par.

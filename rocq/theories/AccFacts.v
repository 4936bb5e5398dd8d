From Coq Require Import ZArith List Lia QArith.
From Verif Require Import Base BaseLemmas Scalar Vector Matrix LU Cholesky QR Hess Tridiag Bidiag Schur Eigen SVD
  LUSpec CholSpec QRSpec HessSpec SchurSpec EigenSpec SVDSpec AccSpec.
Import ListNotations.
Open Scope Z_scope.

(** A cache is empty or holds what the accessor returns. *)
Definition memo {A} (r : res A) (c : option A) : Prop := match c with None => True | Some a => r = Ok a end.
Lemma bind_ok' {A B} (m : res A) (f : A -> res B) b : bind m f = Ok b -> exists a, m = Ok a /\ f a = Ok b.
Proof. destruct m; cbn; try discriminate. eauto. Qed.
Lemma result_ext {A B D D'} (m : res A) (f : A -> res (B * D)) (g : A -> res (B * D')) :
  (forall a, result (f a) = result (g a)) -> result (bind m f) = result (bind m g).
Proof. intros H. destruct m; cbn; auto. Qed.
Lemma result_ext2 {A B D D' E E'} (m : res (A * E)) (m' : res (A * E')) (f : A * E -> res (B * D)) (g : A * E' -> res (B * D')) :
  result m = result m' -> (forall a d d', m = Ok (a, d) -> m' = Ok (a, d') -> result (f (a, d)) = result (g (a, d'))) ->
  result (bind m f) = result (bind m' g).
Proof.
  intros H H'. destruct m as [[a d]| |], m' as [[a' d']| |]; cbn in *; try congruence. injection H as ->. eauto.
Qed.
Lemma result_ok {A D} (m : res (A * D)) a d : m = Ok (a, d) -> result m = Ok a.
Proof. intros ->. reflexivity. Qed.
Ltac rpeel := repeat (apply result_ext; let x := fresh "x" in intros x; try match type of x with (_ * _)%type => destruct x end); try reflexivity.
Ltac opeel H := repeat (let x := fresh "x" in let Hx := fresh "Hx" in apply bind_ok' in H; destruct H as (x & Hx & H); cbv beta iota in H).

Ltac ppeel H := repeat (let x := fresh "x" in let Hx := fresh "Hx" in apply bind_ok' in H; destruct H as (x & Hx & H); cbv beta iota in H;
  repeat match type of H with (match ?y with (_, _) => _ end) = _ => is_var y; destruct y end).

Section Hist.
Context {O : Ops}.



Ltac co := repeat match goal with H : _ /\ _ |- _ => destruct H end.
Ltac fields d d0 := repeat match goal with Q : ?f d = ?f d0 |- _ => rewrite Q end.
Ltac done_coh := repeat split; cbn; auto; try congruence; try discriminate.
Tactic Notation "hit" reference(acc) constr(Ec) constr(M) constr(C) :=
  try rewrite Ec in M; cbv beta iota delta [memo option_map] in M;
  split; [rewrite M; unfold acc; rewrite Ec; reflexivity|intros m d1 H; unfold acc in H; rewrite Ec in H; injection H as <- <-; exact C].
Tactic Notation "freshr" reference(acc) constr(Ec) constr(E0) constr(d) constr(d0) :=
  unfold acc; rewrite Ec, E0; cbv beta iota zeta; fields d d0; rpeel.
Tactic Notation "freshc" ident(R) reference(acc) constr(Ec) :=
  split; [exact R|]; intros m d1 H; pose proof (result_ok _ _ _ H) as H1; rewrite R in H1;
  unfold acc in H; rewrite Ec in H; opeel H.

(** LU *)
Definition lu_empty (d : LUD) := lu_cachedL d = None /\ lu_cachedU d = None /\ lu_cachedP d = None.
Definition lu_coh (d0 d : LUD) : Prop :=
  lu_lu d = lu_lu d0 /\ lu_pivot d = lu_pivot d0 /\ lu_even d = lu_even d0 /\ lu_singular d = lu_singular d0 /\
  (lu_singular d0 = true -> lu_cachedL d = None /\ lu_cachedU d = None /\ lu_cachedP d = None) /\
  memo (result (lu_L d0)) (option_map Some (lu_cachedL d)) /\ memo (result (lu_U d0)) (option_map Some (lu_cachedU d)) /\
  memo (result (lu_P d0)) (option_map Some (lu_cachedP d)).
Lemma lu_L_coh d0 d : lu_empty d0 -> lu_coh d0 d ->
  result (lu_L d) = result (lu_L d0) /\ forall m d1, lu_L d = Ok (m, d1) -> lu_coh d0 d1.
Proof.
  intros (E1 & E2 & E3) C. pose proof C as (A1 & A2 & A3 & A4 & A5 & M1 & M2 & M3).
  destruct (lu_singular d0) eqn:Es.
  - destruct A5 as (B1 & B2 & B3); auto. split; [unfold lu_L; rewrite E1, B1, A4, Es; reflexivity|].
    intros m d1 H. unfold lu_L in H. rewrite B1, A4 in H. injection H as <- <-. exact C.
  - clear A5. destruct (lu_cachedL d) eqn:Ec.
    + hit lu_L Ec M1 C.
    + assert (R : result (lu_L d) = result (lu_L d0)) by (unfold lu_L; rewrite Ec, E1, A4, Es; fields d d0; rpeel).
      split; [exact R|]. intros m d1 H. pose proof (result_ok _ _ _ H) as H1. rewrite R in H1.
      unfold lu_L in H. rewrite Ec, A4 in H. opeel H. injection H as <- <-. unfold lu_coh. rewrite Es. done_coh.
Qed.
Lemma lu_U_coh d0 d : lu_empty d0 -> lu_coh d0 d ->
  result (lu_U d) = result (lu_U d0) /\ forall m d1, lu_U d = Ok (m, d1) -> lu_coh d0 d1.
Proof.
  intros (E1 & E2 & E3) C. pose proof C as (A1 & A2 & A3 & A4 & A5 & M1 & M2 & M3).
  destruct (lu_singular d0) eqn:Es.
  - destruct A5 as (B1 & B2 & B3); auto. split; [unfold lu_U; rewrite E2, B2, A4, Es; reflexivity|].
    intros m d1 H. unfold lu_U in H. rewrite B2, A4 in H. injection H as <- <-. exact C.
  - clear A5. destruct (lu_cachedU d) eqn:Ec.
    + hit lu_U Ec M2 C.
    + assert (R : result (lu_U d) = result (lu_U d0)) by (unfold lu_U; rewrite Ec, E2, A4, Es; fields d d0; rpeel).
      split; [exact R|]. intros m d1 H. pose proof (result_ok _ _ _ H) as H1. rewrite R in H1.
      unfold lu_U in H. rewrite Ec, A4 in H. opeel H. injection H as <- <-. unfold lu_coh. rewrite Es. done_coh.
Qed.
Lemma lu_P_coh d0 d : lu_empty d0 -> lu_coh d0 d ->
  result (lu_P d) = result (lu_P d0) /\ forall m d1, lu_P d = Ok (m, d1) -> lu_coh d0 d1.
Proof.
  intros (E1 & E2 & E3) C. pose proof C as (A1 & A2 & A3 & A4 & A5 & M1 & M2 & M3).
  destruct (lu_singular d0) eqn:Es.
  - destruct A5 as (B1 & B2 & B3); auto. split; [unfold lu_P; rewrite E3, B3, A4, Es; reflexivity|].
    intros m d1 H. unfold lu_P in H. rewrite B3, A4 in H. injection H as <- <-. exact C.
  - clear A5. destruct (lu_cachedP d) eqn:Ec.
    + hit lu_P Ec M3 C.
    + assert (R : result (lu_P d) = result (lu_P d0)) by (unfold lu_P; rewrite Ec, E3, A4, Es; fields d d0; rpeel).
      split; [exact R|]. intros m d1 H. pose proof (result_ok _ _ _ H) as H1. rewrite R in H1.
      unfold lu_P in H. rewrite Ec, A4 in H. opeel H. injection H as <- <-. unfold lu_coh. rewrite Es. done_coh.
Qed.
Lemma lu_coh_refl d : lu_empty d -> lu_coh d d.
Proof. intros (E1 & E2 & E3). unfold lu_coh. rewrite E1, E2, E3. done_coh. Qed.
Lemma lu_calls_coh d0 d1 d : lu_empty d0 -> lu_coh d0 d1 -> lu_calls d1 d -> lu_coh d0 d.
Proof.
  intros E C H. induction H as [d|d d1 d2 m Hm _ IH|d d1 d2 m Hm _ IH|d d1 d2 m Hm _ IH]; auto; apply IH.
  - apply (proj2 (lu_L_coh _ _ E C) _ _ Hm).
  - apply (proj2 (lu_U_coh _ _ E C) _ _ Hm).
  - apply (proj2 (lu_P_coh _ _ E C) _ _ Hm).
Qed.
Lemma lu_new_empty x thr d : NewLUDecompositionWithThreshold x thr = Ok d -> lu_empty d.
Proof.
  unfold NewLUDecompositionWithThreshold. intros H. opeel H. destruct (negb x0); opeel H; try discriminate.
  destruct x5 as (sg & ((l & pv) & ev)). injection H as <-. repeat split.
Qed.
Lemma lu_repeat x thr d0 d : NewLUDecompositionWithThreshold x thr = Ok d0 -> lu_calls d0 d ->
  result (lu_L d) = result (lu_L d0) /\ result (lu_U d) = result (lu_U d0) /\ result (lu_P d) = result (lu_P d0) /\
  lu_Pivot d = lu_Pivot d0 /\ lu_Determinant d = lu_Determinant d0 /\ lus_IsNonSingular d = lus_IsNonSingular d0 /\
  (forall b, lus_SolveVector d b = lus_SolveVector d0 b) /\ (forall b, lus_SolveMatrix d b = lus_SolveMatrix d0 b) /\
  lus_Inverse d = lus_Inverse d0.
Proof.
  intros H Hc. apply lu_new_empty in H. pose proof (lu_calls_coh _ _ _ H (lu_coh_refl _ H) Hc) as C.
  pose proof (proj1 (lu_L_coh _ _ H C)). pose proof (proj1 (lu_U_coh _ _ H C)). pose proof (proj1 (lu_P_coh _ _ H C)).
  assert (SM : forall b, lus_SolveMatrix d b = lus_SolveMatrix d0 b)
    by (intros b; unfold lus_SolveMatrix; pose proof C as (Q1 & Q2 & Q3 & Q4 & _); fields d d0; reflexivity).
  repeat split; auto.
  - unfold lu_Pivot. destruct C as (Q1 & Q2 & Q3 & Q4 & _). fields d d0. reflexivity.
  - unfold lu_Determinant. destruct C as (Q1 & Q2 & Q3 & Q4 & _). fields d d0. reflexivity.
  - unfold lus_IsNonSingular. destruct C as (Q1 & Q2 & Q3 & Q4 & _). fields d d0. reflexivity.
  - intros b. unfold lus_SolveVector. destruct C as (Q1 & Q2 & Q3 & Q4 & _). fields d d0. reflexivity.
  - unfold lus_Inverse. rewrite (proj1 (proj2 C)). apply bind_ext. auto.
Qed.

(** ChD *)
Definition ch_empty (d : ChD) := ch_cachedLT d = None /\ ch_cachedL d = None.
Definition ch_coh (d0 d : ChD) : Prop :=
  ch_lT d = ch_lT d0 /\ ch_m d = ch_m d0 /\
  memo (result (ch_LT d0)) (ch_cachedLT d) /\ memo (result (ch_L d0)) (ch_cachedL d).
Lemma ch_LT_coh d0 d : ch_empty d0 -> ch_coh d0 d ->
  result (ch_LT d) = result (ch_LT d0) /\ forall m d1, ch_LT d = Ok (m, d1) -> ch_coh d0 d1.
Proof.
  intros E C. pose proof E as (E1 & E2). pose proof C as (A1 & A2 & M1 & M2). destruct (ch_cachedLT d) eqn:Ec; [hit ch_LT Ec M1 C|].
  assert (R : result (ch_LT d) = result (ch_LT d0)) by (unfold ch_LT; rewrite Ec, E1; cbv beta iota zeta; fields d d0; rpeel).
  freshc R ch_LT Ec. injection H as <- <-. unfold ch_coh. done_coh.
Qed.
Lemma ch_L_coh d0 d : ch_empty d0 -> ch_coh d0 d ->
  result (ch_L d) = result (ch_L d0) /\ forall m d1, ch_L d = Ok (m, d1) -> ch_coh d0 d1.
Proof.
  intros E C. pose proof E as (E1 & E2). pose proof C as (A1 & A2 & M1 & M2). destruct (ch_cachedL d) eqn:Ec; [hit ch_L Ec M2 C|].
  destruct (ch_LT_coh _ _ E C) as (R0 & C0).
  assert (R : result (ch_L d) = result (ch_L d0)) by (unfold ch_L; rewrite Ec, E2; apply result_ext2; [exact R0|]; intros; rpeel).
  freshc R ch_L Ec. destruct x as [t d']. opeel H. injection H as <- <-. specialize (C0 _ _ Hx).
  clear - C0 H1. unfold ch_coh in *. co. done_coh.
Qed.
Lemma ch_coh_refl d : ch_empty d -> ch_coh d d.
Proof. intros (E1 & E2). unfold ch_coh. rewrite E1, E2. done_coh. Qed.
Lemma ch_calls_coh d0 d1 d : ch_empty d0 -> ch_coh d0 d1 -> ch_calls d1 d -> ch_coh d0 d.
Proof.
  intros E C H. induction H; auto; match goal with IH : _ -> ch_coh d0 _ |- _ => apply IH end.
  - eapply (proj2 (ch_L_coh _ _ E C)); eassumption.
  - eapply (proj2 (ch_LT_coh _ _ E C)); eassumption.
Qed.

(** QRD *)
Definition qr_empty (d : QRD) := qr_cachedQT d = None /\ qr_cachedQ d = None /\ qr_cachedR d = None /\ qr_cachedH d = None.
Definition qr_coh (d0 d : QRD) : Prop :=
  qr_qrt d = qr_qrt d0 /\ qr_rDiag d = qr_rDiag d0 /\ qr_threshold d = qr_threshold d0 /\
  memo (result (qr_QT d0)) (qr_cachedQT d) /\ memo (result (qr_Q d0)) (qr_cachedQ d) /\ memo (result (qr_R d0)) (qr_cachedR d) /\ memo (result (qr_H d0)) (qr_cachedH d).
Lemma qr_QT_coh d0 d : qr_empty d0 -> qr_coh d0 d ->
  result (qr_QT d) = result (qr_QT d0) /\ forall m d1, qr_QT d = Ok (m, d1) -> qr_coh d0 d1.
Proof.
  intros E C. pose proof E as (E1 & E2 & E3 & E4). pose proof C as (A1 & A2 & A3 & M1 & M2 & M3 & M4). destruct (qr_cachedQT d) eqn:Ec; [hit qr_QT Ec M1 C|].
  assert (R : result (qr_QT d) = result (qr_QT d0)) by (unfold qr_QT; rewrite Ec, E1; cbv beta iota zeta; fields d d0; rpeel).
  freshc R qr_QT Ec. injection H as <- <-. unfold qr_coh. done_coh.
Qed.
Lemma qr_Q_coh d0 d : qr_empty d0 -> qr_coh d0 d ->
  result (qr_Q d) = result (qr_Q d0) /\ forall m d1, qr_Q d = Ok (m, d1) -> qr_coh d0 d1.
Proof.
  intros E C. pose proof E as (E1 & E2 & E3 & E4). pose proof C as (A1 & A2 & A3 & M1 & M2 & M3 & M4). destruct (qr_cachedQ d) eqn:Ec; [hit qr_Q Ec M2 C|].
  destruct (qr_QT_coh _ _ E C) as (R0 & C0).
  assert (R : result (qr_Q d) = result (qr_Q d0)) by (unfold qr_Q; rewrite Ec, E2; apply result_ext2; [exact R0|]; intros; rpeel).
  freshc R qr_Q Ec. destruct x as [t d']. opeel H. injection H as <- <-. specialize (C0 _ _ Hx).
  clear - C0 H1. unfold qr_coh in *. co. done_coh.
Qed.
Lemma qr_R_coh d0 d : qr_empty d0 -> qr_coh d0 d ->
  result (qr_R d) = result (qr_R d0) /\ forall m d1, qr_R d = Ok (m, d1) -> qr_coh d0 d1.
Proof.
  intros E C. pose proof E as (E1 & E2 & E3 & E4). pose proof C as (A1 & A2 & A3 & M1 & M2 & M3 & M4). destruct (qr_cachedR d) eqn:Ec; [hit qr_R Ec M3 C|].
  assert (R : result (qr_R d) = result (qr_R d0)) by (unfold qr_R; rewrite Ec, E3; cbv beta iota zeta; fields d d0; rpeel).
  freshc R qr_R Ec. injection H as <- <-. unfold qr_coh. done_coh.
Qed.
Lemma qr_H_coh d0 d : qr_empty d0 -> qr_coh d0 d ->
  result (qr_H d) = result (qr_H d0) /\ forall m d1, qr_H d = Ok (m, d1) -> qr_coh d0 d1.
Proof.
  intros E C. pose proof E as (E1 & E2 & E3 & E4). pose proof C as (A1 & A2 & A3 & M1 & M2 & M3 & M4). destruct (qr_cachedH d) eqn:Ec; [hit qr_H Ec M4 C|].
  assert (R : result (qr_H d) = result (qr_H d0)) by (unfold qr_H; rewrite Ec, E4; cbv beta iota zeta; fields d d0; rpeel).
  freshc R qr_H Ec. injection H as <- <-. unfold qr_coh. done_coh.
Qed.
Lemma qr_coh_refl d : qr_empty d -> qr_coh d d.
Proof. intros (E1 & E2 & E3 & E4). unfold qr_coh. rewrite E1, E2, E3, E4. done_coh. Qed.
Lemma qr_calls_coh d0 d1 d : qr_empty d0 -> qr_coh d0 d1 -> qr_calls d1 d -> qr_coh d0 d.
Proof.
  intros E C H. induction H; auto; match goal with IH : _ -> qr_coh d0 _ |- _ => apply IH end.
  - eapply (proj2 (qr_Q_coh _ _ E C)); eassumption.
  - eapply (proj2 (qr_QT_coh _ _ E C)); eassumption.
  - eapply (proj2 (qr_R_coh _ _ E C)); eassumption.
  - eapply (proj2 (qr_H_coh _ _ E C)); eassumption.
Qed.

(** HsD *)
Definition hs_empty (d : HsD) := hs_cachedP d = None /\ hs_cachedPt d = None /\ hs_cachedH d = None.
Definition hs_coh (d0 d : HsD) : Prop :=
  hs_hv d = hs_hv d0 /\
  (hs_cachedP d = None -> hs_ort d = hs_ort d0) /\
  memo (result (hs_P d0)) (hs_cachedP d) /\ memo (result (hs_PT d0)) (hs_cachedPt d) /\ memo (result (hs_H d0)) (hs_cachedH d).
Lemma hs_P_coh d0 d : hs_empty d0 -> hs_coh d0 d ->
  result (hs_P d) = result (hs_P d0) /\ forall m d1, hs_P d = Ok (m, d1) -> hs_coh d0 d1.
Proof.
  intros E C. pose proof E as (E1 & E2 & E3). pose proof C as (A1 & A2 & M1 & M2 & M3). destruct (hs_cachedP d) eqn:Ec; [hit hs_P Ec M1 C|].
  assert (R : result (hs_P d) = result (hs_P d0)) by (unfold hs_P; rewrite Ec, E1; cbv beta iota zeta; fields d d0; rewrite (A2 eq_refl); rpeel).
  freshc R hs_P Ec. destruct x1 as [pa ort]. cbv beta iota in H. opeel H. injection H as <- <-. unfold hs_coh. done_coh.
Qed.
Lemma hs_PT_coh d0 d : hs_empty d0 -> hs_coh d0 d ->
  result (hs_PT d) = result (hs_PT d0) /\ forall m d1, hs_PT d = Ok (m, d1) -> hs_coh d0 d1.
Proof.
  intros E C. pose proof E as (E1 & E2 & E3). pose proof C as (A1 & A2 & M1 & M2 & M3). destruct (hs_cachedPt d) eqn:Ec; [hit hs_PT Ec M2 C|].
  destruct (hs_P_coh _ _ E C) as (R0 & C0).
  assert (R : result (hs_PT d) = result (hs_PT d0)) by (unfold hs_PT; rewrite Ec, E2; apply result_ext2; [exact R0|]; intros; rpeel).
  freshc R hs_PT Ec. destruct x as [t d']. opeel H. injection H as <- <-. specialize (C0 _ _ Hx).
  clear - C0 H1. unfold hs_coh in *. co. done_coh.
Qed.
Lemma hs_H_coh d0 d : hs_empty d0 -> hs_coh d0 d ->
  result (hs_H d) = result (hs_H d0) /\ forall m d1, hs_H d = Ok (m, d1) -> hs_coh d0 d1.
Proof.
  intros E C. pose proof E as (E1 & E2 & E3). pose proof C as (A1 & A2 & M1 & M2 & M3). destruct (hs_cachedH d) eqn:Ec; [hit hs_H Ec M3 C|].
  assert (R : result (hs_H d) = result (hs_H d0)) by (unfold hs_H; rewrite Ec, E3; cbv beta iota zeta; fields d d0; rpeel).
  freshc R hs_H Ec. injection H as <- <-. unfold hs_coh. done_coh.
Qed.
Lemma hs_coh_refl d : hs_empty d -> hs_coh d d.
Proof. intros (E1 & E2 & E3). unfold hs_coh. rewrite E1, E2, E3. done_coh. Qed.
Lemma hs_calls_coh d0 d1 d : hs_empty d0 -> hs_coh d0 d1 -> hs_calls d1 d -> hs_coh d0 d.
Proof.
  intros E C H. induction H; auto; match goal with IH : _ -> hs_coh d0 _ |- _ => apply IH end.
  - eapply (proj2 (hs_P_coh _ _ E C)); eassumption.
  - eapply (proj2 (hs_PT_coh _ _ E C)); eassumption.
  - eapply (proj2 (hs_H_coh _ _ E C)); eassumption.
Qed.

(** TdD *)
Definition td_empty (d : TdD) := td_cachedQt d = None /\ td_cachedQ d = None /\ td_cachedT d = None.
Definition td_coh (d0 d : TdD) : Prop :=
  td_hv d = td_hv d0 /\ td_main d = td_main d0 /\ td_sec d = td_sec d0 /\
  memo (result (td_QT d0)) (td_cachedQt d) /\ memo (result (td_Q d0)) (td_cachedQ d) /\ memo (result (td_T d0)) (td_cachedT d).
Lemma td_QT_coh d0 d : td_empty d0 -> td_coh d0 d ->
  result (td_QT d) = result (td_QT d0) /\ forall m d1, td_QT d = Ok (m, d1) -> td_coh d0 d1.
Proof.
  intros E C. pose proof E as (E1 & E2 & E3). pose proof C as (A1 & A2 & A3 & M1 & M2 & M3). destruct (td_cachedQt d) eqn:Ec; [hit td_QT Ec M1 C|].
  assert (R : result (td_QT d) = result (td_QT d0)) by (unfold td_QT; rewrite Ec, E1; cbv beta iota zeta; fields d d0; rpeel).
  freshc R td_QT Ec. injection H as <- <-. unfold td_coh. done_coh.
Qed.
Lemma td_Q_coh d0 d : td_empty d0 -> td_coh d0 d ->
  result (td_Q d) = result (td_Q d0) /\ forall m d1, td_Q d = Ok (m, d1) -> td_coh d0 d1.
Proof.
  intros E C. pose proof E as (E1 & E2 & E3). pose proof C as (A1 & A2 & A3 & M1 & M2 & M3). destruct (td_cachedQ d) eqn:Ec; [hit td_Q Ec M2 C|].
  destruct (td_QT_coh _ _ E C) as (R0 & C0).
  assert (R : result (td_Q d) = result (td_Q d0)) by (unfold td_Q; rewrite Ec, E2; apply result_ext2; [exact R0|]; intros; rpeel).
  freshc R td_Q Ec. destruct x as [t d']. opeel H. injection H as <- <-. specialize (C0 _ _ Hx).
  clear - C0 H1. unfold td_coh in *. co. done_coh.
Qed.
Lemma td_T_coh d0 d : td_empty d0 -> td_coh d0 d ->
  result (td_T d) = result (td_T d0) /\ forall m d1, td_T d = Ok (m, d1) -> td_coh d0 d1.
Proof.
  intros E C. pose proof E as (E1 & E2 & E3). pose proof C as (A1 & A2 & A3 & M1 & M2 & M3). destruct (td_cachedT d) eqn:Ec; [hit td_T Ec M3 C|].
  assert (R : result (td_T d) = result (td_T d0)) by (unfold td_T; rewrite Ec, E3; cbv beta iota zeta; fields d d0; rpeel).
  freshc R td_T Ec. injection H as <- <-. unfold td_coh. done_coh.
Qed.
Lemma td_coh_refl d : td_empty d -> td_coh d d.
Proof. intros (E1 & E2 & E3). unfold td_coh. rewrite E1, E2, E3. done_coh. Qed.
Lemma td_calls_coh d0 d1 d : td_empty d0 -> td_coh d0 d1 -> td_calls d1 d -> td_coh d0 d.
Proof.
  intros E C H. induction H; auto; match goal with IH : _ -> td_coh d0 _ |- _ => apply IH end.
  - eapply (proj2 (td_Q_coh _ _ E C)); eassumption.
  - eapply (proj2 (td_QT_coh _ _ E C)); eassumption.
  - eapply (proj2 (td_T_coh _ _ E C)); eassumption.
Qed.

(** BdD *)
Definition bd_empty (d : BdD) := bd_cachedU d = None /\ bd_cachedB d = None /\ bd_cachedV d = None.
Definition bd_coh (d0 d : BdD) : Prop :=
  bd_hv d = bd_hv d0 /\ bd_main d = bd_main d0 /\ bd_sec d = bd_sec d0 /\
  memo (result (bd_U d0)) (bd_cachedU d) /\ memo (result (bd_B d0)) (bd_cachedB d) /\ memo (result (bd_V d0)) (bd_cachedV d).
Lemma bd_U_coh d0 d : bd_empty d0 -> bd_coh d0 d ->
  result (bd_U d) = result (bd_U d0) /\ forall m d1, bd_U d = Ok (m, d1) -> bd_coh d0 d1.
Proof.
  intros E C. pose proof E as (E1 & E2 & E3). pose proof C as (A1 & A2 & A3 & M1 & M2 & M3). destruct (bd_cachedU d) eqn:Ec; [hit bd_U Ec M1 C|].
  assert (R : result (bd_U d) = result (bd_U d0)) by (unfold bd_U; rewrite Ec, E1; cbv beta iota zeta; fields d d0; rpeel).
  freshc R bd_U Ec. injection H as <- <-. unfold bd_coh. done_coh.
Qed.
Lemma bd_B_coh d0 d : bd_empty d0 -> bd_coh d0 d ->
  result (bd_B d) = result (bd_B d0) /\ forall m d1, bd_B d = Ok (m, d1) -> bd_coh d0 d1.
Proof.
  intros E C. pose proof E as (E1 & E2 & E3). pose proof C as (A1 & A2 & A3 & M1 & M2 & M3). destruct (bd_cachedB d) eqn:Ec; [hit bd_B Ec M2 C|].
  assert (R : result (bd_B d) = result (bd_B d0)) by (unfold bd_B; rewrite Ec, E2; cbv beta iota zeta; fields d d0; rpeel).
  freshc R bd_B Ec. injection H as <- <-. unfold bd_coh. done_coh.
Qed.
Lemma bd_V_coh d0 d : bd_empty d0 -> bd_coh d0 d ->
  result (bd_V d) = result (bd_V d0) /\ forall m d1, bd_V d = Ok (m, d1) -> bd_coh d0 d1.
Proof.
  intros E C. pose proof E as (E1 & E2 & E3). pose proof C as (A1 & A2 & A3 & M1 & M2 & M3). destruct (bd_cachedV d) eqn:Ec; [hit bd_V Ec M3 C|].
  assert (R : result (bd_V d) = result (bd_V d0)) by (unfold bd_V; rewrite Ec, E3; cbv beta iota zeta; fields d d0; rpeel).
  freshc R bd_V Ec. injection H as <- <-. unfold bd_coh. done_coh.
Qed.
Lemma bd_coh_refl d : bd_empty d -> bd_coh d d.
Proof. intros (E1 & E2 & E3). unfold bd_coh. rewrite E1, E2, E3. done_coh. Qed.
Lemma bd_calls_coh d0 d1 d : bd_empty d0 -> bd_coh d0 d1 -> bd_calls d1 d -> bd_coh d0 d.
Proof.
  intros E C H. induction H; auto; match goal with IH : _ -> bd_coh d0 _ |- _ => apply IH end.
  - eapply (proj2 (bd_U_coh _ _ E C)); eassumption.
  - eapply (proj2 (bd_B_coh _ _ E C)); eassumption.
  - eapply (proj2 (bd_V_coh _ _ E C)); eassumption.
Qed.

(** ScD *)
Definition sc_empty (d : ScD) := sc_cachedP d = None /\ sc_cachedPt d = None /\ sc_cachedT d = None.
Definition sc_coh (d0 d : ScD) : Prop :=
  sc_P d = sc_P d0 /\ sc_T d = sc_T d0 /\
  memo (result (sc_getP d0)) (sc_cachedP d) /\ memo (result (sc_getPT d0)) (sc_cachedPt d) /\ memo (result (sc_getT d0)) (sc_cachedT d).
Lemma sc_getP_coh d0 d : sc_empty d0 -> sc_coh d0 d ->
  result (sc_getP d) = result (sc_getP d0) /\ forall m d1, sc_getP d = Ok (m, d1) -> sc_coh d0 d1.
Proof.
  intros E C. pose proof E as (E1 & E2 & E3). pose proof C as (A1 & A2 & M1 & M2 & M3). destruct (sc_cachedP d) eqn:Ec; [hit sc_getP Ec M1 C|].
  assert (R : result (sc_getP d) = result (sc_getP d0)) by (unfold sc_getP; rewrite Ec, E1; cbv beta iota zeta; fields d d0; rpeel).
  freshc R sc_getP Ec. injection H as <- <-. unfold sc_coh. done_coh.
Qed.
Lemma sc_getPT_coh d0 d : sc_empty d0 -> sc_coh d0 d ->
  result (sc_getPT d) = result (sc_getPT d0) /\ forall m d1, sc_getPT d = Ok (m, d1) -> sc_coh d0 d1.
Proof.
  intros E C. pose proof E as (E1 & E2 & E3). pose proof C as (A1 & A2 & M1 & M2 & M3). destruct (sc_cachedPt d) eqn:Ec; [hit sc_getPT Ec M2 C|].
  destruct (sc_getP_coh _ _ E C) as (R0 & C0).
  assert (R : result (sc_getPT d) = result (sc_getPT d0)) by (unfold sc_getPT; rewrite Ec, E2; apply result_ext2; [exact R0|]; intros; rpeel).
  freshc R sc_getPT Ec. destruct x as [t d']. opeel H. injection H as <- <-. specialize (C0 _ _ Hx).
  clear - C0 H1. unfold sc_coh in *. co. done_coh.
Qed.
Lemma sc_getT_coh d0 d : sc_empty d0 -> sc_coh d0 d ->
  result (sc_getT d) = result (sc_getT d0) /\ forall m d1, sc_getT d = Ok (m, d1) -> sc_coh d0 d1.
Proof.
  intros E C. pose proof E as (E1 & E2 & E3). pose proof C as (A1 & A2 & M1 & M2 & M3). destruct (sc_cachedT d) eqn:Ec; [hit sc_getT Ec M3 C|].
  assert (R : result (sc_getT d) = result (sc_getT d0)) by (unfold sc_getT; rewrite Ec, E3; cbv beta iota zeta; fields d d0; rpeel).
  freshc R sc_getT Ec. injection H as <- <-. unfold sc_coh. done_coh.
Qed.
Lemma sc_coh_refl d : sc_empty d -> sc_coh d d.
Proof. intros (E1 & E2 & E3). unfold sc_coh. rewrite E1, E2, E3. done_coh. Qed.
Lemma sc_calls_coh d0 d1 d : sc_empty d0 -> sc_coh d0 d1 -> sc_calls d1 d -> sc_coh d0 d.
Proof.
  intros E C H. induction H; auto; match goal with IH : _ -> sc_coh d0 _ |- _ => apply IH end.
  - eapply (proj2 (sc_getP_coh _ _ E C)); eassumption.
  - eapply (proj2 (sc_getPT_coh _ _ E C)); eassumption.
  - eapply (proj2 (sc_getT_coh _ _ E C)); eassumption.
Qed.

(** EdD *)
Definition ed_empty (d : EdD) := ed_cachedV d = None /\ ed_cachedD d = None /\ ed_cachedVt d = None.
Definition ed_coh (d0 d : EdD) : Prop :=
  ed_re d = ed_re d0 /\ ed_im d = ed_im d0 /\ ed_vecs d = ed_vecs d0 /\ ed_sym d = ed_sym d0 /\
  memo (result (ed_V d0)) (ed_cachedV d) /\ memo (result (ed_D d0)) (ed_cachedD d) /\ memo (result (ed_VT d0)) (ed_cachedVt d).
Lemma ed_V_coh d0 d : ed_empty d0 -> ed_coh d0 d ->
  result (ed_V d) = result (ed_V d0) /\ forall m d1, ed_V d = Ok (m, d1) -> ed_coh d0 d1.
Proof.
  intros E C. pose proof E as (E1 & E2 & E3). pose proof C as (A1 & A2 & A3 & A4 & M1 & M2 & M3). destruct (ed_cachedV d) eqn:Ec; [hit ed_V Ec M1 C|].
  assert (R : result (ed_V d) = result (ed_V d0)) by (unfold ed_V; rewrite Ec, E1; cbv beta iota zeta; fields d d0; rpeel).
  freshc R ed_V Ec. injection H as <- <-. unfold ed_coh. done_coh.
Qed.
Lemma ed_D_coh d0 d : ed_empty d0 -> ed_coh d0 d ->
  result (ed_D d) = result (ed_D d0) /\ forall m d1, ed_D d = Ok (m, d1) -> ed_coh d0 d1.
Proof.
  intros E C. pose proof E as (E1 & E2 & E3). pose proof C as (A1 & A2 & A3 & A4 & M1 & M2 & M3). destruct (ed_cachedD d) eqn:Ec; [hit ed_D Ec M2 C|].
  assert (R : result (ed_D d) = result (ed_D d0)) by (unfold ed_D; rewrite Ec, E2; cbv beta iota zeta; fields d d0; rpeel).
  freshc R ed_D Ec. injection H as <- <-. unfold ed_coh. done_coh.
Qed.
Lemma ed_VT_coh d0 d : ed_empty d0 -> ed_coh d0 d ->
  result (ed_VT d) = result (ed_VT d0) /\ forall m d1, ed_VT d = Ok (m, d1) -> ed_coh d0 d1.
Proof.
  intros E C. pose proof E as (E1 & E2 & E3). pose proof C as (A1 & A2 & A3 & A4 & M1 & M2 & M3). destruct (ed_cachedVt d) eqn:Ec; [hit ed_VT Ec M3 C|].
  assert (R : result (ed_VT d) = result (ed_VT d0)) by (unfold ed_VT; rewrite Ec, E3; cbv beta iota zeta; fields d d0; rpeel).
  freshc R ed_VT Ec. injection H as <- <-. unfold ed_coh. done_coh.
Qed.
Lemma ed_coh_refl d : ed_empty d -> ed_coh d d.
Proof. intros (E1 & E2 & E3). unfold ed_coh. rewrite E1, E2, E3. done_coh. Qed.
Lemma ed_SquareRoot_coh d0 d : ed_empty d0 -> ed_coh d0 d ->
  result (ed_SquareRoot d) = result (ed_SquareRoot d0) /\ forall m d1, ed_SquareRoot d = Ok (m, d1) -> ed_coh d0 d1.
Proof.
  intros E C. pose proof C as (A1 & A2 & A3 & A4 & _). pose proof (ed_coh_refl _ E) as C'.
  split.
  - unfold ed_SquareRoot. rewrite A4. destruct (negb (ed_sym d0)); [reflexivity|]. fields d d0. rpeel.
    apply result_ext2; [apply (proj1 (ed_V_coh _ _ E C))|]. intros v d' d0' H1 H2.
    apply (proj2 (ed_V_coh _ _ E C)) in H1. apply (proj2 (ed_V_coh _ _ E C')) in H2.
    apply result_ext2; [rewrite (proj1 (ed_VT_coh _ _ E H1)); symmetry; apply (proj1 (ed_VT_coh _ _ E H2))|]. intros. rpeel.
  - intros m d1 H. unfold ed_SquareRoot in H. destruct (negb (ed_sym d)); [discriminate|]. opeel H.
    destruct x2 as [v d']. opeel H. destruct x2 as [vt d'']. opeel H. injection H as <- <-.
    apply (proj2 (ed_V_coh _ _ E C)) in Hx2. apply (proj2 (ed_VT_coh _ _ E Hx2)) in Hx3. exact Hx3.
Qed.
Lemma ed_calls_coh d0 d1 d : ed_empty d0 -> ed_coh d0 d1 -> ed_calls d1 d -> ed_coh d0 d.
Proof.
  intros E C H. induction H; auto; match goal with IH : _ -> ed_coh d0 _ |- _ => apply IH end.
  - eapply (proj2 (ed_V_coh _ _ E C)); eassumption.
  - eapply (proj2 (ed_D_coh _ _ E C)); eassumption.
  - eapply (proj2 (ed_VT_coh _ _ E C)); eassumption.
  - eapply (proj2 (ed_SquareRoot_coh _ _ E C)); eassumption.
Qed.

(** SvD *)
Definition sv_empty (d : SvD) := sv_cachedUt d = None /\ sv_cachedVt d = None /\ sv_cachedS d = None.
Definition sv_coh (d0 d : SvD) : Prop :=
  sv_s d = sv_s d0 /\ sv_m d = sv_m d0 /\ sv_n d = sv_n d0 /\ sv_transposed d = sv_transposed d0 /\ sv_cachedU d = sv_cachedU d0 /\ sv_cachedV d = sv_cachedV d0 /\ sv_tol d = sv_tol d0 /\
  memo (result (sv_UT d0)) (sv_cachedUt d) /\ memo (result (sv_VT d0)) (sv_cachedVt d) /\ memo (result (sv_S d0)) (sv_cachedS d).
Lemma sv_UT_coh d0 d : sv_empty d0 -> sv_coh d0 d ->
  result (sv_UT d) = result (sv_UT d0) /\ forall m d1, sv_UT d = Ok (m, d1) -> sv_coh d0 d1.
Proof.
  intros E C. pose proof E as (E1 & E2 & E3). pose proof C as (A1 & A2 & A3 & A4 & A5 & A6 & A7 & M1 & M2 & M3). destruct (sv_cachedUt d) eqn:Ec; [hit sv_UT Ec M1 C|].
  assert (R : result (sv_UT d) = result (sv_UT d0)) by (unfold sv_UT, sv_U, sv_V; rewrite Ec, E1; cbv beta iota zeta; fields d d0; rpeel).
  freshc R sv_UT Ec. injection H as <- <-. unfold sv_coh. done_coh.
Qed.
Lemma sv_VT_coh d0 d : sv_empty d0 -> sv_coh d0 d ->
  result (sv_VT d) = result (sv_VT d0) /\ forall m d1, sv_VT d = Ok (m, d1) -> sv_coh d0 d1.
Proof.
  intros E C. pose proof E as (E1 & E2 & E3). pose proof C as (A1 & A2 & A3 & A4 & A5 & A6 & A7 & M1 & M2 & M3). destruct (sv_cachedVt d) eqn:Ec; [hit sv_VT Ec M2 C|].
  assert (R : result (sv_VT d) = result (sv_VT d0)) by (unfold sv_VT, sv_U, sv_V; rewrite Ec, E2; cbv beta iota zeta; fields d d0; rpeel).
  freshc R sv_VT Ec. injection H as <- <-. unfold sv_coh. done_coh.
Qed.
Lemma sv_S_coh d0 d : sv_empty d0 -> sv_coh d0 d ->
  result (sv_S d) = result (sv_S d0) /\ forall m d1, sv_S d = Ok (m, d1) -> sv_coh d0 d1.
Proof.
  intros E C. pose proof E as (E1 & E2 & E3). pose proof C as (A1 & A2 & A3 & A4 & A5 & A6 & A7 & M1 & M2 & M3). destruct (sv_cachedS d) eqn:Ec; [hit sv_S Ec M3 C|].
  assert (R : result (sv_S d) = result (sv_S d0)) by (unfold sv_S, sv_U, sv_V; rewrite Ec, E3; cbv beta iota zeta; fields d d0; rpeel).
  freshc R sv_S Ec. injection H as <- <-. unfold sv_coh. done_coh.
Qed.
Lemma sv_coh_refl d : sv_empty d -> sv_coh d d.
Proof. intros (E1 & E2 & E3). unfold sv_coh. rewrite E1, E2, E3. done_coh. Qed.
Lemma sv_Cov_coh d0 d mn : sv_empty d0 -> sv_coh d0 d ->
  result (sv_Covariance d mn) = result (sv_Covariance d0 mn) /\ forall m d1, sv_Covariance d mn = Ok (m, d1) -> sv_coh d0 d1.
Proof.
  intros E C. pose proof C as (A1 & A2 & A3 & A4 & A5 & A6 & A7 & _). pose proof (sv_coh_refl _ E) as C'.
  split.
  - unfold sv_Covariance. fields d d0. apply result_ext. intros [b k]. destruct (k =? 0); [rpeel|]. apply result_ext. intros dt.
    apply result_ext2; [apply (proj1 (sv_VT_coh _ _ E C))|]. intros v d' d0' H1 H2.
    apply (proj2 (sv_VT_coh _ _ E C)) in H1. apply (proj2 (sv_VT_coh _ _ E C')) in H2.
    destruct H1 as (-> & _). destruct H2 as (-> & _). apply result_ext. intros [b' k']. rpeel.
  - intros m d1 H. unfold sv_Covariance in H. opeel H. destruct x as [b k]. destruct (k =? 0); [opeel H; discriminate|]. opeel H.
    destruct x0 as [v d']. opeel H. destruct x0 as [b' k']. opeel H. injection H as <- <-.
    apply (proj2 (sv_VT_coh _ _ E C)) in Hx1. exact Hx1.
Qed.
Lemma sv_Solver_coh d0 d : sv_empty d0 -> sv_coh d0 d ->
  result (sv_Solver d) = result (sv_Solver d0) /\ forall m d1, sv_Solver d = Ok (m, d1) -> sv_coh d0 d1.
Proof.
  intros E C. pose proof (sv_coh_refl _ E) as C'.
  split.
  - unfold sv_Solver. apply result_ext2; [apply (proj1 (sv_UT_coh _ _ E C))|]. intros v d' d0' H1 H2.
    apply (proj2 (sv_UT_coh _ _ E C)) in H1. apply (proj2 (sv_UT_coh _ _ E C')) in H2.
    destruct H1 as (-> & _ & _ & _ & _ & B1 & -> & _). destruct H2 as (-> & _ & _ & _ & _ & B2 & -> & _). unfold sv_V. rewrite B1, B2. rpeel.
  - intros m d1 H. unfold sv_Solver in H. opeel H. destruct x as [v d']. opeel H. injection H as <- <-.
    apply (proj2 (sv_UT_coh _ _ E C)) in Hx. exact Hx.
Qed.
Lemma sv_calls_coh d0 d1 d : sv_empty d0 -> sv_coh d0 d1 -> sv_calls d1 d -> sv_coh d0 d.
Proof.
  intros E C H. induction H; auto; match goal with IH : _ -> sv_coh d0 _ |- _ => apply IH end.
  - eapply (proj2 (sv_UT_coh _ _ E C)); eassumption.
  - eapply (proj2 (sv_VT_coh _ _ E C)); eassumption.
  - eapply (proj2 (sv_S_coh _ _ E C)); eassumption.
  - eapply (proj2 (sv_Cov_coh _ _ _ E C)); eassumption.
  - eapply (proj2 (sv_Solver_coh _ _ E C)); eassumption.
Qed.

(** RRQRD: the caches of the QR part and that of P. *)
Definition rr_empty (d : RRQRD) := qr_empty (rr_qr d) /\ rr_cachedP d = None.
Definition rr_coh (d0 d : RRQRD) : Prop := qr_coh (rr_qr d0) (rr_qr d) /\ rr_p d = rr_p d0 /\ memo (result (rr_P d0)) (rr_cachedP d).
Lemma rr_lift_coh (f : QRD -> res (RealMatrix * QRD)) d0 d : rr_empty d0 -> rr_coh d0 d ->
  (forall q0 q, qr_empty q0 -> qr_coh q0 q -> result (f q) = result (f q0) /\ forall m q1, f q = Ok (m, q1) -> qr_coh q0 q1) ->
  result (rr_lift f d) = result (rr_lift f d0) /\ forall m d1, rr_lift f d = Ok (m, d1) -> rr_coh d0 d1.
Proof.
  intros (E & _) (C & Hp & M) Hf. destruct (Hf _ _ E C) as (R & K). split.
  - unfold rr_lift. apply result_ext2; [exact R|]. intros. reflexivity.
  - intros m d1 H. unfold rr_lift in H. opeel H. destruct x as [r q]. injection H as <- <-. split; [exact (K _ _ Hx)|]. split; auto.
Qed.
Lemma rr_P_coh d0 d : rr_empty d0 -> rr_coh d0 d -> result (rr_P d) = result (rr_P d0) /\ forall m d1, rr_P d = Ok (m, d1) -> rr_coh d0 d1.
Proof.
  intros E C. pose proof E as (_ & E1). pose proof C as (A1 & A2 & M1). destruct (rr_cachedP d) eqn:Ec; [hit rr_P Ec M1 C|].
  assert (R : result (rr_P d) = result (rr_P d0)) by (unfold rr_P; rewrite Ec, E1; cbv beta iota zeta; rewrite A2; rpeel).
  freshc R rr_P Ec. injection H as <- <-. split; [exact A1|]. split; auto.
Qed.
Lemma rr_Rank_coh d0 d drop : rr_empty d0 -> rr_coh d0 d ->
  result (rr_Rank d drop) = result (rr_Rank d0 drop) /\ forall m d1, rr_Rank d drop = Ok (m, d1) -> rr_coh d0 d1.
Proof.
  intros E C. destruct (rr_lift_coh qr_R _ _ E C qr_R_coh) as (R & K). split.
  - unfold rr_Rank. apply result_ext2; [exact R|]. intros r d' d'' _ _. do 2 (apply result_ext; intros ?).
    apply result_ext; intros (b & rk & ln). reflexivity.
  - intros m d1 H. unfold rr_Rank in H. opeel H. destruct x as [r d']. opeel H. destruct x1 as (b & rk & ln). injection H as <- <-. exact (K _ _ Hx).
Qed.
Lemma rr_coh_refl d : rr_empty d -> rr_coh d d.
Proof. intros (E & E1). split; [apply qr_coh_refl; auto|]. rewrite E1. split; cbn; auto. Qed.
Lemma rr_calls_coh d0 d1 d : rr_empty d0 -> rr_coh d0 d1 -> rr_calls d1 d -> rr_coh d0 d.
Proof.
  intros E C H. induction H; auto; match goal with IH : _ -> rr_coh d0 _ |- _ => apply IH end.
  - eapply (proj2 (rr_lift_coh qr_Q _ _ E C qr_Q_coh)); eassumption.
  - eapply (proj2 (rr_lift_coh qr_QT _ _ E C qr_QT_coh)); eassumption.
  - eapply (proj2 (rr_lift_coh qr_R _ _ E C qr_R_coh)); eassumption.
  - eapply (proj2 (rr_lift_coh qr_H _ _ E C qr_H_coh)); eassumption.
  - eapply (proj2 (rr_P_coh _ _ E C)); eassumption.
  - eapply (proj2 (rr_Rank_coh _ _ _ E C)); eassumption.
Qed.

(** The caches are empty after the constructors. *)
Lemma ch_new_empty x rel pos d : NewCholeskyDecomposition x rel pos = Ok d -> ch_empty d.
Proof. unfold NewCholeskyDecomposition. intros H. opeel H. destruct (negb x0); opeel H; try discriminate. injection H as <-. repeat split. Qed.
Lemma qr_new_empty x thr d : NewQRDecompositionWithThreshold x thr = Ok d -> qr_empty d.
Proof. unfold NewQRDecompositionWithThreshold. intros H. opeel H. destruct x5. injection H as <-. repeat split. Qed.
Lemma rr_new_empty x thr d : NewRRQRDecompositionWithThreshold x thr = Ok d -> rr_empty d.
Proof. unfold NewRRQRDecompositionWithThreshold. intros H. opeel H. destruct x7 as [[? ?] ?]. injection H as <-. repeat split. Qed.
Lemma hs_new_empty x d : NewHessenbergTransformer x = Ok d -> hs_empty d.
Proof. unfold NewHessenbergTransformer. intros H. opeel H. destruct (negb x0); opeel H; try discriminate. destruct x3. injection H as <-. repeat split. Qed.
Lemma td_new_empty x d : NewTriDiagonalTransformer x = Ok d -> td_empty d.
Proof.
  unfold NewTriDiagonalTransformer. intros H. opeel H. destruct (negb x0); opeel H; try discriminate. destruct x5 as [[[? ?] ?] ?]. opeel H.
  injection H as <-. repeat split.
Qed.
Lemma bd_new_empty x d : NewBiDiagonalTransformer x = Ok d -> bd_empty d.
Proof. unfold NewBiDiagonalTransformer. intros H. opeel H. destruct x4 as [[? ?] ?]. injection H as <-. repeat split. Qed.
Lemma sc_new_empty x d : NewSchurTransformer x = Ok d -> sc_empty d.
Proof.
  unfold NewSchurTransformer, NewSchurTransformerFuel. intros H. opeel H. destruct (negb x0); opeel H; try discriminate. destruct x2. opeel H.
  destruct x3. opeel H. destruct x4. injection H as <-. repeat split.
Qed.



Lemma ed_find_empty mn sec z d : ed_findEigenVectors mn sec z = Ok d -> ed_empty d.
Proof. unfold ed_findEigenVectors. intros H. ppeel H. injection H as <-. repeat split. Qed.
Lemma ed_new_empty x d : NewEigenDecomposition x = Ok d -> ed_empty d.
Proof.
  unfold NewEigenDecomposition. intros H. opeel H. match type of H with (if ?b then _ else _) = _ => destruct b end; ppeel H; injection H as <-; repeat split.
Qed.
Lemma ed_tri_empty mn sec d : NewEigenDecompositionFromTridiagonal mn sec = Ok d -> ed_empty d.
Proof. unfold NewEigenDecompositionFromTridiagonal. intros H. ppeel H. injection H as <-. repeat split. Qed.
Lemma sv_new_empty fuel x d : NewSingularValueDecomposition fuel x = Ok d -> sv_empty d.
Proof. unfold NewSingularValueDecomposition. intros H. ppeel H. injection H as <-. repeat split. Qed.

(** Every method gives the same answer before and after any calls. *)
Lemma ch_repeat x rel pos d0 d : NewCholeskyDecomposition x rel pos = Ok d0 -> ch_calls d0 d ->
  result (ch_L d) = result (ch_L d0) /\ result (ch_LT d) = result (ch_LT d0) /\ ch_Determinant d = ch_Determinant d0 /\
  (forall b, chs_SolveVector d b = chs_SolveVector d0 b) /\ (forall b, chs_SolveMatrix d b = chs_SolveMatrix d0 b) /\
  chs_Inverse d = chs_Inverse d0.
Proof.
  intros H Hc. apply ch_new_empty in H. pose proof (ch_calls_coh _ _ _ H (ch_coh_refl _ H) Hc) as C.
  pose proof (proj1 (ch_L_coh _ _ H C)). pose proof (proj1 (ch_LT_coh _ _ H C)). destruct C as (Q1 & Q2 & _).
  assert (SM : forall b, chs_SolveMatrix d b = chs_SolveMatrix d0 b) by (intros b; unfold chs_SolveMatrix; fields d d0; reflexivity).
  repeat split; auto.
  - unfold ch_Determinant. fields d d0. reflexivity.
  - intros b. unfold chs_SolveVector. fields d d0. reflexivity.
  - unfold chs_Inverse. fields d d0. apply bind_ext. auto.
Qed.
Lemma qr_solve_coh d0 d : qr_coh d0 d -> qrs_IsNonSingular d = qrs_IsNonSingular d0 /\
  (forall b, qrs_SolveVector d b = qrs_SolveVector d0 b) /\ (forall b, qrs_SolveMatrix d b = qrs_SolveMatrix d0 b).
Proof.
  intros (Q1 & Q2 & Q3 & _). split; [unfold qrs_IsNonSingular; fields d d0; reflexivity|].
  split; intros b; [unfold qrs_SolveVector|unfold qrs_SolveMatrix, qrs_forward, qrs_backward]; fields d d0; reflexivity.
Qed.
Lemma qr_repeat x thr d0 d : NewQRDecompositionWithThreshold x thr = Ok d0 -> qr_calls d0 d ->
  result (qr_Q d) = result (qr_Q d0) /\ result (qr_QT d) = result (qr_QT d0) /\ result (qr_R d) = result (qr_R d0) /\
  result (qr_H d) = result (qr_H d0) /\ qrs_IsNonSingular d = qrs_IsNonSingular d0 /\
  (forall b, qrs_SolveVector d b = qrs_SolveVector d0 b) /\ (forall b, qrs_SolveMatrix d b = qrs_SolveMatrix d0 b) /\
  qrs_Inverse d = qrs_Inverse d0.
Proof.
  intros H Hc. apply qr_new_empty in H. pose proof (qr_calls_coh _ _ _ H (qr_coh_refl _ H) Hc) as C.
  pose proof (proj1 (qr_Q_coh _ _ H C)). pose proof (proj1 (qr_QT_coh _ _ H C)). pose proof (proj1 (qr_R_coh _ _ H C)). pose proof (proj1 (qr_H_coh _ _ H C)).
  destruct (qr_solve_coh _ _ C) as (S1 & S2 & S3). destruct C as (Q1 & Q2 & Q3 & _).
  repeat split; auto. unfold qrs_Inverse. fields d d0. apply bind_ext. intros. apply bind_ext. auto.
Qed.
Lemma rr_solve_coh d0 d : rr_empty d0 -> rr_coh d0 d -> rrs_IsNonSingular d = rrs_IsNonSingular d0 /\
  (forall b, result (rrs_SolveVector d b) = result (rrs_SolveVector d0 b)) /\ (forall b, result (rrs_SolveMatrix d b) = result (rrs_SolveMatrix d0 b)).
Proof.
  intros E C. pose proof (rr_coh_refl _ E) as C'. split; [apply qr_solve_coh, C|].
  destruct (rr_P_coh _ _ E C) as (R & K). pose proof (proj2 (rr_P_coh _ _ E C')) as K'.
  split; intros b; [unfold rrs_SolveVector|unfold rrs_SolveMatrix]; (apply result_ext2; [exact R|]; intros p d' d'' H1 H2;
    apply K in H1; apply K' in H2; destruct H1 as (H1 & _); destruct H2 as (H2 & _);
    destruct (qr_solve_coh _ _ H1) as (_ & T1 & T2); destruct (qr_solve_coh _ _ H2) as (_ & T3 & T4)).
  - rewrite T1, T3. rpeel.
  - rewrite T2, T4. rpeel.
Qed.
Lemma rr_repeat x thr d0 d : NewRRQRDecompositionWithThreshold x thr = Ok d0 -> rr_calls d0 d ->
  result (rr_lift qr_Q d) = result (rr_lift qr_Q d0) /\ result (rr_lift qr_QT d) = result (rr_lift qr_QT d0) /\
  result (rr_lift qr_R d) = result (rr_lift qr_R d0) /\ result (rr_lift qr_H d) = result (rr_lift qr_H d0) /\
  result (rr_P d) = result (rr_P d0) /\ (forall drop, result (rr_Rank d drop) = result (rr_Rank d0 drop)) /\
  rrs_IsNonSingular d = rrs_IsNonSingular d0 /\ (forall b, result (rrs_SolveVector d b) = result (rrs_SolveVector d0 b)) /\
  (forall b, result (rrs_SolveMatrix d b) = result (rrs_SolveMatrix d0 b)) /\ result (rrs_Inverse d) = result (rrs_Inverse d0).
Proof.
  intros H Hc. apply rr_new_empty in H. pose proof (rr_calls_coh _ _ _ H (rr_coh_refl _ H) Hc) as C.
  destruct (rr_solve_coh _ _ H C) as (S1 & S2 & S3).
  split; [apply (proj1 (rr_lift_coh qr_Q _ _ H C qr_Q_coh))|]. split; [apply (proj1 (rr_lift_coh qr_QT _ _ H C qr_QT_coh))|].
  split; [apply (proj1 (rr_lift_coh qr_R _ _ H C qr_R_coh))|]. split; [apply (proj1 (rr_lift_coh qr_H _ _ H C qr_H_coh))|].
  split; [apply (proj1 (rr_P_coh _ _ H C))|]. split; [intros drop; apply (proj1 (rr_Rank_coh _ _ drop H C))|].
  split; [exact S1|]. split; [exact S2|]. split; [exact S3|].
  unfold rrs_Inverse. apply result_ext2; [apply (proj1 (rr_P_coh _ _ H C))|]. intros p d' d'' H1 H2.
  apply (proj2 (rr_P_coh _ _ H C)) in H1. apply (proj2 (rr_P_coh _ _ H (rr_coh_refl _ H))) in H2.
  apply result_ext. intros i. destruct (rr_solve_coh _ _ H H1) as (_ & _ & ->). destruct (rr_solve_coh _ _ H H2) as (_ & _ & ->). reflexivity.
Qed.
Lemma hs_repeat x d0 d : NewHessenbergTransformer x = Ok d0 -> hs_calls d0 d ->
  result (hs_P d) = result (hs_P d0) /\ result (hs_PT d) = result (hs_PT d0) /\ result (hs_H d) = result (hs_H d0).
Proof.
  intros H Hc. apply hs_new_empty in H. pose proof (hs_calls_coh _ _ _ H (hs_coh_refl _ H) Hc) as C.
  split; [apply (proj1 (hs_P_coh _ _ H C))|]. split; [apply (proj1 (hs_PT_coh _ _ H C))|apply (proj1 (hs_H_coh _ _ H C))].
Qed.
Lemma td_repeat x d0 d : NewTriDiagonalTransformer x = Ok d0 -> td_calls d0 d ->
  result (td_Q d) = result (td_Q d0) /\ result (td_QT d) = result (td_QT d0) /\ result (td_T d) = result (td_T d0) /\
  td_HouseholderVectorsRef d = td_HouseholderVectorsRef d0 /\ td_MainDiagonalRef d = td_MainDiagonalRef d0 /\
  td_SecondaryDiagonalRef d = td_SecondaryDiagonalRef d0.
Proof.
  intros H Hc. apply td_new_empty in H. pose proof (td_calls_coh _ _ _ H (td_coh_refl _ H) Hc) as C.
  split; [apply (proj1 (td_Q_coh _ _ H C))|]. split; [apply (proj1 (td_QT_coh _ _ H C))|]. split; [apply (proj1 (td_T_coh _ _ H C))|].
  destruct C as (Q1 & Q2 & Q3 & _). auto.
Qed.
Lemma bd_repeat x d0 d : NewBiDiagonalTransformer x = Ok d0 -> bd_calls d0 d ->
  result (bd_U d) = result (bd_U d0) /\ result (bd_B d) = result (bd_B d0) /\ result (bd_V d) = result (bd_V d0).
Proof.
  intros H Hc. apply bd_new_empty in H. pose proof (bd_calls_coh _ _ _ H (bd_coh_refl _ H) Hc) as C.
  split; [apply (proj1 (bd_U_coh _ _ H C))|]. split; [apply (proj1 (bd_B_coh _ _ H C))|apply (proj1 (bd_V_coh _ _ H C))].
Qed.
Lemma sc_repeat x d0 d : NewSchurTransformer x = Ok d0 -> sc_calls d0 d ->
  result (sc_getP d) = result (sc_getP d0) /\ result (sc_getPT d) = result (sc_getPT d0) /\ result (sc_getT d) = result (sc_getT d0).
Proof.
  intros H Hc. apply sc_new_empty in H. pose proof (sc_calls_coh _ _ _ H (sc_coh_refl _ H) Hc) as C.
  split; [apply (proj1 (sc_getP_coh _ _ H C))|]. split; [apply (proj1 (sc_getPT_coh _ _ H C))|apply (proj1 (sc_getT_coh _ _ H C))].
Qed.
Lemma ed_repeat d0 d : ((exists x, NewEigenDecomposition x = Ok d0) \/ (exists mn sec, NewEigenDecompositionFromTridiagonal mn sec = Ok d0)) ->
  ed_calls d0 d ->
  result (ed_V d) = result (ed_V d0) /\ result (ed_D d) = result (ed_D d0) /\ result (ed_VT d) = result (ed_VT d0) /\
  result (ed_SquareRoot d) = result (ed_SquareRoot d0) /\ ed_HasComplexEigenvalues d = ed_HasComplexEigenvalues d0 /\
  ed_RealEigenvalues d = ed_RealEigenvalues d0 /\ ed_ImagEigenvalues d = ed_ImagEigenvalues d0 /\
  (forall i, ed_RealEigenvalueAt d i = ed_RealEigenvalueAt d0 i /\ ed_ImagEigenvalue d i = ed_ImagEigenvalue d0 i /\
     ed_EigenvectorAt d i = ed_EigenvectorAt d0 i) /\
  ed_Determinant d = ed_Determinant d0 /\ eds_IsNonSingular d = eds_IsNonSingular d0 /\
  (forall b, eds_SolveVector d b = eds_SolveVector d0 b) /\ (forall b, eds_SolveMatrix d b = eds_SolveMatrix d0 b) /\
  eds_Inverse d = eds_Inverse d0.
Proof.
  intros H Hc. assert (E : ed_empty d0) by (destruct H as [[x H]|(mn & sec & H)]; [eapply ed_new_empty|eapply ed_tri_empty]; eauto).
  pose proof (ed_calls_coh _ _ _ E (ed_coh_refl _ E) Hc) as C.
  split; [apply (proj1 (ed_V_coh _ _ E C))|]. split; [apply (proj1 (ed_D_coh _ _ E C))|]. split; [apply (proj1 (ed_VT_coh _ _ E C))|].
  split; [apply (proj1 (ed_SquareRoot_coh _ _ E C))|].
  destruct C as (Q1 & Q2 & Q3 & Q4 & _).
  assert (NS : eds_IsNonSingular d = eds_IsNonSingular d0) by (unfold eds_IsNonSingular, eds_norm; fields d d0; reflexivity).
  repeat split; auto.
  all: intros; unfold ed_HasComplexEigenvalues, ed_RealEigenvalues, ed_ImagEigenvalues, ed_RealEigenvalueAt, ed_ImagEigenvalue, ed_EigenvectorAt,
    ed_Determinant, eds_SolveVector, eds_SolveMatrix, eds_Inverse; rewrite ?NS; fields d d0; reflexivity.
Qed.
Lemma sv_repeat fuel x d0 d : NewSingularValueDecomposition fuel x = Ok d0 -> sv_calls d0 d ->
  sv_U d = sv_U d0 /\ sv_V d = sv_V d0 /\ sv_SingularValues d = sv_SingularValues d0 /\
  result (sv_UT d) = result (sv_UT d0) /\ result (sv_VT d) = result (sv_VT d0) /\ result (sv_S d) = result (sv_S d0) /\
  (forall mn, result (sv_Covariance d mn) = result (sv_Covariance d0 mn)) /\ result (sv_Solver d) = result (sv_Solver d0) /\
  sv_Norm d = sv_Norm d0 /\ sv_ConditionNumber d = sv_ConditionNumber d0 /\ sv_InverseConditionNumber d = sv_InverseConditionNumber d0 /\
  sv_Rank d = sv_Rank d0 /\ svs_IsNonSingular d = svs_IsNonSingular d0.
Proof.
  intros H Hc. apply sv_new_empty in H. pose proof (sv_calls_coh _ _ _ H (sv_coh_refl _ H) Hc) as C.
  assert (X1 := proj1 (sv_UT_coh _ _ H C)). assert (X2 := proj1 (sv_VT_coh _ _ H C)). assert (X3 := proj1 (sv_S_coh _ _ H C)).
  assert (X4 := fun mn => proj1 (sv_Cov_coh _ _ mn H C)). assert (X5 := proj1 (sv_Solver_coh _ _ H C)).
  destruct C as (Q1 & Q2 & Q3 & Q4 & Q5 & Q6 & Q7 & _).
  assert (RK : sv_Rank d = sv_Rank d0) by (unfold sv_Rank; fields d d0; reflexivity).
  repeat split; auto.
  - unfold sv_Norm. fields d d0. reflexivity.
  - unfold sv_ConditionNumber. fields d d0. reflexivity.
  - unfold sv_InverseConditionNumber. fields d d0. reflexivity.
  - unfold svs_IsNonSingular. rewrite RK. fields d d0. reflexivity.
Qed.
End Hist.

(** For concrete cases: two calls that succeed. *)
Lemma two_calls {D A B} (New : res D) (a : D -> res (A * D)) (b : D -> res (B * D)) :
  match New with Ok d0 => match a d0 with Ok (_, d1) => match b d1 with Ok _ => true | _ => false end | _ => false end | _ => false end = true ->
  exists d0 d1 d m1 m2, New = Ok d0 /\ a d0 = Ok (m1, d1) /\ b d1 = Ok (m2, d).
Proof.
  destruct New as [d0| |]; try discriminate. destruct (a d0) as [[m1 d1]| |] eqn:E; try discriminate.
  destruct (b d1) as [[m2 d]| |] eqn:E2; try discriminate. intros _. exists d0, d1, d, m1, m2. auto.
Qed.

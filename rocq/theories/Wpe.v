(** Loops that may stop with an error value: a predicate for the normal result
    and one for the error; no panic. *)
From Coq Require Import ZArith List Lia Bool.
From Verif Require Import Base BaseLemmas.
Import ListNotations.
Open Scope Z_scope.

Definition wpe {A} (m : res A) (Q : A -> Prop) (E : err -> Prop) : Prop :=
  match m with Ok a => Q a | Err e => E e | Panic _ => False end.
Lemma wpe_ok {A} (a : A) (Q : A -> Prop) E : Q a -> wpe (Ok a) Q E.
Proof. auto. Qed.
Lemma wpe_err {A} e (Q : A -> Prop) (E : err -> Prop) : E e -> wpe (Err e) Q E.
Proof. auto. Qed.
Lemma wpe_wp {A} (m : res A) (Q : A -> Prop) E : wp m Q -> wpe m Q E.
Proof. intros (a & -> & H). exact H. Qed.
Lemma wpe_bind {A B} (m : res A) (f : A -> res B) Q E : wpe m (fun a => wpe (f a) Q E) E -> wpe (bind m f) Q E.
Proof. destruct m; cbn; auto. Qed.
Lemma wpe_bind_wp {A B} (m : res A) (f : A -> res B) Q E : wp m (fun a => wpe (f a) Q E) -> wpe (bind m f) Q E.
Proof. intros H. apply wpe_bind. apply wpe_wp. auto. Qed.
Lemma wpe_conseq {A} (m : res A) (P Q : A -> Prop) (D E : err -> Prop) : wpe m P D -> (forall a, P a -> Q a) -> (forall e, D e -> E e) -> wpe m Q E.
Proof. destruct m; cbn; auto. Qed.
Lemma wpe_for {S} (P : Z -> S -> Prop) lo hi body (s : S) (Q : S -> Prop) E :
  lo <= hi -> P lo s ->
  (forall i s, lo <= i < hi -> P i s -> wpe (body i s) (P (i + 1)) E) ->
  (forall s, P hi s -> Q s) ->
  wpe (for_ lo hi body s) Q E.
Proof.
  intros Hle HP Hb HQ. remember (Z.to_nat (hi - lo)) as n eqn:En.
  revert lo s Hle HP Hb En. induction n; intros.
  - rewrite for_nil by lia. apply HQ. replace hi with lo by lia. auto.
  - rewrite for_step by lia. apply wpe_bind. eapply wpe_conseq; [apply Hb; [lia|auto]| |auto].
    intros s' HP'. apply IHn; auto; try lia. intros; apply Hb; auto; lia.
Qed.
Lemma wpe_for_down {S} (P : Z -> S -> Prop) hi lo body (s : S) (Q : S -> Prop) E :
  lo - 1 <= hi -> P (hi + 1) s ->
  (forall i s, lo <= i <= hi -> P (i + 1) s -> wpe (body i s) (P i) E) ->
  (forall s, P lo s -> Q s) ->
  wpe (for_down hi lo body s) Q E.
Proof.
  intros Hle HP Hb HQ. remember (Z.to_nat (hi - lo + 1)) as n eqn:En.
  revert hi s Hle HP Hb En. induction n; intros.
  - rewrite for_down_nil by lia. apply HQ. replace lo with (hi + 1) by lia. auto.
  - rewrite for_down_step by lia. apply wpe_bind. eapply wpe_conseq; [apply Hb; [lia|auto]| |auto].
    intros s' HP'. apply IHn; auto; try lia.
    + replace (hi - 1 + 1) with hi by lia. auto.
    + intros; apply Hb; auto; lia.
Qed.

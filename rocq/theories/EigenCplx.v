(** HasComplexEigenvalues and Solver of the eigen decomposition. *)
From Coq Require Import ZArith List Lia Bool Reals Lra.
From Verif Require Import Base BaseLemmas Scalar Vector Matrix Array2D BlockM Diagonal RealMatrixM MatFacts TabTac VectorFacts DiagFacts Eigen RealOps EigenGenR.
Import ListNotations.
Open Scope Z_scope.

Lemma has_complex {O : Ops} (d : EdD) : exists b, ed_HasComplexEigenvalues d = Ok b /\
  (b = true <-> exists x, In x (ed_ImagEigenvalues d) /\ equalsWithError x fzero eps_ed = false) /\
  ed_Solver d = if b then Panic EUnsupported else Ok d.
Proof.
  assert (K : exists b, ed_HasComplexEigenvalues d = Ok b /\ (b = true <-> exists x, In x (ed_ImagEigenvalues d) /\ equalsWithError x fzero eps_ed = false)).
  { unfold ed_HasComplexEigenvalues. edestruct (for_brk_exists (len (ed_im d)) (fun i => negb (equalsWithError (nthZ (ed_im d) i) fzero eps_ed))
      (fun i (_ : unit) => let* x := zget (ed_im d) i in Ok (negb (equalsWithError x fzero eps_ed), tt))) as (b & E & Hb).
    - apply len_nonneg.
    - intros i s Hi. rewrite zget_ok by auto. reflexivity.
    - rewrite E. cbn [bind]. exists b. split; auto. rewrite Hb. unfold ed_ImagEigenvalues. cbn [app]. split.
      + intros (i & Hi & H). exists (nthZ (ed_im d) i). split; [|destruct (equalsWithError _ _ _); auto; discriminate].
        unfold nthZ. apply nth_In. unfold len in Hi. lia.
      + intros (x & Hx & H). destruct (In_nth _ _ fzero Hx) as (k & Hk & Ek). exists (Z.of_nat k). split; [unfold len; lia|].
        unfold nthZ. rewrite Nat2Z.id. rewrite (nth_indep _ _ fzero) by auto. rewrite Ek, H. auto. }
  destruct K as (b & E & H). exists b. split; auto. split; auto. unfold ed_Solver. rewrite E. reflexivity.
Qed.
Lemma has_complex_R (d : @EdD ROps) : exists b, ed_HasComplexEigenvalues d = Ok b /\
  (b = true <-> exists x, In x (ed_ImagEigenvalues d) /\ (/ 1000000000000 < Rabs x)%R) /\ ed_Solver d = if b then Panic EUnsupported else Ok d.
Proof.
  destruct (has_complex d) as (b & E & H & S). exists b. split; auto. split; auto. rewrite H. split; intros (x & Hx & Hn); exists x; split; auto.
  - apply Rnot_le_lt. intros L. apply near0_R in L. change (@fzero ROps) with 0%R in Hn. congruence.
  - destruct (equalsWithError x fzero eps_ed) eqn:Q; auto. apply near0_R in Q. unfold e12 in Q. lra.
Qed.

(** Real arithmetic in which the test [x == y] accepts a relative error [tol].
    The stopping test of the symmetric eigenvalue iteration, |e| + d == d, asks
    whether |e| vanishes beside d in the rounding of the sum; with exact sums and
    an exact test it would ask whether e = 0, which the iteration never reaches in
    general.  With [tol] = 2^-53 it asks |e| <= 2^-53 d; [tol] = 0 is exact
    arithmetic.  A test against zero is exact whatever [tol]. *)
From Coq Require Import ZArith QArith Reals Qreals Lra Lia Bool FunctionalExtensionality.
From Verif Require Import Base BaseLemmas Scalar VecSpec RealOps TabTac QRFacts Tridiag TridiagFacts.
Open Scope Z_scope.

Definition Rtolb (tol x y : R) : bool := if Rle_dec (Rabs (x - y)) (tol * Rabs y) then true else false.
Definition RTolOps (tol : R) : Ops := {|
  F := R; fzero := 0%R; fone := 1%R;
  fadd := Rplus; fsub := Rminus; fmul := Rmult; fdiv := Rdiv;
  fneg := Ropp; fabs := Rabs; fsqrt := sqrt; fhypot := fun x y => sqrt (x * x + y * y);
  fmax := Rmax; fmin := Rmin;
  flt := Rltb; fle := Rleb; feq := Rtolb tol;
  fnan := 0%R; fisnan := fun _ => false; fispinf := fun _ => false; fisninf := fun _ => false;
  fulp1 := Reqb;
  flit := Q2R |}.

Lemma Rtolb_zero tol x : Rtolb tol x 0 = Reqb x 0.
Proof.
  unfold Rtolb, Reqb. rewrite Rabs_R0, Rmult_0_r, Rminus_0_r. pose proof (Rabs_pos x).
  destruct (Rle_dec (Rabs x) 0), (Req_EM_T x 0); auto.
  - exfalso. apply n. destruct (Req_dec x 0); auto. pose proof (Rabs_pos_lt x H0). lra.
  - subst. rewrite Rabs_R0 in n. lra.
Qed.
Lemma Rtolb_negl tol e d : (0 <= d)%R -> Rtolb tol (e + d) d = true <-> (Rabs e <= tol * d)%R.
Proof.
  intros Hd. unfold Rtolb. replace (e + d - d)%R with e by ring. rewrite (Rabs_right d) by lra. destruct (Rle_dec _ _); intuition (auto || discriminate).
Qed.

(** The tridiagonal transform only tests against zero: same tables. *)
Section Td.
Variable tol : R.
Lemma hhv_tol m x k r : hh_v (O := RTolOps tol) m x k r = hh_v (O := ROps) m x k r.
Proof.
  unfold hh_v. change (hh_a (O := RTolOps tol) m x k) with (hh_a (O := ROps) m x k).
  change (@feq (RTolOps tol)) with (Rtolb tol). change (@feq ROps) with Reqb. change (@fzero (RTolOps tol)) with 0%R. change (@fzero ROps) with 0%R.
  rewrite Rtolb_zero. auto.
Qed.
Lemma tdv_tol m M k : td_v (O := RTolOps tol) m M k = td_v (O := ROps) m M k.
Proof. apply functional_extensionality. intros j. unfold td_v. apply hhv_tol. Qed.
Lemma tdM_tol m M k : td_M (O := RTolOps tol) m M k = td_M (O := ROps) m M k.
Proof.
  apply functional_extensionality. intros i. apply functional_extensionality. intros j.
  unfold td_M, td_z2, td_gamma, td_z1, td_beta. rewrite tdv_tol.
  change (td_a (O := RTolOps tol) m M k) with (td_a (O := ROps) m M k).
  change (@feq (RTolOps tol)) with (Rtolb tol). change (@feq ROps) with Reqb. change (@fzero (RTolOps tol)) with 0%R. change (@fzero ROps) with 0%R.
  rewrite Rtolb_zero. reflexivity.
Qed.
Lemma tdstp_tol m k s : td_stp (O := RTolOps tol) m k s = td_stp (O := ROps) m k s.
Proof. destruct s as [[M D] Sc]. unfold td_stp. rewrite tdM_tol. reflexivity. Qed.
Lemma tditer_tol m A k : td_iter (O := RTolOps tol) m A k = td_iter (O := ROps) m A k.
Proof.
  unfold td_iter. generalize (Z.to_nat k). intros t. induction t as [|t IH]; cbn [accum]; [reflexivity|].
  etransitivity; [apply tdstp_tol|]. f_equal. exact IH.
Qed.
Lemma tdfin_tol m A : td_fin (O := RTolOps tol) m A = td_fin (O := ROps) m A.
Proof. unfold td_fin. rewrite tditer_tol. destruct (td_iter (O := ROps) m A (m - 1)) as [[M D] Sc]. reflexivity. Qed.
Lemma tqstep_tol m M Sc k T : tq_step (O := RTolOps tol) m M Sc k T = tq_step (O := ROps) m M Sc k T.
Proof.
  apply functional_extensionality. intros i. apply functional_extensionality. intros j. unfold tq_step.
  change (@feq (RTolOps tol)) with (Rtolb tol). change (@feq ROps) with Reqb. change (@fzero (RTolOps tol)) with 0%R. change (@fzero ROps) with 0%R.
  rewrite Rtolb_zero. reflexivity.
Qed.
Lemma tqt_tol m M Sc i j : td_tabQT (O := RTolOps tol) m M Sc i j = td_tabQT (O := ROps) m M Sc i j.
Proof.
  unfold td_tabQT, tq_iter. replace (accum (fun t T => tq_step (O := RTolOps tol) m M Sc (m - 1 - t) T) (Z.to_nat (m - 1)) (fun _ _ => @fzero (RTolOps tol)))
    with (accum (fun t T => tq_step (O := ROps) m M Sc (m - 1 - t) T) (Z.to_nat (m - 1)) (fun _ _ => @fzero ROps)); [reflexivity|].
  generalize (Z.to_nat (m - 1)). intros t. induction t as [|t IH]; cbn [accum]; [reflexivity|]. rewrite IH. symmetry. apply tqstep_tol.
Qed.
End Td.

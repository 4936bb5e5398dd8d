(** The concrete cases beside C65_finite and C70_finite. *)
From Coq Require Import ZArith List Reals Lia Lra Psatz Bool Floats.SpecFloat.
From Flocq Require Import Core.
From Verif Require Import Base BaseLemmas Scalar Vector VecSpec Matrix MatSpec Array2D BlockM Diagonal RealMatrixM MatFacts Float64 ExampleOps RSum House QR QRSpec RndSpec FloatR RndSum RndLUEx RndQRSpec RndQR2 RndQREx SVDSpecR Bidiag HessSpec RndBidiagSpec RndBidiag3 RndBidiagEx RndFin2.
Import ListNotations.
Open Scope Z_scope.
Lemma midb_nz x : midb x = true -> fR x <> 0%R.
Proof. intros H E. apply midb_ok in H. rewrite E, Rabs_R0 in H. pose proof (powerRZ_lt 2 (-450) ltac:(lra)). lra. Qed.
Lemma qr_fin_ex : exists d Rm (T : Z -> Z -> sf) d1, @NewQRDecomposition E64 (fmat exQ) = Ok d /\ transposable (fmat exQ) /\ MatIs (fmat exQ) 3 2 (fent exQ) /\ qr_size 3 /\ nums2 3 2 (fent exQ) /\
  (10 * IZR (Z.min 3 2) * (IZR (3 + 4) * ulp2) <= / 16)%R /\ qr_of (fmat exQ) (@fzero E64) d /\ qr_R d = Ok (Rm, d1) /\ MatIs Rm 3 2 T /\ nums2 3 2 T /\ diag_range 2 T /\ forall k, 0 <= k < 2 -> fR (T k k) <> 0%R.
Proof.
  pose proof qr_check as C. unfold qr_run in C. destruct (@NewQRDecomposition E64 (fmat exQ)) as [d|e|e] eqn:E; [|discriminate C|discriminate C].
  assert (Hd : qr_of (fmat exQ) (@fzero E64) d) by (exists d; split; [right; auto|constructor]).
  assert (Ht : transposable (fmat exQ)) by (left; exact I).
  destruct (qr_sf_backward c_amd64 (fmat exQ) 3 2 (fent exQ) (@fzero E64) d Ht exQ_is ltac:(lia) ltac:(lia) size3 exQ_num Hd) as (Rm & Qm & T & Qf & d1 & d2 & ER & EQ & HR & HQ & K).
  change (@qr_R (SFOps c_amd64) d) with (@qr_R E64 d) in ER. change (@qr_Q (SFOps c_amd64) d) with (@qr_Q E64 d) in EQ. rewrite ER, EQ in C.
  destruct (@qrs_IsNonSingular E64 d) as [[]|e|e] eqn:Es; try discriminate C.
  destruct (@qrs_SolveVector E64 d (VArr (fls [1; 2; 2]))) as [[l|l]|e|e] eqn:Ev; try discriminate C.
  apply andb_prop in C. destruct C as [C1 C]. apply andb_prop in C. destruct C as [C2 C]. apply andb_prop in C. destruct C as [C3 C]. apply andb_prop in C. destruct C as [C4 C].
  assert (NT : nums2 3 2 T) by exact (ats_nums _ 3 2 _ C1 HR).
  rewrite (at_p_ok midb _ _ _ _ 0 0 HR ltac:(lia) ltac:(lia)) in C3. rewrite (at_p_ok _ _ _ _ _ 1 1 HR ltac:(lia) ltac:(lia)) in C4.
  assert (RT : diag_range 2 T). { intros k Hk. right. assert (k = 0 \/ k = 1) as [-> | ->] by lia; apply midb_ok; auto. }
  exists d, Rm, T, d1. split; [auto|]. split; [auto|]. split; [exact exQ_is|]. split; [exact size3|]. split; [exact exQ_num|].
  split; [change (IZR (3 + 4)) with 7%R; change (IZR (Z.min 3 2)) with 2%R; pose proof ulp2_le; lra|]. do 5 (split; [solve [auto]|]).
  intros k Hk. assert (k = 0 \/ k = 1) as [-> | ->] by lia; apply midb_nz; auto.
Qed.
Lemma bd_fin_ex : exists d Bm (T : Z -> Z -> sf) d2, @NewBiDiagonalTransformer E64 (fmat exQ) = Ok d /\ library (fmat exQ) /\ MatIs (fmat exQ) 3 2 (fent exQ) /\ qr_size 3 /\ nums2 3 2 (fent exQ) /\
  (10 * IZR (Z.min 3 2) * (IZR (Z.max 3 2 + 4) * ulp2) <= / 16)%R /\ bd_of (fmat exQ) d /\ bd_B d = Ok (Bm, d2) /\ MatIs Bm 3 2 T /\ nums2 3 2 T /\ entry_range 3 2 T /\ bd_full 3 2 T.
Proof.
  pose proof bd_check as C. unfold bd_run in C. destruct (@NewBiDiagonalTransformer E64 (fmat exQ)) as [d|e|e] eqn:E; [|discriminate C|discriminate C].
  assert (Hd : bd_of (fmat exQ) d) by (exists d; split; [auto|constructor]). assert (Hl : library (fmat exQ)) by exact I.
  destruct (bd_sf_backward c_amd64 (fmat exQ) 3 2 (fent exQ) d Hl exQ_is ltac:(lia) ltac:(lia) size3 exQ_num Hd) as (Um & Bm & Vm & Uf & T & Vf & d1 & d2 & d3 & EU & EB & EV & HU & HB & HV & K).
  change (@bd_U (SFOps c_amd64) d) with (@bd_U E64 d) in EU. change (@bd_B (SFOps c_amd64) d) with (@bd_B E64 d) in EB. change (@bd_V (SFOps c_amd64) d) with (@bd_V E64 d) in EV. rewrite EU, EB, EV in C.
  apply andb_prop in C. destruct C as [C1 C]. apply andb_prop in C. destruct C as [C2 C]. apply andb_prop in C. destruct C as [C3 C]. apply andb_prop in C. destruct C as [C4 C]. apply andb_prop in C. destruct C as [C5 C]. apply andb_prop in C. destruct C as [C6 C7].
  assert (NT : nums2 3 2 T) by exact (ats_nums _ 3 2 _ C2 HB).
  rewrite (at_p_ok _ _ _ _ _ 0 0 HB ltac:(lia) ltac:(lia)) in C4. rewrite (at_p_ok _ _ _ _ _ 0 1 HB ltac:(lia) ltac:(lia)) in C5. rewrite (at_p_ok _ _ _ _ _ 1 1 HB ltac:(lia) ltac:(lia)) in C6.
  pose proof (bd_shape_n _ 3 2 _ _ _ _ _ Hl exQ_is ltac:(lia) ltac:(lia) ltac:(lia) Hd EB HB) as Z0.
  assert (RT : entry_range 3 2 T).
  { intros i j Hi Hj. destruct (Z.eq_dec j i) as [->|N1]; [right; assert (i = 0 \/ i = 1) as [-> | ->] by lia; apply midb_ok; auto|].
    destruct (Z.eq_dec j (i + 1)) as [->|N2]; [right; assert (i = 0) as -> by lia; apply midb_ok; auto|]. left. rewrite Z0 by lia. reflexivity. }
  exists d, Bm, T, d2. split; [auto|]. split; [auto|]. split; [exact exQ_is|]. split; [exact size3|]. split; [exact exQ_num|].
  split; [change (IZR (Z.max 3 2 + 4)) with 7%R; change (IZR (Z.min 3 2)) with 2%R; pose proof ulp2_le; lra|]. do 5 (split; [solve [auto]|]).
  intros i j Hi Hj H. assert ((i = 0 /\ j = 0) \/ (i = 1 /\ j = 1) \/ (i = 0 /\ j = 1)) as [[-> ->]|[[-> ->]|[-> ->]]] by lia; apply midb_nz; auto.
Qed.

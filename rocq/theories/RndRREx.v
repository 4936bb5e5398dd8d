(** The concrete case beside C67 and C68: [[1 1] [1 2] [1 4]], whose columns are
    exchanged. *)
From Coq Require Import ZArith List Reals Lia Lra Bool Floats.SpecFloat.
From Verif Require Import Base BaseLemmas Scalar Vector VecSpec VectorFacts Matrix MatSpec Array2D BlockM Diagonal RealMatrixM MatFacts Array2DFacts MatrixOps Float64 RealOps ExampleOps RSum LUSpec QR QRSpec QRFacts QRProps RndSpec FloatR RndSum RndEx RndLUEx RndQRSpec RndQREx RndRR2.
Import ListNotations.
Open Scope Z_scope.

Definition rr_run : bool :=
  match @NewRRQRDecomposition E64 (fmat exQ) with
  | Ok d => match @rr_P E64 d, @rr_lift E64 qr_R d, @rr_lift E64 qr_Q d, @rrs_IsNonSingular E64 d, @rrs_SolveVector E64 d (VArr (fls [1; 2; 2])) with
    | Ok (p, _), Ok (r, _), Ok (q, _), Ok true, Ok (VArr l, _) =>
      at_p (sf_eqb sf_zero) p 0 0 && (ats numb r 3 2 && (ats numb q 3 3 && (at_p midb r 0 0 && (at_p midb r 1 1 && all_num l))))
    | _, _, _, _, _ => false end
  | _ => false
  end.
Lemma rr_check : rr_run = true. Proof. vm_compute. reflexivity. Qed.
Lemma rr_ex : exists d p Pm Rm Qm (T Qf : Z -> Z -> sf) d1 d2 d3 Q, @NewRRQRDecomposition E64 (fmat exQ) = Ok d /\ rr_P d = Ok (Pm, d1) /\ rr_lift qr_R d = Ok (Rm, d2) /\ rr_lift qr_Q d = Ok (Qm, d3) /\
  MatIs Pm 2 2 (fun i j => if i =? p j then sf_of_Z 1 else sf_zero) /\ p 0 = 1 /\ p 1 = 0 /\ MatIs Rm 3 2 T /\ MatIs Qm 3 3 Qf /\ nums2 3 2 T /\ nums2 3 3 Qf /\ diag_range 2 T /\
  qr_backward 3 2 (fun i j => fent exQ i (p j)) T Q /\ q_close 3 2 Qf Q /\ q_orthonormal 3 2 Qf /\ qr_product 3 2 (fun i j => fent exQ i (p j)) Qf T /\
  rrs_IsNonSingular d = Ok true /\
  exists r (y : Z -> sf) d4, rrs_SolveVector d (VArr (fls [1; 2; 2])) = Ok (r, d4) /\ VecIs r 2 y /\ nums 2 y /\ ls_backward 3 2 (fent exQ) (nthZ (fls [1; 2; 2])) y.
Proof.
  pose proof rr_check as C. unfold rr_run in C. destruct (@NewRRQRDecomposition E64 (fmat exQ)) as [d|e|e] eqn:E; [|discriminate C|discriminate C].
  assert (Hd : rr_of (fmat exQ) (@fzero E64) d) by (exists d; split; [right; auto|constructor]).
  assert (Ht : transposable (fmat exQ)) by (left; exact I).
  destruct (rr_sf_backward c_amd64 (fmat exQ) 3 2 (fent exQ) (@fzero E64) d Ht exQ_is ltac:(lia) ltac:(lia) size3 exQ_num Hd) as (p & Pm & Rm & Qm & T & Qf & d1 & d2 & d3 & EP & ER & EQ & HP & Hp & HR & HQ & K).
  change (SFOps c_amd64) with E64 in *. rewrite EP, ER, EQ in C.
  destruct (@rrs_IsNonSingular E64 d) as [[]|e|e] eqn:Es; try discriminate C.
  destruct (rr_sf_solve c_amd64 (fmat exQ) 3 2 (fent exQ) (@fzero E64) d Ht exQ_is ltac:(lia) ltac:(lia) size3 exQ_num Hd Es) as (Rm' & T' & d1' & ER' & HR' & K').
  change (SFOps c_amd64) with E64 in *. rewrite ER in ER'. injection ER' as <- <-.
  destruct (@rrs_SolveVector E64 d (VArr (fls [1; 2; 2]))) as [[[l|l] d4]|e|e] eqn:Ev; try discriminate C.
  apply andb_prop in C. destruct C as [C0 C]. apply andb_prop in C. destruct C as [C1 C]. apply andb_prop in C. destruct C as [C2 C]. apply andb_prop in C. destruct C as [C3 C]. apply andb_prop in C. destruct C as [C4 C5].
  assert (NT : nums2 3 2 T) by exact (ats_nums _ 3 2 _ C1 HR). assert (NQ : nums2 3 3 Qf) by exact (ats_nums _ 3 3 _ C2 HQ).
  rewrite (at_p_ok _ _ _ _ _ 0 0 HP ltac:(lia) ltac:(lia)) in C0. rewrite (at_p_ok _ _ _ _ _ 0 0 HR ltac:(lia) ltac:(lia)) in C3. rewrite (at_p_ok _ _ _ _ _ 1 1 HR ltac:(lia) ltac:(lia)) in C4.
  assert (P01 : p 0 = 1 /\ p 1 = 0).
  { destruct Hp as (P1 & P2 & _). pose proof (P1 0 ltac:(lia)). pose proof (P1 1 ltac:(lia)). destruct (Z.eqb_spec 0 (p 0)) as [E0|N0].
    - vm_compute in C0. discriminate C0.
    - assert (p 0 = 1) by lia. split; [auto|]. destruct (Z.eq_dec (p 1) 0); [auto|]. exfalso. pose proof (P2 0 1 ltac:(lia) ltac:(lia)). lia. }
  assert (RT : diag_range 2 T). { intros k Hk. right. assert (k = 0 \/ k = 1) as [-> | ->] by lia; apply midb_ok; auto. }
  destruct (K NT RT) as (Q & KB & KC). destruct (KC NQ) as (KC1 & KC2 & KC3). destruct P01 as [Pa Pb].
  exists d, p, Pm, Rm, Qm, T, Qf, d1, d2, d3, Q. do 17 (split; [solve [auto]|]).
  assert (RT' : diag_range 2 T'). { intros k Hk. rewrite (MatIs_same _ _ _ _ _ HR' HR) by lia. apply RT. auto. }
  assert (NT' : nums2 3 2 T') by (intros i j Hi Hj; rewrite (MatIs_same _ _ _ _ _ HR' HR) by lia; apply NT; auto).
  destruct (K' NT' RT') as (K1 & _). destruct (K1 (VArr (fls [1; 2; 2])) (nthZ (fls [1; 2; 2]))) as (r & y & d5 & Er & Hy & HL).
  - apply vec_lst. reflexivity.
  - apply (nums_lst c_amd64); vm_compute; reflexivity.
  - rewrite Ev in Er. injection Er as <- <-.
    exists (VArr l), y, d4. split; [auto|]. split; [auto|]. assert (Ny : nums 2 y) by (apply (VecIs_nums c_amd64 l); auto). split; [auto|]. apply HL. auto.
Qed.

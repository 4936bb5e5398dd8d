(** The tridiagonal, bidiagonal and Hessenberg transforms: C33, C34, C35.
    [td_of x d]: [d] is what NewTriDiagonalTransformer(x) returned, after any
    sequence of calls to Q, QT and T; [bd_of x d], [hs_of x d] the same for the
    bidiagonal transform (U, B, V) and the Hessenberg transform (P, PT, H). *)
From Coq Require Import ZArith List Lia Bool Reals Lra Floats.SpecFloat.
From Verif Require Import Base BaseLemmas Scalar Vector VecSpec VectorFacts Matrix Array2D BlockM Diagonal RealMatrixM MatSpec TabTac Hess Tridiag Bidiag HessSpec HessFacts TridiagFacts RealOps RSum TransProps Float64 ExampleOps ExampleReal ExampleDec.
Import ListNotations.
Open Scope Z_scope.
#[local] Existing Instance ROps.

(** C33: the product has the upper triangle of A, so is A when A is symmetric. *)
Theorem C33_factorisation : forall (x : @RealMatrix ROps) n A d, library x -> MatIs x n n A -> 1 <= n -> td_of x d ->
  exists Qm Sm Tm Q S T d1 d2 d3, td_Q d = Ok (Qm, d1) /\ td_QT d = Ok (Sm, d2) /\ td_T d = Ok (Tm, d3) /\
    MatIs Qm n n Q /\ MatIs Sm n n S /\ MatIs Tm n n T /\
    (forall i j, 0 <= i <= j -> j < n -> mmul n (mmul n Q T) S i j = A i j) /\
    ((forall i j, 0 <= i < n -> 0 <= j < n -> A i j = A j i) -> meq n n (mmul n (mmul n Q T) S) A) /\
    orthogonal n Q /\ meq n n S (trm Q) /\ meq n n T (trm T) /\ (forall i j, 0 <= i < n -> 0 <= j < n -> 1 < Z.abs (i - j) -> T i j = 0%R).
Proof. exact td_factor. Qed.
Print Assumptions C33_factorisation.
Theorem C33_total : forall (O : Ops) (x : @RealMatrix O) n A, library x -> MatIs x n n A -> 1 <= n -> exists d, NewTriDiagonalTransformer x = Ok d.
Proof. exact (@td_total). Qed.
Print Assumptions C33_total.
Theorem C33_error : forall (O : Ops) (x : @RealMatrix O) r c A, MatIs x r c A -> r <> c -> NewTriDiagonalTransformer x = Err ENonSquare.
Proof. exact (@td_new_nonsquare). Qed.
Print Assumptions C33_error.
(** In any arithmetic: two matrices that agree on and above the diagonal have
    the same Q, QT and T, whatever the accessors called before; QT is exactly
    the transpose of Q; T is exactly symmetric and tridiagonal. *)
Theorem C33_upper_triangle : forall (O : Ops) (x y : @RealMatrix O) n A B d d', library x -> MatIs x n n A -> library y -> MatIs y n n B ->
  (forall i j, 0 <= i <= j -> j < n -> A i j = B i j) -> 1 <= n -> td_of x d -> td_of y d' ->
  exists Q T Qm QTm Tm d1 d2 d3, td_Q d = Ok (Qm, d1) /\ td_QT d = Ok (QTm, d2) /\ td_T d = Ok (Tm, d3) /\
    MatIs Qm n n Q /\ MatIs QTm n n (fun i j => Q j i) /\ MatIs Tm n n T /\
    (forall i j, 0 <= i < n -> 0 <= j < n -> T i j = T j i) /\ (forall i j, 0 <= i < n -> 0 <= j < n -> 1 < Z.abs (i - j) -> T i j = fzero) /\
    exists Qm' QTm' Tm' d1' d2' d3', td_Q d' = Ok (Qm', d1') /\ td_QT d' = Ok (QTm', d2') /\ td_T d' = Ok (Tm', d3') /\
      MatIs Qm' n n Q /\ MatIs QTm' n n (fun i j => Q j i) /\ MatIs Tm' n n T.
Proof. exact (@td_any). Qed.
Print Assumptions C33_upper_triangle.
Definition ex33 : list (list R) := [[1; 3; 4]; [3; 2; 0]; [4; 0; 7]]%R.
Lemma ex33_is : MatIs (rmat ex33) 3 3 (rent ex33).
Proof. apply rmat_is; try lia; try reflexivity. intros i Hi. assert (i = 0 \/ i = 1 \/ i = 2) as [-> | [-> | ->]] by lia; reflexivity. Qed.
Example C33_ex : exists d, td_of (rmat ex33) d /\ forall i j, 0 <= i < 3 -> 0 <= j < 3 -> rent ex33 i j = rent ex33 j i.
Proof.
  destruct (C33_total ROps (rmat ex33) 3 _ (rmat_lib _) ex33_is ltac:(lia)) as (d & E). exists d. split; [exists d; split; [exact E|constructor]|].
  intros i j Hi Hj. assert (i = 0 \/ i = 1 \/ i = 2) as [-> | [-> | ->]] by lia; assert (j = 0 \/ j = 1 \/ j = 2) as [-> | [-> | ->]] by lia; reflexivity.
Qed.
(** On float64: column 0 of T for the upper triangle 1 3 4 / 2 0 / 7, and no
    trace of the lower triangle. *)
Example C33_float_ex : (let* (q, t) := td_obs [[1; 3; 4]; [9; 2; 0]; [9; 9; 7]] in Ok (map (firstn 1) t)) = Ok (flss [[1]; [-5]; [0]]) /\
  td_obs [[1; 3; 4]; [9; 2; 0]; [9; 9; 7]] = td_obs [[1; 3; 4]; [3; 2; 0]; [4; 0; 7]] /\
  td_obs [[1; 2; 3]] = Err ENonSquare.
Proof. vm_compute. repeat split; reflexivity. Qed.

(** C34 *)
Theorem C34_factorisation : forall (x : @RealMatrix ROps) m n A d, library x -> MatIs x m n A -> 1 <= m -> 1 <= n -> bd_of x d ->
  exists Um Bm Vm U B V d1 d2 d3, bd_U d = Ok (Um, d1) /\ bd_B d = Ok (Bm, d2) /\ bd_V d = Ok (Vm, d3) /\
    MatIs Um m m U /\ MatIs Bm m n B /\ MatIs Vm n n V /\
    meq m n (mmul n (mmul m U B) (trm V)) A /\ orthogonal m U /\ orthogonal n V /\
    (n <= m -> forall i j, 0 <= i < m -> 0 <= j < n -> j <> i -> j <> i + 1 -> B i j = 0%R) /\
    (m < n -> forall i j, 0 <= i < m -> 0 <= j < n -> j <> i -> j <> i - 1 -> B i j = 0%R).
Proof. exact bd_factor. Qed.
Print Assumptions C34_factorisation.
(** In any arithmetic: the constructor succeeds on every matrix and
    IsUpperBiDiagonal tells which shape B has; the accessors' results do not
    depend on the calls made before, and B has its zeros exactly. *)
Theorem C34_total : forall (O : Ops) (x : @RealMatrix O) m n A, library x -> MatIs x m n A -> 1 <= m -> 1 <= n ->
  exists d, NewBiDiagonalTransformer x = Ok d /\ bd_IsUpperBiDiagonal d = Ok (n <=? m).
Proof. exact (@bd_total). Qed.
Print Assumptions C34_total.
Theorem C34_any_arithmetic : forall (O : Ops) (x : @RealMatrix O) m n A d d', library x -> MatIs x m n A -> 1 <= m -> 1 <= n -> bd_of x d -> bd_of x d' ->
  exists U B V Um Bm Vm d1 d2 d3, bd_U d = Ok (Um, d1) /\ bd_B d = Ok (Bm, d2) /\ bd_V d = Ok (Vm, d3) /\
    MatIs Um m m U /\ MatIs Bm m n B /\ MatIs Vm n n V /\
    (forall i j, 0 <= i < m -> 0 <= j < n -> j <> i -> j <> (if n <=? m then i + 1 else i - 1) -> B i j = fzero) /\
    exists Um' Bm' Vm' d1' d2' d3', bd_U d' = Ok (Um', d1') /\ bd_B d' = Ok (Bm', d2') /\ bd_V d' = Ok (Vm', d3') /\
      MatIs Um' m m U /\ MatIs Bm' m n B /\ MatIs Vm' n n V.
Proof. exact (@bd_any). Qed.
Print Assumptions C34_any_arithmetic.
Example C34_ex : exists d, bd_of (rmat [[3; 0]; [4; 5]]%R) d /\ exists Bm (B : Z -> Z -> R) d', bd_B d = Ok (Bm, d') /\ MatIs Bm 2 2 B /\ B 1 0 = 0%R.
Proof.
  destruct (C34_total ROps (rmat [[3; 0]; [4; 5]]%R) 2 2 _ (rmat_lib _) (rmat2_is 3 0 4 5) ltac:(lia) ltac:(lia)) as (d & E & _).
  assert (Hd : bd_of (rmat [[3; 0]; [4; 5]]%R) d) by (exists d; split; [exact E|constructor]). exists d. split; auto.
  destruct (C34_factorisation _ 2 2 _ d (rmat_lib _) (rmat2_is 3 0 4 5) ltac:(lia) ltac:(lia) Hd) as (Um & Bm & Vm & U & B & V & d1 & d2 & d3 & _ & EB & _ & _ & HB & _ & _ & _ & _ & HU & _).
  exists Bm, B, d2. split; auto. split; auto. apply HU; lia.
Qed.
(** On float64: a tall and a wide matrix. *)
Example C34_float_ex : (let* ubv := bd_obs [[3; 0]; [4; 5]] in Ok (snd (fst ubv))) = Ok (flss [[-5; 4]; [0; 3]]) /\
  (let* ubv := bd_obs [[3; 4; 0]; [0; 5; 12]] in Ok (map (firstn 1) (snd (fst ubv)), map (skipn 2) (snd (fst ubv)))) = Ok (flss [[-5]; [4]], flss [[0]; [0]]).
Proof. vm_compute. repeat split; reflexivity. Qed.

(** C35 *)
Theorem C35_factorisation : forall (x : @RealMatrix ROps) n A d, library x -> MatIs x n n A -> 1 <= n -> hs_of x d ->
  exists Pm Tm Hm P T H d1 d2 d3, hs_P d = Ok (Pm, d1) /\ hs_PT d = Ok (Tm, d2) /\ hs_H d = Ok (Hm, d3) /\
    MatIs Pm n n P /\ MatIs Tm n n T /\ MatIs Hm n n H /\
    meq n n (mmul n (mmul n P H) T) A /\ orthogonal n P /\ meq n n T (trm P) /\ (forall i j, 0 <= j -> j + 1 < i < n -> H i j = 0%R).
Proof. exact hs_factor. Qed.
Print Assumptions C35_factorisation.
Theorem C35_total : forall (O : Ops) (x : @RealMatrix O) n A, library x -> MatIs x n n A -> 1 <= n -> exists d, NewHessenbergTransformer x = Ok d.
Proof. exact (@hs_total). Qed.
Print Assumptions C35_total.
Theorem C35_error : forall (O : Ops) (x : @RealMatrix O) r c A, MatIs x r c A -> r <> c -> NewHessenbergTransformer x = Err ENonSquare.
Proof. exact (@hs_new_nonsquare). Qed.
Print Assumptions C35_error.
Theorem C35_any_arithmetic : forall (O : Ops) (x : @RealMatrix O) n A d d', library x -> MatIs x n n A -> 1 <= n -> hs_of x d -> hs_of x d' ->
  exists P H Pm PTm Hm d1 d2 d3, hs_P d = Ok (Pm, d1) /\ hs_PT d = Ok (PTm, d2) /\ hs_H d = Ok (Hm, d3) /\
    MatIs Pm n n P /\ MatIs PTm n n (fun i j => P j i) /\ MatIs Hm n n H /\
    (forall i j, 0 <= j -> j + 1 < i < n -> H i j = fzero) /\
    exists Pm' PTm' Hm' d1' d2' d3', hs_P d' = Ok (Pm', d1') /\ hs_PT d' = Ok (PTm', d2') /\ hs_H d' = Ok (Hm', d3') /\
      MatIs Pm' n n P /\ MatIs PTm' n n (fun i j => P j i) /\ MatIs Hm' n n H.
Proof. exact (@hs_any). Qed.
Print Assumptions C35_any_arithmetic.
(** On float64 the claim fails for small enough entries: the step is skipped
    when the column is within one ulp of zero, but P only skips it when the
    entry is exactly zero, and divides by a zero it never set. *)
Theorem C35_float_refuted : ~ (forall rows p h : list (list spec_float), hs_obs rows = Ok (p, h) ->
  Forall (Forall (fun x => exists s m e, x = S754_finite s m e \/ x = S754_zero s)) rows -> ~ In S754_nan (concat p)).
Proof.
  intros H. eapply (H [[fl 1; fl 0; fl 0]; [tiny64; fl 1; fl 2]; [fl 0; fl 3; fl 1]]); [vm_compute; reflexivity| |vm_compute; tauto].
  repeat constructor; vm_compute; eexists; eexists; eexists; (left; reflexivity) || (right; reflexivity).
  Unshelve. all: exact 1%positive || exact 0%Z.
Qed.
Print Assumptions C35_float_refuted.
Example C35_ex : exists d, hs_of (rmat ex33) d /\ exists Hm (H : Z -> Z -> R) d', hs_H d = Ok (Hm, d') /\ MatIs Hm 3 3 H /\ H 2 0 = 0%R.
Proof.
  destruct (C35_total ROps (rmat ex33) 3 _ (rmat_lib _) ex33_is ltac:(lia)) as (d & E).
  assert (Hd : hs_of (rmat ex33) d) by (exists d; split; [exact E|constructor]). exists d. split; auto.
  destruct (C35_factorisation _ 3 _ d (rmat_lib _) ex33_is ltac:(lia) Hd) as (Pm & Tm & Hm & P & T & H & d1 & d2 & d3 & _ & _ & EH & _ & _ & HH & _ & _ & _ & HU).
  exists Hm, H, d3. split; auto. split; auto. apply HU; lia.
Qed.
(** On float64: an upper triangular matrix is its own Hessenberg form. *)
Example C35_float_ex : hs_obs (flss [[1; 2; 3]; [0; 4; 5]; [0; 0; 6]]) = Ok (flss [[1; 0; 0]; [0; 1; 0]; [0; 0; 1]], flss [[1; 2; 3]; [0; 4; 5]; [0; 0; 6]]) /\
  hs_obs (flss [[1; 2; 3]]) = Err ENonSquare.
Proof. vm_compute. repeat split; reflexivity. Qed.

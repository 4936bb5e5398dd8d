(** The singular value decomposition, for arbitrary scalar operations: closed
    forms of the reduction to bidiagonal form. *)
From Coq Require Import ZArith QArith List Lia Bool.
From Verif Require Import Base BaseLemmas Wpe Scalar Vector VecSpec VectorFacts Matrix MatSpec MatFacts Array2D BlockM Diagonal RealMatrixM Array2DFacts MatrixOps MatHist MatProps BlockFacts RealMat2 RealMat3 TabTac FSum CholFacts LUFacts2 QRFacts Hess Tridiag Schur Eigen HessSpec TridiagFacts EigenFacts SVD.
Import ListNotations.
Open Scope Z_scope.

Section SVDFacts.
Context {O : Ops}.

Definition fhyps (lo hi : Z) (g : Z -> F) : F := accum (fun t s => fhypot s (g (lo + t)%Z)) (Z.to_nat (hi - lo)) fzero.
Lemma fhyps_nil lo hi g : hi <= lo -> fhyps lo hi g = fzero.
Proof. intros. unfold fhyps. replace (Z.to_nat (hi - lo)) with 0%nat by lia. auto. Qed.
Lemma fhyps_S lo hi g : lo <= hi -> fhyps lo (hi + 1) g = fhypot (fhyps lo hi g) (g hi).
Proof. intros. unfold fhyps. replace (hi + 1 - lo) with (hi - lo + 1) by lia. rewrite accum_S by lia. f_equal. f_equal. lia. Qed.
Lemma fhyps_ext lo hi g h : (forall t, lo <= t < hi -> g t = h t) -> fhyps lo hi g = fhyps lo hi h.
Proof. intros H. apply TabTac.accum_ext. intros. rewrite H by lia. auto. Qed.

(** The signed norm of x from k to m, and the reflection vector. *)
Definition sg (m : Z) (x : Z -> F) (k : Z) : F :=
  let h := fhyps k m x in if fne h fzero then (if flt (x k) fzero then fneg h else h) else h.
Definition hv (m : Z) (x : Z -> F) (k r : Z) : F :=
  if fne (fhyps k m x) fzero then (if r =? k then (x k / sg m x k + fone)%f else (x r / sg m x k)%f) else x r.

Definition sc_M (m k : Z) (M : Z -> Z -> F) (i j : Z) : F := if (j =? k) && (k <=? i) then hv m (fun r => M r k) k i else M i j.
Lemma sv_col_ok m n k A M s S : RTab A m n M -> VTab s n S -> 0 <= k < n -> k < m ->
  wp (sv_col m k A s) (fun r => RTab (fst r) m n (sc_M m k M) /\ VTab (snd r) n (vset S k (fneg (sg m (fun r => M r k) k)))).
Proof.
  intros H Hs Hk Hm. unfold sv_col. vput s1 Hs1. apply wp_bind. set (x := fun r => M r k).
  apply (wp_for (fun i s => VTab s n (vset S k (fhyps k i x)))); [lia| | |].
  { eapply VTab_ext; [exact Hs1|]. intros. cbn beta. unfold vset. rewrite fhyps_nil by lia. zbq; auto. }
  { intros i s2 Hi Hs2. vget. tget. vput s3 Hs3. apply wp_ok. eapply VTab_ext; [exact Hs3|]. intros j Hj. cbn beta. unfold vset. rewrite Z.eqb_refl. zbq; auto.
    rewrite fhyps_S by lia. auto. }
  intros s2 Hs2. vget. unfold vset at 1. rewrite Z.eqb_refl. set (h := fhyps k m x) in *.
  assert (W : wp (if fne h fzero then
      let* a := mget A k k in
      let* s := (if flt a fzero then zset s2 k (fneg (vset S k h k)) else Ok s2) in
      let* A := for_ k m (fun i A => let* a := mget A i k in let* x := zget s k in mset A i k (a / x)%f) A in
      let* a := mget A k k in let* A := mset A k k (a + fone)%f in Ok (A, s) else Ok (A, s2))
      (fun r => RTab (fst r) m n (sc_M m k M) /\ VTab (snd r) n (vset S k (sg m x k)))).
  { unfold sg, sc_M, hv. fold x. fold h. destruct (fne h fzero) eqn:Eh.
    - tget. change (M k k) with (x k).
      assert (W : wp (if flt (x k) fzero then zset s2 k (fneg (vset S k h k)) else Ok s2) (fun s => VTab s n (vset S k (sg m x k)))).
      { unfold sg. fold h. rewrite Eh. destruct (flt (x k) fzero).
        - unfold vset at 1. rewrite Z.eqb_refl. vput s3 Hs3. apply wp_ok. eapply VTab_ext; [exact Hs3|]. intros. cbn beta. unfold vset. zbq; auto.
        - apply wp_ok. auto. }
      apply wp_bind. eapply wp_conseq; [exact W|]. clear W. intros s3 Hs3. cbn beta in Hs3. apply wp_bind.
      apply (wp_colloop (fun i => x i / sg m x k)%f A m n M k k m _ _ H); try lia.
      + intros i A' Hi HA'. tget. vget. unfold colpart, vset. rewrite Z.eqb_refl. zbq. auto.
      + intros A' HA'. tget. tput A2 HA2. apply wp_ok. cbn [fst snd]. split.
        * eapply RTab_ext; [exact HA2|]. intros i j Hi Hj. cbn beta. unfold tset, colpart, sg. fold h. rewrite Eh. zbq; subst; auto.
        * unfold sg in Hs3. fold h in Hs3. rewrite Eh in Hs3. auto.
    - apply wp_ok. cbn [fst snd]. split; auto. eapply RTab_ext; [exact H|]. intros i j Hi Hj. cbn beta. unfold x. zbq; subst; auto. }
  apply wp_bind. eapply wp_conseq; [exact W|]. clear W. intros [A1 s3] (HA1 & Hs3). cbn [fst snd] in *. vget. unfold vset at 1. rewrite Z.eqb_refl. vput s4 Hs4.
  apply wp_ok. cbn [fst snd]. split; auto. eapply VTab_ext; [exact Hs4|]. intros. cbn beta. unfold vset. zbq; auto.
Qed.

(** The vector in column k, from row k on, applied to the column z. *)
Definition hap (m k : Z) (v z : Z -> F) (i : Z) : F := (z i + fneg (fadds fzero k m (fun r => v r * z r)) / v k * v i)%f.
Definition ca_M (m k : Z) (b : bool) (M : Z -> Z -> F) (i j : Z) : F :=
  if b && (k <? j) && (k <=? i) then hap m k (fun r => M r k) (fun r => M r j) i else M i j.
Lemma sv_colapply_ok m n k nct s S A M e E : RTab A m n M -> VTab s n S -> VTab e n E -> 0 <= k < n -> k < m ->
  wp (sv_colapply m n k nct s A e) (fun r => let b := (k <? nct) && fne (S k) fzero in
    RTab (fst r) m n (ca_M m k b M) /\ VTab (snd r) n (fun j => if k <? j then ca_M m k b M k j else E j)).
Proof.
  intros H Hs He Hk Hm. unfold sv_colapply. set (b := (k <? nct) && fne (S k) fzero).
  apply (wp_for (fun c r => RTab (fst r) m n (fun i j => if j <? c then ca_M m k b M i j else M i j) /\ VTab (snd r) n (fun j => if (k <? j) && (j <? c) then ca_M m k b M k j else E j))); [lia| | |].
  - cbn [fst snd]. split; [eapply RTab_ext; [exact H|]|eapply VTab_ext; [exact He|]]; intros; cbn beta; unfold ca_M; zbq; auto; rewrite ?andb_false_r; auto.
  - intros j [A1 e1] Hj (HA1 & He1). cbn [fst snd] in *.
    replace (if k <? nct then let* x := zget s k in Ok (fne x fzero) else Ok false) with (Ok b) by (unfold b; destruct (k <? nct); [vget; auto|auto]). cbn [bind].
    assert (W : wp (if b then
        let* t := for_ k m (fun i t => let* x := mget A1 i k in let* y := mget A1 i j in Ok (t + x * y)%f) fzero in
        let* d := mget A1 k k in
        let t0 := (fneg t / d)%f in
        for_ k m (fun i A => let* y := mget A i j in let* x := mget A i k in mset A i j (y + t0 * x)%f) A1
      else Ok A1) (fun A => RTab A m n (fun i c => if c <? j + 1 then ca_M m k b M i c else M i c))).
    { destruct b eqn:Eb.
      - rewrite (for_adds (fun i => M i k * M i j)%f). 2: lia. 2:{ intros. repeat tget. unfold ca_M. zbq. cbn [andb]. auto. }
        cbn [bind]. tget.
        apply (wp_colloop (fun i => hap m k (fun r => M r k) (fun r => M r j) i) A1 m n _ j k m _ _ HA1); try lia.
        + intros i A' Hi HA'. repeat tget. unfold colpart, ca_M, hap. zbq. cbn [andb]. auto.
        + intros A' HA'. eapply RTab_ext; [exact HA'|]. intros a c Ha Hc. cbn beta. unfold colpart, ca_M. zbq; subst; auto; cbn [andb]; zbq; auto.
      - apply wp_ok. eapply RTab_ext; [exact HA1|]. intros a c Ha Hc. cbn beta. unfold ca_M. cbn [andb]. zbq; auto. }
    apply wp_bind. eapply wp_conseq; [exact W|]. clear W. intros A2 HA2. cbn beta in HA2. tget. vput e2 He2. apply wp_ok. cbn [fst snd]. split; auto.
    eapply VTab_ext; [exact He2|]. intros c Hc. cbn beta. zbq; subst; auto.
  - intros [A1 e1] (HA1 & He1). cbn [fst snd] in *. split; [eapply RTab_ext; [exact HA1|]|eapply VTab_ext; [exact He1|]]; intros; cbn beta; zbq; auto.
Qed.

Definition sr_E (n k : Z) (E : Z -> F) (j : Z) : F := if j =? k then fneg (sg n E (k + 1)) else if k <? j then hv n E (k + 1) j else E j.
Lemma sv_row_ok n k e E : VTab e n E -> 0 <= k -> k + 1 < n -> wp (sv_row n k e) (fun e' => VTab e' n (sr_E n k E)).
Proof.
  intros He Hk Hn. unfold sv_row. vput e1 He1. apply wp_bind.
  apply (wp_for (fun i e => VTab e n (vset E k (fhyps (k + 1) i E)))); [lia| | |].
  { eapply VTab_ext; [exact He1|]. intros. cbn beta. unfold vset. rewrite fhyps_nil by lia. zbq; auto. }
  { intros i s2 Hi Hs2. repeat vget. vput s3 Hs3. apply wp_ok. eapply VTab_ext; [exact Hs3|]. intros j Hj. cbn beta. unfold vset. rewrite Z.eqb_refl. zbq; auto.
    rewrite fhyps_S by lia. auto. }
  intros e2 He2. vget. unfold vset at 1. rewrite Z.eqb_refl. set (h := fhyps (k + 1) n E) in *.
  assert (W : wp (if fne h fzero then
      let* y := zget e2 (k + 1) in
      let* e := (if flt y fzero then zset e2 k (fneg (vset E k h k)) else Ok e2) in
      let* e := for_ (k + 1) n (fun i e => let* y := zget e i in let* x := zget e k in zset e i (y / x)%f) e in
      let* y := zget e (k + 1) in zset e (k + 1) (y + fone)%f else Ok e2)
      (fun e => VTab e n (fun j => if j =? k then sg n E (k + 1) else if k <? j then hv n E (k + 1) j else E j))).
  { unfold sg, hv. fold h. destruct (fne h fzero) eqn:Eh.
    - vget. unfold vset at 1. zbq.
      assert (W : wp (if flt (E (k + 1)) fzero then zset e2 k (fneg (vset E k h k)) else Ok e2) (fun e => VTab e n (vset E k (sg n E (k + 1))))).
      { unfold sg. fold h. rewrite Eh. destruct (flt (E (k + 1)) fzero).
        - unfold vset at 1. rewrite Z.eqb_refl. vput s3 Hs3. apply wp_ok. eapply VTab_ext; [exact Hs3|]. intros. cbn beta. unfold vset. zbq; auto.
        - apply wp_ok. auto. }
      apply wp_bind. eapply wp_conseq; [exact W|]. clear W. intros e3 He3. cbn beta in He3. apply wp_bind.
      apply (wp_vecloop (fun i => E i / sg n E (k + 1))%f e3 n _ (k + 1) n _ _ He3); try lia.
      + intros i e' Hi He'. repeat vget. unfold vecpart, vset. rewrite Z.eqb_refl. zbq. auto.
      + intros e' He'. vget. vput e4 He4. apply wp_ok. eapply VTab_ext; [exact He4|]. intros j Hj. cbn beta. unfold vecpart, vset, sg. fold h. rewrite Eh. zbq; subst; auto.
    - apply wp_ok. eapply VTab_ext; [exact He2|]. intros j Hj. cbn beta. unfold vset. zbq; auto. }
  apply wp_bind. eapply wp_conseq; [exact W|]. clear W. intros e3 He3. cbn beta in He3. vget. rewrite Z.eqb_refl. vput e4 He4.
  apply wp_ok. eapply VTab_ext; [exact He4|]. intros. cbn beta. unfold sr_E. zbq; auto.
Qed.

Definition ra_w (n k : Z) (E : Z -> F) (x : Z -> F) : F := fadds fzero (k + 1) n (fun j => E j * x j)%f.
Definition ra_M (n k : Z) (b : bool) (E : Z -> F) (M : Z -> Z -> F) (i j : Z) : F :=
  if b && (k <? i) && (k <? j) then (M i j + fneg (E j) / E (k + 1)%Z * ra_w n k E (M i))%f else M i j.
Lemma sv_rowapply_ok m n k e E w W A M : RTab A m n M -> VTab e n E -> VTab w m W -> 0 <= k -> k + 1 < n -> k < m ->
  wp (sv_rowapply m n k e w A) (fun r => let b := (k + 1 <? m) && fne (E k) fzero in RTab (fst r) m n (ra_M n k b E M) /\ exists W', VTab (snd r) m W').
Proof.
  intros H He Hw Hk Hn Hm. unfold sv_rowapply. set (b := (k + 1 <? m) && fne (E k) fzero).
  replace (if k + 1 <? m then let* x := zget e k in Ok (fne x fzero) else Ok false) with (Ok b) by (unfold b; destruct (k + 1 <? m); [vget; auto|auto]). cbn [bind].
  destruct b eqn:Eb.
  2:{ apply wp_ok. cbn [fst snd]. split; [|eauto]. eapply RTab_ext; [exact H|]. intros. unfold ra_M. auto. }
  apply wp_bind. apply (wp_vecloop (fun _ => fzero) w m W (k + 1) m _ _ Hw); [lia|lia|auto|]. intros w1 Hw1.
  apply wp_bind. apply (wp_for (fun c w => VTab w m (fun i => if k <? i then fadds fzero (k + 1) c (fun j => E j * M i j)%f else W i))); [lia| | |].
  { eapply VTab_ext; [exact Hw1|]. intros. unfold vecpart. rewrite fadds_nil by lia. zbq; auto. }
  { intros j w2 Hj Hw2.
    apply (wp_vecloop (fun i => fadds fzero (k + 1) (j + 1) (fun j => E j * M i j))%f w2 m _ (k + 1) m _ _ Hw2); try lia.
    - intros i w3 Hi Hw3. repeat vget. tget. unfold vecpart. rewrite fadds_S by lia. zbq. auto.
    - intros w3 Hw3. eapply VTab_ext; [exact Hw3|]. intros. unfold vecpart. zbq; auto. }
  intros w2 Hw2. apply wp_bind.
  apply (wp_for (fun c A => RTab A m n (fun i j => if j <? c then ra_M n k true E M i j else M i j))); [lia| | |].
  { eapply RTab_ext; [exact H|]. intros. cbn beta. unfold ra_M. zbq; auto. }
  { intros j A1 Hj HA1. repeat vget.
    apply (wp_colloop (fun i => M i j + fneg (E j) / E (k + 1)%Z * ra_w n k E (M i))%f A1 m n _ j (k + 1) m _ _ HA1); try lia.
    - intros i A2 Hi HA2. tget. vget. unfold colpart. zbq. auto.
    - intros A2 HA2. eapply RTab_ext; [exact HA2|]. intros. cbn beta. unfold colpart, ra_M. zbq; subst; auto. }
  intros A1 HA1. apply wp_ok. cbn [fst snd]. split; [|eauto]. eapply RTab_ext; [exact HA1|]. intros. cbn beta. zbq; auto.
Qed.

(** The state of the reduction as tables. *)
Record sr_st := mkSR { sr_A : Z -> Z -> F; sr_S : Z -> F; sr_e : Z -> F; sr_U : Z -> Z -> F; sr_V : Z -> Z -> F }.
Definition sr_step (m n nct nrt k : Z) (x : sr_st) : sr_st :=
  let A1 := if k <? nct then sc_M m k (sr_A x) else sr_A x in
  let S1 := if k <? nct then vset (sr_S x) k (fneg (sg m (fun r => sr_A x r k) k)) else sr_S x in
  let b := (k <? nct) && fne (S1 k) fzero in
  let A2 := ca_M m k b A1 in
  let E2 := fun j => if k <? j then A2 k j else sr_e x j in
  let U := if k <? nct then colpart (sr_U x) k k m (fun i => A2 i k) else sr_U x in
  if k <? nrt then
    let E3 := sr_E n k E2 in
    let A3 := ra_M n k ((k + 1 <? m) && fne (E3 k) fzero) E3 A2 in
    mkSR A3 S1 E3 U (colpart (sr_V x) k (k + 1) n E3)
  else mkSR A2 S1 E2 U (sr_V x).
Definition SRT (m n : Z) (x : sr_st) (st : mat * vec * vec * vec * mat * mat) : Prop :=
  let '(A, s, e, w, U, V) := st in
  RTab A m n (sr_A x) /\ VTab s n (sr_S x) /\ VTab e n (sr_e x) /\ (exists W, VTab w m W) /\ RTab U m n (sr_U x) /\ RTab V n n (sr_V x).
Lemma sv_reduce_ok m n nct nrt k x st : SRT m n x st -> 0 <= k < n -> k < m -> nrt <= Z.max 0 (n - 2) ->
  wp (sv_reduce m n nct nrt k st) (SRT m n (sr_step m n nct nrt k x)).
Proof.
  destruct st as [[[[[A s] e] w] U] V]. intros (HA & Hs & He & (W & Hw) & HU & HV) Hk Hm Hr. unfold sv_reduce, sr_step.
  set (A1 := if k <? nct then sc_M m k (sr_A x) else sr_A x). set (S1 := if k <? nct then vset (sr_S x) k (fneg (sg m (fun r => sr_A x r k) k)) else sr_S x).
  assert (K1 : wp (if k <? nct then sv_col m k A s else Ok (A, s)) (fun r => RTab (fst r) m n A1 /\ VTab (snd r) n S1)).
  { unfold A1, S1. destruct (k <? nct); [apply sv_col_ok; auto|apply wp_ok; auto]. }
  apply wp_bind. eapply wp_conseq; [exact K1|]. clear K1. intros [A' s'] (HA' & Hs'). cbn [fst snd] in *.
  apply wp_bind. eapply wp_conseq; [apply (sv_colapply_ok m n k nct s' S1 A' A1 e _ HA' Hs' He); lia|]. cbn beta zeta. intros [A2 e2] (HA2 & He2). cbn [fst snd] in *.
  set (b := (k <? nct) && fne (S1 k) fzero) in *.
  assert (K2 : wp (if k <? nct then for_ k m (fun i U => let* a := mget A2 i k in mset U i k a) U else Ok U)
    (fun U' => RTab U' m n (if k <? nct then colpart (sr_U x) k k m (fun i => ca_M m k b A1 i k) else sr_U x))).
  { destruct (k <? nct); [|apply wp_ok; auto]. apply (wp_colloop (fun i => ca_M m k b A1 i k) U m n _ k k m _ _ HU); try lia; auto.
    intros. tget. auto. }
  apply wp_bind. eapply wp_conseq; [exact K2|]. clear K2. intros U2 HU2. cbn beta in HU2.
  destruct (Z.ltb_spec k nrt).
  - apply wp_bind. eapply wp_conseq; [apply (sv_row_ok n k e2 _ He2); lia|]. cbn beta. intros e3 He3.
    apply wp_bind. eapply wp_conseq; [apply (sv_rowapply_ok m n k e3 _ w W A2 _ HA2 He3 Hw); lia|]. cbn beta zeta. intros [A3 w3] (HA3 & Hw3). cbn [fst snd] in *.
    apply wp_bind. apply (wp_colloop (sr_E n k (fun j => if k <? j then ca_M m k b A1 k j else sr_e x j)) V n n _ k (k + 1) n _ _ HV); try lia.
    + intros. vget. auto.
    + intros V3 HV3. apply wp_ok. cbn. auto 8.
  - apply wp_ok. cbn. eauto 8.
Qed.

Lemma sv_final_ok m n nct nrt A M s S e E : RTab A m n M -> VTab s n S -> VTab e n E -> 1 <= n <= m -> 0 <= nct -> nrt = Z.max 0 (n - 2) ->
  wp (sv_final m n nct nrt A s e) (fun r => VTab (fst r) n (fun i => if (nct <? n) && (i =? nct) then M nct nct else S i) /\
    VTab (snd r) n (fun i => if i =? n - 1 then fzero else if (nrt + 1 <? n) && (i =? nrt) then M nrt (n - 1) else E i)).
Proof.
  intros HA Hs He Hn Hc Hr. unfold sv_final. apply wp_bind.
  assert (K1 : wp (if nct <? n then let* a := mget A nct nct in zset s nct a else Ok s) (fun s => VTab s n (fun i => if (nct <? n) && (i =? nct) then M nct nct else S i))).
  { destruct (Z.ltb_spec nct n); cbn [andb]; [|apply wp_ok; auto]. tget. vput s1 Hs1. apply wp_ok. auto. }
  eapply wp_conseq; [exact K1|]. clear K1. intros s1 Hs1. cbn beta in Hs1. replace (m <? n) with false by (symmetry; apply Z.ltb_ge; lia). cbn [bind].
  assert (K2 : wp (if nrt + 1 <? n then let* a := mget A nrt (n - 1) in zset e nrt a else Ok e) (fun e => VTab e n (fun i => if (nrt + 1 <? n) && (i =? nrt) then M nrt (n - 1) else E i))).
  { destruct (Z.ltb_spec (nrt + 1) n); cbn [andb]; [|apply wp_ok; auto]. tget. vput e1 He1. apply wp_ok. auto. }
  apply wp_bind. eapply wp_conseq; [exact K2|]. clear K2. intros e1 He1. cbn beta in He1. vput e2 He2. apply wp_ok. auto.
Qed.

(** ** U and V *)
Definition gu_init (nct : Z) (U : Z -> Z -> F) (i j : Z) : F := if nct <=? j then (if i =? j then fone else fzero) else U i j.
Definition gu_step (m k : Z) (b : bool) (U : Z -> Z -> F) (i j : Z) : F :=
  if b then
    if (k <? j) && (k <=? i) then hap m k (fun r => U r k) (fun r => U r j) i
    else if j =? k then (if i =? k then (fone + fneg (U k k))%f else if k <=? i then fneg (U i k) else if i <? k - 1 then fzero else U i k)
    else U i j
  else if j =? k then (if i =? k then fone else fzero) else U i j.
Definition gu_iter (m : Z) (nct : Z) (S : Z -> F) (U : Z -> Z -> F) (k : Z) : Z -> Z -> F :=
  accum (fun t U => gu_step m (nct - 1 - t) (fne (S (nct - 1 - t)) fzero) U) (Z.to_nat (nct - k)) (gu_init nct U).
Lemma gu_iter_S m nct S U k : k < nct -> gu_iter m nct S U k = gu_step m k (fne (S k) fzero) (gu_iter m nct S U (k + 1)).
Proof. intros. unfold gu_iter. replace (nct - k) with (nct - (k + 1) + 1) by lia. rewrite accum_S by lia. replace (nct - 1 - (nct - (k + 1))) with k by lia. auto. Qed.
Lemma sv_genU_ok m n nct s S U G : RTab U m n G -> VTab s n S -> 0 <= nct <= n -> n <= m -> (nct <= m - 1) ->
  wp (sv_genU m n nct s U) (fun U' => RTab U' m n (gu_iter m nct S G 0)).
Proof.
  intros HU Hs Hc Hn Hm. unfold sv_genU. apply wp_bind.
  apply (wp_for (fun c U => RTab U m n (fun i j => if (nct <=? j) && (j <? c) then (if i =? j then fone else fzero) else G i j))); [lia| | |].
  { eapply RTab_ext; [exact HU|]. intros. cbn beta. zbq; auto. }
  { intros j U1 Hj HU1. apply wp_bind. apply (wp_colloop (fun _ => fzero) U1 m n _ j 0 m _ _ HU1); try lia; auto. intros U2 HU2. tput U3 HU3. apply wp_ok.
    eapply RTab_ext; [exact HU3|]. intros a b Ha Hb. cbn beta. rp. }
  intros U1 HU1. apply (wp_for_down (fun k U => RTab U m n (gu_iter m nct S G k))).
  - lia.
  - eapply RTab_ext; [exact HU1|]. intros. cbn beta. unfold gu_iter, gu_init. replace (Z.to_nat (nct - (nct - 1 + 1))) with 0%nat by lia. cbn [accum]. zbq; auto.
  - intros k U2 Hk HU2. rewrite gu_iter_S by lia. set (W := gu_iter m nct S G (k + 1)) in *. vget. destruct (fne (S k) fzero).
    + apply wp_bind. apply (wp_for (fun c U => RTab U m n (fun i j => if (k <? j) && (j <? c) && (k <=? i) then hap m k (fun r => W r k) (fun r => W r j) i else W i j))); [lia| | |].
      { eapply RTab_ext; [exact HU2|]. intros. cbn beta. zbq; auto. }
      { intros j U3 Hj HU3. rewrite (for_adds (fun i => W i k * W i j)%f). 2: lia. 2:{ intros. repeat tget. zbq. auto. }
        cbn [bind]. tget.
        apply (wp_colloop (fun i => hap m k (fun r => W r k) (fun r => W r j) i) U3 m n _ j k m _ _ HU3); try lia.
        - intros i A' Hi HA'. repeat tget. unfold colpart, hap. zbq. auto.
        - intros A' HA'. eapply RTab_ext; [exact HA'|]. intros a c Ha Hc'. cbn beta. unfold colpart. zbq; subst; auto. }
      intros U3 HU3. apply wp_bind. apply (wp_colloop (fun i => fneg (W i k)) U3 m n _ k k m _ _ HU3); try lia.
      { intros i U4 Hi HU4. tget. unfold colpart. zbq. auto. }
      intros U4 HU4. tget. tput U5 HU5.
      assert (K : wp (for_ 0 (k - 1) (fun i U => mset U i k fzero) U5) (fun U' => RTab U' m n (gu_step m k true W))); [|exact K].
      destruct (Z.le_gt_cases 1 k).
      * apply (wp_colloop (fun _ => fzero) U5 m n _ k 0 (k - 1) _ _ HU5); try lia; auto.
        intros U6 HU6. eapply RTab_ext; [exact HU6|]. intros a c Ha Hc'. cbn beta. unfold gu_step. rp.
      * rewrite for_nil by lia. apply wp_ok. eapply RTab_ext; [exact HU5|]. intros a c Ha Hc'. cbn beta. unfold gu_step. rp.
    + apply wp_bind. apply (wp_colloop (fun _ => fzero) U2 m n _ k 0 m _ _ HU2); try lia; auto. intros U3 HU3. tput U4 HU4. apply wp_ok.
      eapply RTab_ext; [exact HU4|]. intros a c Ha Hc'. cbn beta. unfold gu_step. rp.
  - auto.
Qed.

Definition gv_step (n k : Z) (b : bool) (V : Z -> Z -> F) (i j : Z) : F :=
  if j =? k then (if i =? k then fone else fzero) else
  if b && (k <? j) && (k <? i) then hap n (k + 1) (fun r => V r k) (fun r => V r j) i else V i j.
Definition gv_iter (n nrt : Z) (E : Z -> F) (V : Z -> Z -> F) (k : Z) : Z -> Z -> F :=
  accum (fun t V => gv_step n (n - 1 - t) ((n - 1 - t <? nrt) && fne (E (n - 1 - t)) fzero) V) (Z.to_nat (n - k)) V.
Lemma gv_iter_S n nrt E V k : k < n -> gv_iter n nrt E V k = gv_step n k ((k <? nrt) && fne (E k) fzero) (gv_iter n nrt E V (k + 1)).
Proof. intros. unfold gv_iter. replace (n - k) with (n - (k + 1) + 1) by lia. rewrite accum_S by lia. replace (n - 1 - (n - (k + 1))) with k by lia. auto. Qed.
Lemma sv_genV_ok n nrt e E V G : RTab V n n G -> VTab e n E -> 1 <= n -> nrt <= Z.max 0 (n - 2) -> wp (sv_genV n nrt e V) (fun V' => RTab V' n n (gv_iter n nrt E G 0)).
Proof.
  intros HV He Hn Hr. unfold sv_genV. apply (wp_for_down (fun k V => RTab V n n (gv_iter n nrt E G k))).
  - lia.
  - unfold gv_iter. replace (Z.to_nat (n - (n - 1 + 1))) with 0%nat by lia. auto.
  - intros k V2 Hk HV2. rewrite gv_iter_S by lia. set (W := gv_iter n nrt E G (k + 1)) in *. set (b := (k <? nrt) && fne (E k) fzero).
    replace (if k <? nrt then let* x := zget e k in Ok (fne x fzero) else Ok false) with (Ok b) by (unfold b; destruct (k <? nrt); [vget; auto|auto]). cbn [bind].
    assert (K : wp (if b then
        for_ (k + 1) n (fun j V =>
          let* t := for_ (k + 1) n (fun i t => let* x := mget V i k in let* y := mget V i j in Ok (t + x * y)%f) fzero in
          let* d := mget V (k + 1) k in
          let t0 := (fneg t / d)%f in
          for_ (k + 1) n (fun i V => let* y := mget V i j in let* x := mget V i k in mset V i j (y + t0 * x)%f) V) V2
      else Ok V2) (fun V => RTab V n n (fun i j => if b && (k <? j) && (k <? i) then hap n (k + 1) (fun r => W r k) (fun r => W r j) i else W i j))).
    { destruct b eqn:Eb; [|apply wp_ok; auto]. assert (k < nrt) by (unfold b in Eb; apply andb_prop in Eb; destruct Eb as [Eb _]; apply Z.ltb_lt in Eb; auto).
      apply (wp_for (fun c V => RTab V n n (fun i j => if (k <? j) && (j <? c) && (k <? i) then hap n (k + 1) (fun r => W r k) (fun r => W r j) i else W i j))); [lia| | |].
      { eapply RTab_ext; [exact HV2|]. intros. cbn beta. zbq; auto. }
      { intros j U3 Hj HU3. rewrite (for_adds (fun i => W i k * W i j)%f). 2: lia. 2:{ intros. repeat tget. zbq. auto. }
        cbn [bind]. tget.
        apply (wp_colloop (fun i => hap n (k + 1) (fun r => W r k) (fun r => W r j) i) U3 n n _ j (k + 1) n _ _ HU3); try lia.
        - intros i A' Hi HA'. repeat tget. unfold colpart, hap. zbq. auto.
        - intros A' HA'. eapply RTab_ext; [exact HA'|]. intros a c Ha Hc'. cbn beta. unfold colpart. zbq; subst; auto. }
      intros U3 HU3. eapply RTab_ext; [exact HU3|]. intros a c Ha Hc'. cbn beta. zbq; auto. }
    apply wp_bind. eapply wp_conseq; [exact K|]. clear K. intros V3 HV3. cbn beta in HV3.
    apply wp_bind. apply (wp_colloop (fun _ => fzero) V3 n n _ k 0 n _ _ HV3); try lia; auto. intros V4 HV4. tput V5 HV5. apply wp_ok.
    eapply RTab_ext; [exact HV5|]. intros a c Ha Hc'. cbn beta. unfold gv_step. rp.
  - auto.
Qed.
End SVDFacts.

(** The Schur transform, for arbitrary scalar operations: every function
    computes a table, the iteration stops. *)
From Coq Require Import ZArith QArith List Lia Bool.
From Verif Require Import Base BaseLemmas Wpe Scalar Vector VecSpec VectorFacts Matrix MatSpec MatFacts Array2D BlockM Diagonal RealMatrixM Array2DFacts MatrixOps MatHist MatProps BlockFacts RealMat2 RealMat3 TabTac FSum CholFacts LUFacts2 QRFacts Hess HessSpec HessFacts Schur.
Import ListNotations.
Open Scope Z_scope.

Ltac deq := repeat match goal with
  | |- context [?a =? ?b] => first [replace (a =? b) with true by (symmetry; apply Z.eqb_eq; lia) | replace (a =? b) with false by (symmetry; apply Z.eqb_neq; lia)]
  | |- context [?a <? ?b] => first [replace (a <? b) with true by (symmetry; apply Z.ltb_lt; lia) | replace (a <? b) with false by (symmetry; apply Z.ltb_ge; lia)]
  | |- context [?a <=? ?b] => first [replace (a <=? b) with true by (symmetry; apply Z.leb_le; lia) | replace (a <=? b) with false by (symmetry; apply Z.leb_gt; lia)]
  end; cbn [andb orb negb].

Section SchurFacts.
Context {O : Ops}.

(** ** The passes over the table *)
Definition rsum (k : Z) (nl : bool) (q r : F) (T : Z -> Z -> F) (j : Z) : F :=
  if nl then (T k j + q * T (k + 1)%Z j + r * T (k + 2)%Z j)%f else (T k j + q * T (k + 1)%Z j)%f.
Definition rowsF (k : Z) (nl : bool) (q r x y z : F) (T : Z -> Z -> F) (i j : Z) : F :=
  if j <? k then T i j else
  let p := rsum k nl q r T j in
  if i =? k then (T k j - p * x)%f else if i =? k + 1 then (T (k + 1)%Z j - p * y)%f else if nl && (i =? k + 2) then (T (k + 2)%Z j - p * z)%f else T i j.
Definition csum (k : Z) (nl : bool) (x y z : F) (M : Z -> Z -> F) (i : Z) : F :=
  if nl then (x * M i k + y * M i (k + 1)%Z + z * M i (k + 2)%Z)%f else (x * M i k + y * M i (k + 1)%Z)%f.
Definition colsF (hi k : Z) (nl : bool) (q r x y z : F) (M : Z -> Z -> F) (i j : Z) : F :=
  if hi <=? i then M i j else
  let p := csum k nl x y z M i in
  if j =? k then (M i k - p)%f else if j =? k + 1 then (M i (k + 1)%Z - p * q)%f else if nl && (j =? k + 2) then (M i (k + 2)%Z - p * r)%f else M i j.


Lemma sc_rows_ok n k (nl : bool) q r x y z T Tf : RTab T n n Tf -> 0 <= k -> k + (if nl then 2 else 1) < n ->
  wp (sc_rows n k nl q r x y z T) (fun T' => RTab T' n n (rowsF k nl q r x y z Tf)).
Proof.
  intros H Hk Hn. unfold sc_rows. assert (k + 1 < n) by (destruct nl; lia).
  apply (wp_for (fun c T => RTab T n n (fun a b => if b <? c then rowsF k nl q r x y z Tf a b else Tf a b))); [lia| | |].
  - eapply RTab_ext; [exact H|]. intros a b Ha Hb. cbn beta. unfold rowsF. zbq; auto.
  - intros j T1 Hj H1. repeat tget. destruct nl.
    + repeat tget. tput T2 H2. repeat tget. tput T3 H3. tget. tput T4 H4. apply wp_ok. eapply RTab_ext; [exact H4|].
      intros a b Ha Hb. cbn beta. unfold tset, rowsF, rsum. deq. cbn [andb]. zbq; subst; auto.
    + cbn [bind]. repeat tget. tput T3 H3. tget. tput T4 H4. apply wp_ok. eapply RTab_ext; [exact H4|].
      intros a b Ha Hb. cbn beta. unfold tset, rowsF, rsum. deq. cbn [andb]. zbq; subst; auto.
  - intros T1 H1. eapply RTab_ext; [exact H1|]. intros a b Ha Hb. cbn beta. deq. auto.
Qed.
Lemma sc_cols_ok n hi k (nl : bool) q r x y z M Mf : RTab M n n Mf -> 0 <= hi <= n -> 0 <= k -> k + (if nl then 2 else 1) < n ->
  wp (sc_cols hi k nl q r x y z M) (fun M' => RTab M' n n (colsF hi k nl q r x y z Mf)).
Proof.
  intros H Hh Hk Hn. unfold sc_cols. assert (k + 1 < n) by (destruct nl; lia).
  apply (wp_for (fun c M => RTab M n n (fun a b => if a <? c then colsF hi k nl q r x y z Mf a b else Mf a b))); [lia| | |].
  - eapply RTab_ext; [exact H|]. intros a b Ha Hb. cbn beta. zbq; auto.
  - intros i M1 Hi H1. repeat tget. destruct nl.
    + repeat tget. tput M2 H2. repeat tget. tput M3 H3. tget. tput M4 H4. apply wp_ok. eapply RTab_ext; [exact H4|].
      intros a b Ha Hb. cbn beta. unfold tset, colsF, csum. deq. cbn [andb]. zbq; subst; auto.
    + cbn [bind]. repeat tget. tput M3 H3. tget. tput M4 H4. apply wp_ok. eapply RTab_ext; [exact H4|].
      intros a b Ha Hb. cbn beta. unfold tset, colsF, csum. deq. cbn [andb]. zbq; subst; auto.
  - intros M1 H1. eapply RTab_ext; [exact H1|]. intros a b Ha Hb. cbn beta. unfold colsF. zbq; auto.
Qed.
Definition rotRF (iu : Z) (p q : F) (T : Z -> Z -> F) (i j : Z) : F :=
  if j <? iu - 1 then T i j else if i =? iu - 1 then (q * T (iu - 1)%Z j + p * T iu j)%f else if i =? iu then (q * T iu j - p * T (iu - 1)%Z j)%f else T i j.
Definition rotCF (hi iu : Z) (p q : F) (M : Z -> Z -> F) (i j : Z) : F :=
  if hi <=? i then M i j else if j =? iu - 1 then (q * M i (iu - 1)%Z + p * M i iu)%f else if j =? iu then (q * M i iu - p * M i (iu - 1)%Z)%f else M i j.
Lemma sc_rotRows_ok n iu p q T Tf : RTab T n n Tf -> 1 <= iu < n -> wp (sc_rotRows n iu p q T) (fun T' => RTab T' n n (rotRF iu p q Tf)).
Proof.
  intros H Hi. unfold sc_rotRows.
  apply (wp_for (fun c T => RTab T n n (fun a b => if b <? c then rotRF iu p q Tf a b else Tf a b))); [lia| | |].
  - eapply RTab_ext; [exact H|]. intros a b Ha Hb. cbn beta. unfold rotRF. zbq; auto.
  - intros j T1 Hj H1. repeat tget. tput T2 H2. tget. tput T3 H3. apply wp_ok. eapply RTab_ext; [exact H3|].
    intros a b Ha Hb. cbn beta. unfold tset, rotRF. deq. cbn [andb]. zbq; subst; auto.
  - intros T1 H1. eapply RTab_ext; [exact H1|]. intros a b Ha Hb. cbn beta. deq. auto.
Qed.
Lemma sc_rotCols_ok n hi iu p q M Mf : RTab M n n Mf -> 0 <= hi <= n -> 1 <= iu < n -> wp (sc_rotCols hi iu p q M) (fun M' => RTab M' n n (rotCF hi iu p q Mf)).
Proof.
  intros H Hh Hi. unfold sc_rotCols.
  apply (wp_for (fun c M => RTab M n n (fun a b => if a <? c then rotCF hi iu p q Mf a b else Mf a b))); [lia| | |].
  - eapply RTab_ext; [exact H|]. intros a b Ha Hb. cbn beta. zbq; auto.
  - intros i M1 Hi1 H1. repeat tget. tput M2 H2. tget. tput M3 H3. apply wp_ok. eapply RTab_ext; [exact H3|].
    intros a b Ha Hb. cbn beta. unfold tset, rotCF. deq. cbn [andb]. zbq; subst; auto.
  - intros M1 H1. eapply RTab_ext; [exact H1|]. intros a b Ha Hb. cbn beta. unfold rotCF. zbq; auto.
Qed.
Definition subD (idx : Z) (s : F) (T : Z -> Z -> F) (i j : Z) : F := if (i =? j) && (i <=? idx) then (T i i - s)%f else T i j.
Lemma sc_subDiag_ok n idx s T Tf : RTab T n n Tf -> 0 <= idx < n -> wp (sc_subDiag T idx s) (fun T' => RTab T' n n (subD idx s Tf)).
Proof.
  intros H Hi. unfold sc_subDiag. apply (wp_for (fun c T => RTab T n n (subD (c - 1) s Tf))); [lia| | |].
  - eapply RTab_ext; [exact H|]. intros a b Ha Hb. unfold subD. zbq; subst; auto.
  - intros i T1 Hi1 H1. tget. tput T2 H2. apply wp_ok. eapply RTab_ext; [exact H2|]. intros a b Ha Hb. unfold tset, subD. cbn beta. deq. zbq; subst; auto.
  - intros T1 H1. eapply RTab_ext; [exact H1|]. intros a b Ha Hb. replace (idx + 1 - 1) with idx by lia. auto.
Qed.

(** ** Searches *)
Lemma sc_norm_total n T Tf : RTab T n n Tf -> 0 <= n -> wp (sc_norm T) (fun _ => True).
Proof.
  intros H Hn. unfold sc_norm. rewrite (RTab_len _ _ _ _ H). apply (wp_for (fun _ _ => True)); auto. intros i v Hi _.
  apply (wp_for (fun _ _ => True)); auto; [lia|]. intros j w Hj _. tget. apply wp_ok. auto.
Qed.
Definition smallF (norm : F) (T : Z -> Z -> F) (l : Z) : bool :=
  let s := (fabs (T (l - 1)%Z (l - 1)%Z) + fabs (T l l))%f in
  flt (fabs (T l (l - 1)%Z)) (doubleeps * (if feq s fzero then norm else s))%f.
Lemma sc_find_ok n T Tf iu norm : RTab T n n Tf -> 0 <= iu < n ->
  wp (sc_find T iu norm) (fun l => 0 <= l <= iu /\ (0 < l -> smallF norm Tf l = true) /\ forall k, l < k <= iu -> smallF norm Tf k = false).
Proof.
  intros H Hi. unfold sc_find. apply wp_bind.
  apply (wp_for_brk (fun c l => l = iu - c /\ forall k, l < k <= iu -> smallF norm Tf k = false)
    (fun l => 0 < l <= iu /\ smallF norm Tf l = true /\ forall k, l < k <= iu -> smallF norm Tf k = false)); [lia|split; [lia|intros; lia]| | |].
  - intros c l Hc [-> K]. repeat tget. fold (smallF norm Tf (iu - c)). destruct (smallF norm Tf (iu - c)) eqn:E; apply wp_ok; cbn [fst snd].
    + split; [lia|auto].
    + split; [lia|]. intros k Hk. destruct (Z.eq_dec k (iu - c)) as [->|]; auto. apply K. lia.
  - intros l [-> K]. apply wp_ok. split; [lia|]. split; [intros; lia|auto].
  - intros l (H1 & H2 & H3). apply wp_ok. split; [lia|auto].
Qed.
Lemma sc_shift_ok n T Tf l idx it ex : RTab T n n Tf -> 0 <= l < idx - 1 -> idx < n ->
  wp (sc_shift T l idx it ex) (fun r => let '(T', x, y, w, ex') := r in
    (exists s, ((it = 10 /\ s = Tf idx idx) \/ (it = 30 /\ exists sq, let x := Tf idx idx in let y := Tf (idx - 1)%Z (idx - 1)%Z in let w := (Tf idx (idx - 1)%Z * Tf (idx - 1)%Z idx)%f in
        flt fzero ((y - x) / flit 2 * ((y - x) / flit 2) + w)%f = true /\
        (sq = if flt y x then fneg (fsqrt ((y - x) / flit 2 * ((y - x) / flit 2) + w)%f) else fsqrt ((y - x) / flit 2 * ((y - x) / flit 2) + w)%f) /\
        s = (x - w / ((y - x) / flit 2 + sq))%f)) /\ ex' = (ex + s)%f /\ RTab T' n n (subD idx s Tf)) \/
    (ex' = ex /\ RTab T' n n Tf)).
Proof.
  intros H Hl Hi. unfold sc_shift. tget. replace (l <? idx) with true by (symmetry; apply Z.ltb_lt; lia). repeat tget.
  destruct (Z.eqb_spec it 10) as [E10|E10].
  - apply wp_bind. apply wp_bind. eapply wp_conseq; [apply (sc_subDiag_ok n idx _ T Tf H); lia|]. intros T1 H1. cbn beta in H1. repeat tget. apply wp_ok.
    destruct (Z.eqb_spec it 30); [lia|]. apply wp_ok. left. exists (Tf idx idx). auto.
  - cbn [bind]. destruct (Z.eqb_spec it 30) as [E30|E30]; [|apply wp_ok; right; auto].
    unfold fgt. destruct (flt fzero _) eqn:Eq; [|apply wp_ok; right; auto].
    apply wp_bind. eapply wp_conseq; [apply (sc_subDiag_ok n idx _ T Tf H); lia|]. intros T1 H1. apply wp_ok.
    left. eexists. split; [right; split; [auto|]; eexists; cbv zeta; split; [reflexivity|split; reflexivity]|]. split; [reflexivity|exact H1].
Qed.
Definition initH (T : Z -> Z -> F) (x y w : F) (im : Z) : F * F * F :=
  let z := T im im in (((x - z) * (y - z) - w) / T (im + 1)%Z im + T im (im + 1)%Z, T (im + 1)%Z (im + 1)%Z - z - (x - z) - (y - z), T (im + 2)%Z (im + 1)%Z)%f.
Definition twosmall (T : Z -> Z -> F) (h : F * F * F) (im : Z) : bool :=
  let '(h0, h1, h2) := h in
  flt (fabs (T im (im - 1)%Z) * (fabs h1 + fabs h2))%f (doubleeps * (fabs h0 * (fabs (T (im - 1)%Z (im - 1)%Z) + fabs (T im im) + fabs (T (im + 1)%Z (im + 1)%Z))))%f.
Lemma sc_init_ok n T Tf il iu x y w : RTab T n n Tf -> 0 <= il < iu - 1 -> iu < n ->
  wp (sc_init T il iu x y w) (fun r => let '(im, h) := r in il <= im <= iu - 2 /\ h = initH Tf x y w im /\ (il < im -> twosmall Tf h im = true)).
Proof.
  intros H Hl Hi. unfold sc_init. apply wp_bind.
  apply (wp_for_brk (fun c (r : Z * (F * F * F)) => fst r = iu - 2 - c /\ il <= fst r) (fun r : Z * (F * F * F) => il <= fst r <= iu - 2 /\ snd r = initH Tf x y w (fst r) /\ (il < fst r -> twosmall Tf (snd r) (fst r) = true))); [lia|cbn [fst]; lia| | |].
  - intros c [im h] Hc [E E']. cbn [fst] in E, E'. subst im. repeat tget. destruct (Z.eqb_spec (iu - 2 - c) il) as [E|E].
    + apply wp_ok. cbn [fst snd]. split; [lia|]. split; [reflexivity|]. intros; lia.
    + repeat tget. match goal with |- context [if flt ?a ?b then _ else _] => destruct (flt a b) eqn:E2 end; apply wp_ok; cbn [fst snd]; [|lia].
      split; [lia|]. split; [reflexivity|]. intros _. exact E2.
  - intros [im h] [E E']. cbn [fst] in E, E'. exfalso. lia.
  - intros [im h] K. cbn [fst snd] in K. apply wp_ok. exact K.
Qed.

(** ** One double step *)
Definition tabs2 : Type := (Z -> Z -> F) * (Z -> Z -> F).
Definition chaseV (im iu : Z) (h : F * F * F) (k : Z) (T : Z -> Z -> F) : bool * (F * F * F) * F :=
  if k =? im then (false, h, fzero) else
  let p := T k (k - 1)%Z in let q := T (k + 1)%Z (k - 1)%Z in let r := if negb (k =? iu - 1) then T (k + 2)%Z (k - 1)%Z else fzero in
  let x := (fabs p + fabs q + fabs r)%f in
  if equalsWithError x fzero doubleeps then (true, (p, q, r), x) else (false, ((p / x)%f, (q / x)%f, (r / x)%f), x).
Definition sgnroot (p q r : F) : F := let s := fsqrt (p * p + q * q + r * r)%f in if flt p fzero then fneg s else s.
Definition chaseT (il im k : Z) (s x : F) (T : Z -> Z -> F) : Z -> Z -> F :=
  if negb (k =? im) then tset T k (k - 1) (fneg s * x)%f else if negb (il =? im) then tset T k (k - 1) (fneg (T k (k - 1)%Z)) else T.
Definition chaseF (n il im iu : Z) (h : F * F * F) (k : Z) (S : tabs2) : tabs2 :=
  let '(T, P) := S in
  let nl := negb (k =? iu - 1) in
  let '(skip, (p, q, r), x) := chaseV im iu h k T in
  if (skip : bool) then (T, P) else
  let s := sgnroot p q r in
  if feq s fzero then (T, P) else
  let p1 := (p + s)%f in
  (colsF (Z.min iu (k + 3) + 1) k nl (q / p1)%f (r / p1)%f (p1 / s)%f (q / s)%f (r / s)%f (rowsF k nl (q / p1)%f (r / p1)%f (p1 / s)%f (q / s)%f (r / s)%f (chaseT il im k s x T)),
   colsF n k nl (q / p1)%f (r / p1)%f (p1 / s)%f (q / s)%f (r / s)%f P).
Definition RT2 (n : Z) (s : mat * mat) (S : tabs2) : Prop := RTab (fst s) n n (fst S) /\ RTab (snd s) n n (snd S).
Lemma sc_chase_ok n il im iu h k s S : RT2 n s S -> 0 <= il <= im -> im <= iu - 2 -> iu < n -> im <= k < iu ->
  wp (sc_chase n il im iu h k s) (fun s' => RT2 n s' (chaseF n il im iu h k S)).
Proof.
  destruct s as [T P], S as [Tf Pf]. intros [HT HP] Hil Him Hiu Hk. cbn [fst snd] in *. unfold sc_chase.
  match goal with |- wp (bind ?a _) _ => assert (E : a = Ok (chaseV im iu h k Tf)) end.
  { unfold chaseV. destruct (Z.eqb_spec k im); [auto|]. repeat tget. destruct (Z.eqb_spec k (iu - 1)); cbn [negb].
    - cbn [bind]. destruct (equalsWithError _ _ _); auto.
    - tget. destruct (equalsWithError _ _ _); auto. }
  rewrite E. clear E. cbn [bind]. unfold chaseF. destruct (chaseV im iu h k Tf) as [[skip [[p q] r]] x]. destruct skip; [apply wp_ok; split; auto|].
  fold (sgnroot p q r). destruct (feq (sgnroot p q r) fzero); [apply wp_ok; split; auto|]. set (s := sgnroot p q r).
  assert (W : wp (if negb (k =? im) then mset T k (k - 1) (fneg s * x)%f else if negb (il =? im) then let* a := mget T k (k - 1) in mset T k (k - 1) (fneg a) else Ok T)
    (fun T1 => RTab T1 n n (chaseT il im k s x Tf))).
  { unfold chaseT. destruct (Z.eqb_spec k im); cbn [negb].
    - destruct (Z.eqb_spec il im); cbn [negb]; [apply wp_ok; auto|]. tget. tput T1 H1. apply wp_ok. exact H1.
    - tput T1 H1. apply wp_ok. exact H1. }
  assert (Hn : k + (if negb (k =? iu - 1) then 2 else 1) < n) by (destruct (Z.eqb_spec k (iu - 1)); cbn [negb]; lia).
  apply wp_bind. eapply wp_conseq; [exact W|]. intros T1 H1. cbn beta in H1.
  apply wp_bind. eapply wp_conseq; [apply (sc_rows_ok n k _ _ _ _ _ _ T1 _ H1); auto; lia|]. intros T2 H2. cbn beta in H2.
  apply wp_bind. eapply wp_conseq; [apply (sc_cols_ok n _ k _ _ _ _ _ _ T2 _ H2); auto; lia|]. intros T3 H3. cbn beta in H3.
  apply wp_bind. eapply wp_conseq; [apply (sc_cols_ok n n k _ _ _ _ _ _ P _ HP); auto; lia|]. intros P3 H4. cbn beta in H4.
  apply wp_ok. split; cbn [fst snd]; auto.
Qed.
Definition cleanF (im iu : Z) (T : Z -> Z -> F) (i j : Z) : F :=
  if (im + 2 <=? i) && (i <=? iu) && ((j =? i - 2) || ((im + 2 <? i) && (j =? i - 3))) then fzero else T i j.
Definition chasesF (n il im iu : Z) (h : F * F * F) (k : Z) (S : tabs2) : tabs2 := accum (fun c S => chaseF n il im iu h (im + c) S) (Z.to_nat (k - im)) S.
Definition doubleF (n il im iu : Z) (h : F * F * F) (S : tabs2) : tabs2 :=
  let '(T, P) := chasesF n il im iu h iu S in (cleanF im iu T, P).
Lemma sc_double_ok n il im iu h s S : RT2 n s S -> 0 <= il <= im -> im <= iu - 2 -> iu < n ->
  wp (sc_double il im iu h s) (fun s' => RT2 n s' (doubleF n il im iu h S)).
Proof.
  intros H Hil Him Hiu. unfold sc_double. destruct s as [T P]. pose proof H as [HT HP]. cbn [fst snd] in *. rewrite (RTab_len _ _ _ _ HT).
  apply wp_bind. apply (wp_for (fun k s => RT2 n s (chasesF n il im iu h k S))); [lia| | |].
  - unfold chasesF. replace (im - im) with 0 by lia. exact H.
  - intros k s1 Hk H1. eapply wp_conseq; [apply (sc_chase_ok n il im iu h k s1 _ H1); lia|]. intros s2 H2. cbn beta in H2.
    unfold chasesF. replace (k + 1 - im) with (k - im + 1) by lia. rewrite accum_S by lia. replace (im + (k - im)) with k by lia. exact H2.
  - intros [T1 P1]. unfold doubleF. destruct (chasesF n il im iu h iu S) as [T1f P1f]. intros [H1 H2]. cbn [fst snd] in *. apply wp_bind.
    apply (wp_for (fun c T => RTab T n n (cleanF im (c - 1) T1f))); [lia| | |].
    + eapply RTab_ext; [exact H1|]. intros a b Ha Hb. unfold cleanF. cbn beta. zbq; auto.
    + intros i T2 Hi HT2. tput T3 H3. destruct (Z.ltb_spec (im + 2) i).
      * tput T4 H4. apply wp_ok. eapply RTab_ext; [exact H4|]. intros a b Ha Hb. unfold tset, cleanF. cbn beta. zbq; subst; auto.
      * apply wp_ok. eapply RTab_ext; [exact H3|]. intros a b Ha Hb. unfold tset, cleanF. cbn beta. zbq; subst; auto.
    + intros T2 HT2. apply wp_ok. split; cbn [fst snd]; auto. eapply RTab_ext; [exact HT2|]. intros a b Ha Hb. replace (iu + 1 - 1) with iu by lia. auto.
Qed.

(** ** Two roots *)
Definition twoD (iu : Z) (ex : F) (T : Z -> Z -> F) : Z -> Z -> F := tset (tset T iu iu (T iu iu + ex)%f) (iu - 1) (iu - 1) (T (iu - 1)%Z (iu - 1)%Z + ex)%f.
Definition twoR (iu : Z) (T : Z -> Z -> F) : bool * (F * F) :=
  let p := ((T (iu - 1)%Z (iu - 1)%Z - T iu iu) / flit 2)%f in
  let q := (p * p + T iu (iu - 1)%Z * T (iu - 1)%Z iu)%f in
  let z := fsqrt (fabs q) in let z := if fge p fzero then (p + z)%f else (p - z)%f in
  let x := T iu (iu - 1)%Z in let s := (fabs x + fabs z)%f in
  let p := (x / s)%f in let q' := (z / s)%f in let r := fsqrt (p * p + q' * q')%f in (fge q fzero, ((p / r)%f, (q' / r)%f)).
Definition twoF (n iu : Z) (ex : F) (S : tabs2) : tabs2 :=
  let '(T, P) := S in let '(b, (p, q)) := twoR iu T in
  if b then (rotCF (iu + 1) iu p q (rotRF iu p q (twoD iu ex T)), rotCF n iu p q P) else (twoD iu ex T, P).
Lemma sc_two_ok n iu ex s S : RT2 n s S -> 1 <= iu < n -> wp (sc_two n iu ex s) (fun s' => RT2 n s' (twoF n iu ex S)).
Proof.
  destruct s as [T P], S as [Tf Pf]. intros [HT HP] Hi. cbn [fst snd] in *. unfold sc_two. repeat tget. tput T1 H1. tget.
  replace (tset Tf iu iu (Tf iu iu + ex)%f (iu - 1) (iu - 1)) with (Tf (iu - 1) (iu - 1)) by (unfold tset; deq; auto).
  tput T2 H2. unfold twoF, twoR. fold (twoD iu ex Tf) in H2. destruct (fge _ fzero) eqn:Eq; [|apply wp_ok; split; auto].
  tget. replace (twoD iu ex Tf iu (iu - 1)) with (Tf iu (iu - 1)) by (unfold twoD, tset; deq; auto).
  apply wp_bind. eapply wp_conseq; [apply (sc_rotRows_ok n iu _ _ T2 _ H2 Hi)|]. intros T3 H3. cbn beta in H3.
  apply wp_bind. eapply wp_conseq; [apply (sc_rotCols_ok n (iu + 1) iu _ _ T3 _ H3); lia|]. intros T4 H4. cbn beta in H4.
  apply wp_bind. eapply wp_conseq; [apply (sc_rotCols_ok n n iu _ _ P _ HP); lia|]. intros P4 H5. cbn beta in H5.
  apply wp_ok. split; cbn [fst snd]; auto.
Qed.


(** ** One turn *)
Definition shiftR (T : Z -> Z -> F) (idx it : Z) (ex : F) (T1 : Z -> Z -> F) (ex' : F) : Prop :=
  (exists s, ((it = 10 /\ s = T idx idx) \/ (it = 30 /\ exists sq, let x := T idx idx in let y := T (idx - 1)%Z (idx - 1)%Z in let w := (T idx (idx - 1)%Z * T (idx - 1)%Z idx)%f in
        flt fzero ((y - x) / flit 2 * ((y - x) / flit 2) + w)%f = true /\
        (sq = if flt y x then fneg (fsqrt ((y - x) / flit 2 * ((y - x) / flit 2) + w)%f) else fsqrt ((y - x) / flit 2 * ((y - x) / flit 2) + w)%f) /\
        s = (x - w / ((y - x) / flit 2 + sq))%f)) /\ ex' = (ex + s)%f /\ T1 = subD idx s T) \/
  (ex' = ex /\ T1 = T).
Definition found (norm : F) (T : Z -> Z -> F) (iu l : Z) : Prop := 0 <= l <= iu /\ (0 < l -> smallF norm T l = true) /\ forall k, l < k <= iu -> smallF norm T k = false.
(** (tables, exShift, iteration, iu) *)
Definition sstate : Type := tabs2 * F * Z * Z.
Inductive turnR (n : Z) (norm : F) : sstate -> sstate -> Prop :=
| turn_one T P ex it iu : found norm T iu iu -> turnR n norm ((T, P), ex, it, iu) ((tset T iu iu (T iu iu + ex)%f, P), ex, 0, iu - 1)
| turn_two T P ex it iu : found norm T iu (iu - 1) -> turnR n norm ((T, P), ex, it, iu) (twoF n iu ex (T, P), ex, 0, iu - 2)
| turn_step T P ex it iu il im h x y w T1 ex' : found norm T iu il -> il < iu - 1 -> it < 100 -> shiftR T iu it ex T1 ex' ->
    il <= im <= iu - 2 -> h = initH T1 x y w im -> (il < im -> twosmall T1 h im = true) ->
    turnR n norm ((T, P), ex, it, iu) (doubleF n il im iu h (T1, P), ex', it + 1, iu).
Definition shape (n : Z) (st : mat * mat * F * Z * Z) (s : sstate) : Prop :=
  let '(T, P, ex, it, iu) := st in let '(TP, ex', it', iu') := s in RT2 n (T, P) TP /\ ex = ex' /\ it = it' /\ iu = iu'.
Definition outcome {A} (m : res A) (Q : A -> Prop) (X : Prop) : Prop := match m with Ok a => Q a | Panic e => e = EMaxIter /\ X | Err _ => False end.
Lemma outcome_bind {A B} (m : res A) (f : A -> res B) Q X : wp m (fun a => outcome (f a) Q X) -> outcome (bind m f) Q X.
Proof. intros (a & -> & H). exact H. Qed.
Lemma sc_turn_ok n norm st s : shape n st s -> 0 <= snd st < n ->
  outcome (sc_turn n norm st) (fun st' => exists s', shape n st' s' /\ turnR n norm s s') (100 <= snd (fst st)).
Proof.
  destruct st as [[[[T P] ex] it] iu], s as [[[[Tf Pf] ex'] it'] iu']. intros ([HT HP] & -> & -> & ->) Hi. cbn [fst snd] in *. unfold sc_turn. apply outcome_bind.
  eapply wp_conseq; [apply (sc_find_ok n T Tf iu' norm HT Hi)|]. intros il Hf. fold (found norm Tf iu' il) in Hf.
  destruct (Z.eqb_spec il iu') as [->|N1].
  - tget. tput T1 H1. cbn [outcome]. eexists. split; [|apply turn_one; exact Hf]. split; [split; auto|auto].
  - pose proof Hf as [Hr _]. destruct (Z.eqb_spec il (iu' - 1)) as [->|N2].
    + apply outcome_bind. eapply wp_conseq; [apply (sc_two_ok n iu' ex' (T, P) (Tf, Pf)); [split; auto|lia]|]. intros [T1 P1] H1. cbn beta in H1. cbn [outcome].
      eexists. split; [|apply turn_two; exact Hf]. split; auto.
    + apply outcome_bind. eapply wp_conseq; [apply (sc_shift_ok n T Tf il iu' it' ex' HT); lia|]. intros [[[[T1 x] y] w] ex1] Hs.
      assert (Hs' : exists T1f, RTab T1 n n T1f /\ shiftR Tf iu' it' ex' T1f ex1).
      { destruct Hs as [(s & K1 & K2 & K3)|[K1 K2]]; [exists (subD iu' s Tf); split; auto; left; exists s; auto|exists Tf; split; auto; right; auto]. }
      destruct Hs' as (T1f & H1 & Hsh). clear Hs. destruct (Z.ltb_spec 100 (it' + 1)); [cbn [outcome]; split; [auto|lia]|].
      apply outcome_bind. eapply wp_conseq; [apply (sc_init_ok n T1 T1f il iu' x y w H1); lia|]. intros [im h] (K1 & K2 & K3).
      apply outcome_bind. eapply wp_conseq; [apply (sc_double_ok n il im iu' h (T1, P) (T1f, Pf)); [split; auto|lia|lia|lia]|]. intros [T2 P2] H2. cbn beta in H2. cbn [outcome].
      eexists. split; [|eapply turn_step; [exact Hf|lia|lia|exact Hsh|exact K1|exact K2|exact K3]]. split; auto.
Qed.

(** ** The iteration stops *)
Lemma while_outcome {S} (I : S -> Prop) (X : Prop) (mu : S -> Z) cond body fuel : forall s, I s -> mu s < Z.of_nat fuel ->
  (forall s, I s -> 0 <= mu s) ->
  (forall s, I s -> cond s = true -> outcome (body s) (fun s' => I s' /\ mu s' < mu s) X) ->
  outcome (while_ fuel cond body s) (fun s' => I s' /\ cond s' = false) X.
Proof.
  induction fuel as [|f IH]; intros s Hs Hm H0 Hb; [specialize (H0 s Hs); lia|]. cbn [while_]. destruct (cond s) eqn:Ec; [|cbn [outcome]; auto].
  specialize (Hb s Hs Ec) as K. destruct (body s) as [s'|e|e]; cbn [outcome bind] in *; auto. destruct K as [K1 K2]. apply IH; auto. lia.
Qed.
Lemma while_more {S} cond (body : S -> res S) f f' : (f <= f')%nat -> forall s, while_ f cond body s <> Panic EFuel -> while_ f' cond body s = while_ f cond body s.
Proof.
  revert f'. induction f as [|f IH]; intros f' Hle s H; [cbn in H; congruence|]. destruct f' as [|f']; [lia|]. cbn [while_] in *. destruct (cond s); auto.
  destruct (body s) as [s'|e|e]; cbn [bind] in *; auto. apply IH; auto. lia.
Qed.
Inductive turnsR (n : Z) (norm : F) : sstate -> sstate -> Prop :=
| turns_refl s : turnsR n norm s s
| turns_more s1 s2 s3 : turnsR n norm s1 s2 -> turnR n norm s2 s3 -> turnsR n norm s1 s3.
Definition within (n : Z) (s : sstate) : Prop := let '(_, _, it, iu) := s in -1 <= iu < n /\ 0 <= it <= 100 /\ (iu = -1 -> it = 0).
Definition potential (s : sstate) : Z := let '(_, _, it, iu) := s in 101 * (iu + 1) - it.
Lemma turn_within n norm s s' : turnR n norm s s' -> within n s -> 0 <= snd s -> within n s' /\ potential s' < potential s.
Proof. intros K. destruct K; cbn [within potential snd]; intros (K1 & K2 & K4) K3; try (destruct H as [H _]); lia. Qed.
Lemma sc_loop_ok n norm T P Tf Pf fuel : RTab T n n Tf -> RTab P n n Pf -> 0 <= n -> 101 * n < Z.of_nat fuel ->
  outcome (while_ fuel (fun st => 0 <=? snd st) (sc_turn n norm) (T, P, fzero, 0, n - 1))
    (fun st => exists s, shape n st s /\ turnsR n norm ((Tf, Pf), fzero, 0, n - 1) s /\ snd s = -1) (3 <= n).
Proof.
  intros HT HP Hn Hf. set (I := fun st : mat * mat * F * Z * Z => exists s, shape n st s /\ turnsR n norm ((Tf, Pf), fzero, 0, n - 1) s /\ within n s /\ (n <= 2 -> snd (fst s) = 0)).
  set (mu := fun st : mat * mat * F * Z * Z => let '(_, _, _, it, iu) := st in 101 * (iu + 1) - it).
  pose proof (while_outcome I (3 <= n) mu (fun st => 0 <=? snd st) (sc_turn n norm) fuel (T, P, fzero, 0, n - 1)) as W.
  assert (HI : I (T, P, fzero, 0, n - 1)). { eexists. split; [|split; [apply turns_refl|]]; [split; [split; auto|auto]|]. unfold within. cbn [fst snd]. lia. }
  specialize (W HI ltac:(unfold mu; lia)).
  assert (W' : outcome (while_ fuel (fun st => 0 <=? snd st) (sc_turn n norm) (T, P, fzero, 0, n - 1)) (fun s' => I s' /\ (0 <=? snd s') = false) (3 <= n)).
  { apply W.
    - intros [[[[T1 P1] ex] it] iu] ([[[S1 e] it'] iu'] & (_ & _ & -> & ->) & _ & Hw & _). unfold mu, within in *. lia.
    - intros [[[[T1 P1] ex] it] iu] (s & Hs & Ht & Hw & Hw0) Hc. cbn [snd] in Hc. apply Z.leb_le in Hc.
      assert (Hiu : iu = snd s /\ it = snd (fst s)) by (destruct s as [[[S1 e] it'] iu']; destruct Hs as (_ & _ & -> & ->); auto).
      assert (Hr : 0 <= iu < n) by (destruct s as [[[S1 e] it'] iu']; cbn [within snd fst] in *; lia).
      pose proof (sc_turn_ok n norm _ s Hs Hr) as K. destruct (sc_turn n norm (T1, P1, ex, it, iu)) as [st'|e|e]; cbn [outcome] in *; [|auto|].
      2:{ destruct K as [K1 K2]. split; auto. cbn [fst snd] in K2. destruct (Z_le_gt_dec n 2) as [H2|]; [|lia]. specialize (Hw0 H2). lia. }
      destruct K as (s' & Hs' & Ht'). destruct (turn_within n norm s s' Ht' Hw ltac:(lia)) as [Hw' Hp].
      split.
      { exists s'. split; auto. split; [eapply turns_more; eauto|]. split; auto. intros H2. destruct Ht' as [| |T9 P9 ex9 it9 iu9 il9 im9 h9 x9 y9 w9 T8 ex8 [Hf9 _]]; cbn [fst snd] in *; lia. }
      destruct s as [[[S1 e] it'] iu'], s' as [[[S1' e'] it''] iu''], st' as [[[[T2 P2] ex2] it2] iu2]. destruct Hs' as (_ & _ & -> & ->). destruct Hiu as [-> ->]. unfold mu, potential in *. cbn [fst snd] in *. lia. }
  destruct (while_ fuel _ _ _) as [st|e|e]; cbn [outcome] in *; auto. destruct W' as [(s & Hs & Ht & Hw & _) Hc]. exists s. split; auto. split; auto.
  destruct st as [[[[T2 P2] ex2] it2] iu2], s as [[[S1 e] it'] iu']. destruct Hs as (_ & _ & -> & ->). cbn [fst snd within] in *. apply Z.leb_gt in Hc. lia.
Qed.
End SchurFacts.

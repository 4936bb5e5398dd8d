(** The iteration of the singular value decomposition, for arbitrary scalar
    operations: closed forms of one turn. *)
From Coq Require Import ZArith QArith List Lia Bool.
From Verif Require Import Base BaseLemmas Wpe Scalar Vector VecSpec VectorFacts Matrix MatSpec MatFacts Array2D BlockM Diagonal RealMatrixM Array2DFacts MatrixOps MatHist MatProps BlockFacts RealMat2 RealMat3 TabTac FSum CholFacts LUFacts2 QRFacts Hess Tridiag Schur Eigen HessSpec TridiagFacts EigenFacts SVD SVDFacts.
Import ListNotations.
Open Scope Z_scope.

Section SVDFacts2.
Context {O : Ops}.

(** Columns a and b rotated. *)
Definition rotp (a b : Z) (cs sn : F) (M : Z -> Z -> F) (i j : Z) : F :=
  if j =? a then (cs * M i a + sn * M i b)%f else if j =? b then (fneg sn * M i a + cs * M i b)%f else M i j.
Lemma sv_rot_ok r c a b cs sn X M : RTab X r c M -> 0 <= r -> 0 <= a < c -> 0 <= b < c -> a <> b -> wp (sv_rot r a b cs sn X) (fun X' => RTab X' r c (rotp a b cs sn M)).
Proof.
  intros H Hr Ha Hb Hab. unfold sv_rot. apply (wp_for (fun k X => RTab X r c (fun i j => if i <? k then rotp a b cs sn M i j else M i j))); [lia| | |].
  - eapply RTab_ext; [exact H|]. intros. cbn beta. zbq; auto.
  - intros i X1 Hi H1. repeat tget. tput X2 H2. tput X3 H3. apply wp_ok. eapply RTab_ext; [exact H3|]. intros x y Hx Hy. cbn beta. unfold tset, rotp. rewrite Z.ltb_irrefl. zbq; subst; auto.
  - intros X1 H1. eapply RTab_ext; [exact H1|]. intros. cbn beta. zbq; auto.
Qed.
Definition swpc (k : Z) (M : Z -> Z -> F) (i j : Z) : F := if j =? k then M i (k + 1) else if j =? k + 1 then M i k else M i j.
Lemma sv_swap_ok r c k X M : RTab X r c M -> 0 <= r -> 0 <= k -> k + 1 < c -> wp (sv_swap r k X) (fun X' => RTab X' r c (swpc k M)).
Proof.
  intros H Hr Ha Hb. unfold sv_swap. apply (wp_for (fun l X => RTab X r c (fun i j => if i <? l then swpc k M i j else M i j))); [lia| | |].
  - eapply RTab_ext; [exact H|]. intros. cbn beta. zbq; auto.
  - intros i X1 Hi H1. repeat tget. tput X2 H2. tput X3 H3. apply wp_ok. eapply RTab_ext; [exact H3|]. intros x y Hx Hy. cbn beta. unfold tset, swpc. rewrite Z.ltb_irrefl. zbq; subst; auto.
  - intros X1 H1. eapply RTab_ext; [exact H1|]. intros. cbn beta. zbq; auto.
Qed.

(** ** The scans *)
Definition thrE (S : Z -> F) (k : Z) : F := (tiny_svd + eps_svd * (fabs (S k) + fabs (S (k + 1)%Z)))%f.
Lemma sv_scanE_ok n p s e S E : VTab s n S -> VTab e n E -> 1 <= p <= n ->
  wp (sv_scanE p s e) (fun r => let '(e', k) := r in -1 <= k <= p - 2 /\ (forall j, k < j <= p - 2 -> fgt (fabs (E j)) (thrE S j) = true) /\
    (0 <= k -> fgt (fabs (E k)) (thrE S k) = false /\ VTab e' n (vset E k fzero)) /\ (k = -1 -> VTab e' n E)).
Proof.
  intros Hs He Hp. unfold sv_scanE. apply wp_bind.
  apply (wp_for_brk (fun c r => VTab (fst r) n E /\ snd r = p - 2 - c /\ forall j, p - 2 - c < j <= p - 2 -> fgt (fabs (E j)) (thrE S j) = true)
    (fun r => let '(e', k) := r in 0 <= k <= p - 2 /\ (forall j, k < j <= p - 2 -> fgt (fabs (E j)) (thrE S j) = true) /\ fgt (fabs (E k)) (thrE S k) = false /\ VTab e' n (vset E k fzero))); [lia| | | |].
  - cbn [fst snd]. split; [auto|]. split; [lia|]. intros; lia.
  - intros c [e1 k] Hc (He1 & Ek & Hj). cbn [fst snd] in *. subst k. repeat vget. fold (thrE S (p - 2 - c)). destruct (fgt (fabs (E (p - 2 - c))) (thrE S (p - 2 - c))) eqn:Eg; cbn [negb].
    + apply wp_ok. cbn [fst snd]. split; [auto|]. split; [lia|]. intros j Hj'. destruct (Z.eq_dec j (p - 2 - c)) as [->|]; auto. apply Hj. lia.
    + vput e2 He2. apply wp_ok. cbn [fst snd]. split; [lia|]. split; [exact Hj|]. split; [auto|]. eapply VTab_ext; [exact He2|]. intros. unfold vset. auto.
  - intros [e1 k] (He1 & Ek & Hj). cbn [fst snd] in *. subst k. apply wp_ok. split; [lia|]. split; [intros; apply Hj; lia|]. split; [intros; lia|auto].
  - intros [e1 k] (Hk & Hj & Hf & He1). apply wp_ok. split; [lia|]. split; [auto|]. split; [auto|intros; lia].
Qed.
Definition tolS (p k : Z) (E : Z -> F) (ks : Z) : F :=
  let t := if negb (ks =? p) then fabs (E ks) else fzero in
  let t := if negb (ks =? k + 1) then (t + fabs (E (ks - 1)%Z))%f else t in (tiny_svd + eps_svd * t)%f.
Lemma sv_scanS_ok n p k s e S E : VTab s n S -> VTab e n E -> 1 <= p <= n -> -1 <= k < p - 1 ->
  wp (sv_scanS p k s e) (fun r => let '(s', ks) := r in k <= ks <= p - 1 /\ (forall j, ks < j <= p - 1 -> fle (fabs (S j)) (tolS p k E j) = false) /\
    (k < ks -> fle (fabs (S ks)) (tolS p k E ks) = true /\ VTab s' n (vset S ks fzero)) /\ (ks = k -> VTab s' n S)).
Proof.
  intros Hs He Hp Hk. unfold sv_scanS. apply wp_bind.
  apply (wp_for_brk (fun c r => VTab (fst r) n S /\ (snd r = p - 1 - c /\ k <= p - 1 - c) /\ forall j, p - 1 - c < j <= p - 1 -> fle (fabs (S j)) (tolS p k E j) = false)
    (fun r => let '(s', ks) := r in k <= ks <= p - 1 /\ (forall j, ks < j <= p - 1 -> fle (fabs (S j)) (tolS p k E j) = false) /\
      (k < ks -> fle (fabs (S ks)) (tolS p k E ks) = true /\ VTab s' n (vset S ks fzero)) /\ (ks = k -> VTab s' n S))); [lia| | | |].
  - cbn [fst snd]. split; [auto|]. split; [lia|]. intros; lia.
  - intros c [s1 ks] Hc (Hs1 & (Ek & Hkc) & Hj). cbn [fst snd] in *. subst ks. destruct (Z.eqb_spec (p - 1 - c) k).
    { apply wp_ok. cbn [fst snd]. split; [lia|]. split; [auto|]. split; [intros; lia|auto]. }
    set (q := p - 1 - c) in *. assert (Hq : k < q <= p - 1) by lia.
    assert (E1 : (if negb (q =? p) then let* x := zget e q in Ok (fabs x) else Ok fzero) = Ok (if negb (q =? p) then fabs (E q) else fzero)) by (destruct (negb (q =? p)); [vget; auto|auto]).
    rewrite E1. cbn [bind].
    assert (E2 : forall t, (if negb (q =? k + 1) then let* x := zget e (q - 1) in Ok (t + fabs x)%f else Ok t) = Ok (if negb (q =? k + 1) then (t + fabs (E (q - 1)%Z))%f else t)).
    { intros t. destruct (Z.eqb_spec q (k + 1)); cbn [negb]; [auto|vget; auto]. }
    rewrite E2. cbn [bind]. vget. fold (tolS p k E q). destruct (fle (fabs (S q)) (tolS p k E q)) eqn:El.
    + vput s2 Hs2. apply wp_ok. cbn [fst snd]. split; [lia|]. split; [auto|]. split; [|intros; lia]. intros _. split; [auto|]. eapply VTab_ext; [exact Hs2|]. intros. unfold vset. auto.
    + apply wp_ok. cbn [fst snd]. split; [auto|]. split; [lia|]. intros j Hj'. destruct (Z.eq_dec j q) as [->|]; auto. apply Hj. lia.
  - intros [s1 ks] (Hs1 & (Ek & Hkc) & Hj). lia.
  - intros [s1 ks] K. apply wp_ok. exact K.
Qed.

(** ** The cases *)
Record it_st := mkIT { it_S : Z -> F; it_E : Z -> F; it_U : Z -> Z -> F; it_V : Z -> Z -> F; it_f : F; it_g : F }.
Definition c1_step (p k j : Z) (x : it_st) : it_st :=
  let t := fhypot (it_S x j) (it_f x) in
  let cs := (it_S x j / t)%f in
  let sn := (it_f x / t)%f in
  let S' := vset (it_S x) j t in
  let V' := rotp j (p - 1) cs sn (it_V x) in
  if negb (j =? k) then mkIT S' (vset (it_E x) (j - 1) (cs * it_E x (j - 1)%Z)%f) (it_U x) V' (fneg sn * it_E x (j - 1)%Z)%f (it_g x)
  else mkIT S' (it_E x) (it_U x) V' (it_f x) (it_g x).
Definition c1_iter (p k c : Z) (x : it_st) : it_st := accum (fun t => c1_step p k (p - 2 - t)) (Z.to_nat c) x.
Definition c1_fin (p k : Z) (S E : Z -> F) (U V : Z -> Z -> F) : it_st := c1_iter p k (p - 1 - k) (mkIT S (vset E (p - 2) fzero) U V (E (p - 2)) fzero).
Lemma sv_case1_ok n p k s e V S E G U : VTab s n S -> VTab e n E -> RTab V n n G -> 0 <= k -> k <= p - 2 -> p <= n ->
  wp (sv_case1 n p k s e V) (fun r => let '(s', e', V') := r in let x := c1_fin p k S E U G in VTab s' n (it_S x) /\ VTab e' n (it_E x) /\ RTab V' n n (it_V x)).
Proof.
  intros Hs He HV Hk Hkp Hp. unfold sv_case1. vget. vput e1 He1. apply wp_bind. unfold c1_fin.
  set (x0 := mkIT S (vset E (p - 2) fzero) U G (E (p - 2)) fzero).
  apply (wp_for_down (fun j r => let '(s', e', V', f') := r in let x := c1_iter p k (p - 1 - j) x0 in VTab s' n (it_S x) /\ VTab e' n (it_E x) /\ RTab V' n n (it_V x) /\ f' = it_f x)).
  - lia.
  - replace (p - 1 - (p - 2 + 1)) with 0 by lia. cbn. split; [auto|]. split; [|auto]. eapply VTab_ext; [exact He1|]. intros. unfold vset. auto.
  - intros j [[[s1 e2] V1] f1] Hj (Hs1 & He2 & HV1 & ->). replace (p - 1 - j) with (p - 1 - (j + 1) + 1) by lia. unfold c1_iter. rewrite accum_S by lia. fold (c1_iter p k (p - 1 - (j + 1)) x0).
    replace (p - 2 - (p - 1 - (j + 1))) with j by lia. set (x := c1_iter p k (p - 1 - (j + 1)) x0) in *. repeat vget. vput s2 Hs2.
    unfold c1_step. destruct (Z.eqb_spec j k); cbn [negb].
    + cbn [bind]. apply wp_bind. eapply wp_conseq; [apply (sv_rot_ok n n j (p - 1) _ _ V1 _ HV1); lia|]. cbn beta. intros V2 HV2. apply wp_ok. cbn. auto.
    + repeat vget. vput e3 He3. apply wp_bind. eapply wp_conseq; [apply (sv_rot_ok n n j (p - 1) _ _ V1 _ HV1); lia|]. cbn beta. intros V2 HV2. apply wp_ok. cbn. auto.
  - intros [[[s1 e2] V1] f1] (Hs1 & He2 & HV1 & _). apply wp_ok. auto.
Qed.

Definition c2_step (k j : Z) (x : it_st) : it_st :=
  let t := fhypot (it_S x j) (it_f x) in
  let cs := (it_S x j / t)%f in
  let sn := (it_f x / t)%f in
  mkIT (vset (it_S x) j t) (vset (it_E x) j (cs * it_E x j)%f) (rotp j (k - 1) cs sn (it_U x)) (it_V x) (fneg sn * it_E x j)%f (it_g x).
Definition c2_iter (k c : Z) (x : it_st) : it_st := accum (fun t => c2_step k (k + t)) (Z.to_nat c) x.
Definition c2_fin (p k : Z) (S E : Z -> F) (U V : Z -> Z -> F) : it_st := c2_iter k (p - k) (mkIT S (vset E (k - 1) fzero) U V (E (k - 1)) fzero).
Lemma sv_case2_ok m n p k s e U S E G V : VTab s n S -> VTab e n E -> RTab U m n G -> 0 <= m -> 1 <= k -> k <= p -> p <= n ->
  wp (sv_case2 m p k s e U) (fun r => let '(s', e', U') := r in let x := c2_fin p k S E G V in VTab s' n (it_S x) /\ VTab e' n (it_E x) /\ RTab U' m n (it_U x)).
Proof.
  intros Hs He HU Hm Hk Hkp Hp. unfold sv_case2. vget. vput e1 He1. apply wp_bind. unfold c2_fin.
  set (x0 := mkIT S (vset E (k - 1) fzero) G V (E (k - 1)) fzero).
  apply (wp_for (fun j r => let '(s', e', U', f') := r in let x := c2_iter k (j - k) x0 in VTab s' n (it_S x) /\ VTab e' n (it_E x) /\ RTab U' m n (it_U x) /\ f' = it_f x)).
  - lia.
  - rewrite Z.sub_diag. cbn. split; [auto|]. split; [|auto]. eapply VTab_ext; [exact He1|]. intros. unfold vset. auto.
  - intros j [[[s1 e2] U1] f1] Hj (Hs1 & He2 & HU1 & ->). replace (j + 1 - k) with (j - k + 1) by lia. unfold c2_iter. rewrite accum_S by lia. fold (c2_iter k (j - k) x0).
    replace (k + (j - k)) with j by lia. set (x := c2_iter k (j - k) x0) in *. repeat vget. vput s2 Hs2. vput e3 He3.
    apply wp_bind. eapply wp_conseq; [apply (sv_rot_ok m n j (k - 1) _ _ U1 _ HU1); lia|]. cbn beta. intros U2 HU2. apply wp_ok. unfold c2_step. cbn. auto.
  - intros [[[s1 e2] U1] f1] (Hs1 & He2 & HU1 & _). apply wp_ok. auto.
Qed.

Definition shiftF (p k : Z) (S E : Z -> F) : F * F :=
  let a := S (p - 1) in let b := S (p - 2) in let c := E (p - 2) in let d := S k in let h := E k in
  let scale := fmax (fmax (fmax (fmax (fabs a) (fabs b)) (fabs c)) (fabs d)) (fabs h) in
  let sp := (a / scale)%f in
  let spm1 := (b / scale)%f in
  let epm1 := (c / scale)%f in
  let sk := (d / scale)%f in
  let ek := (h / scale)%f in
  let b := (((spm1 + sp) * (spm1 - sp) + epm1 * epm1) / flit 2)%f in
  let c := ((sp * epm1) * (sp * epm1))%f in
  let shift := (if fne b fzero || fne c fzero then
      let shift := fsqrt (b * b + c)%f in
      let shift := if flt b fzero then fneg shift else shift in
      (c / (b + shift))%f
    else fzero) in
  (((sk + sp) * (sk - sp) + shift)%f, (sk * ek)%f).
Lemma sv_shift_ok n p k s e S E : VTab s n S -> VTab e n E -> 0 <= k -> k <= p - 2 -> p <= n -> sv_shift p k s e = Ok (shiftF p k S E).
Proof. intros Hs He Hk Hkp Hp. unfold sv_shift. repeat vget. auto. Qed.

(** The right and the left half of one turn of the chase. *)
Definition c3_right (k j : Z) (x : it_st) : it_st :=
  let t := fhypot (it_f x) (it_g x) in
  let cs := (it_f x / t)%f in
  let sn := (it_g x / t)%f in
  let E := if negb (j =? k) then vset (it_E x) (j - 1) t else it_E x in
  let S := it_S x in
  mkIT (vset S (j + 1) (cs * S (j + 1)%Z)%f) (vset E j (cs * E j - sn * S j)%f) (it_U x) (rotp j (j + 1) cs sn (it_V x)) (cs * S j + sn * E j)%f (sn * S (j + 1)%Z)%f.
Definition c3_left (m j : Z) (x : it_st) : it_st :=
  let t := fhypot (it_f x) (it_g x) in
  let cs := (it_f x / t)%f in
  let sn := (it_g x / t)%f in
  let S := vset (it_S x) j t in
  let E := it_E x in
  mkIT (vset S (j + 1) (fneg sn * E j + cs * S (j + 1)%Z)%f) (vset E (j + 1) (cs * E (j + 1)%Z)%f)
    (if j <? m - 1 then rotp j (j + 1) cs sn (it_U x) else it_U x) (it_V x) (cs * E j + sn * S (j + 1)%Z)%f (sn * E (j + 1)%Z)%f.
Definition c3_iter (m k c : Z) (x : it_st) : it_st := accum (fun t x => c3_left m (k + t) (c3_right k (k + t) x)) (Z.to_nat c) x.
Definition ITT (m n : Z) (x : it_st) (st : vec * vec * mat * mat * F * F) : Prop :=
  let '(s, e, U, V, f, g) := st in VTab s n (it_S x) /\ VTab e n (it_E x) /\ RTab U m n (it_U x) /\ RTab V n n (it_V x) /\ f = it_f x /\ g = it_g x.
Lemma sv_chase_ok m n k j x st : ITT m n x st -> 0 <= m -> 0 <= k <= j -> j + 1 < n -> wp (sv_chase m n k j st) (ITT m n (c3_left m j (c3_right k j x))).
Proof.
  destruct st as [[[[[s e] U] V] f] g]. intros (Hs & He & HU & HV & -> & ->) Hm Hj Hn. unfold sv_chase.
  set (t := fhypot (it_f x) (it_g x)). set (cs := (it_f x / t)%f). set (sn := (it_g x / t)%f).
  assert (W : wp (if negb (j =? k) then zset e (j - 1) t else Ok e) (fun e => VTab e n (if negb (j =? k) then vset (it_E x) (j - 1) t else it_E x))).
  { destruct (Z.eqb_spec j k); cbn [negb]; [apply wp_ok; auto|]. destruct (VTab_set e n _ (j - 1) t He) as (e' & -> & He'); [lia|]. apply wp_ok. auto. }
  apply wp_bind. eapply wp_conseq; [exact W|]. clear W. intros e1 He1. cbn beta in He1. set (E := if negb (j =? k) then vset (it_E x) (j - 1) t else it_E x) in *.
  repeat vget. vput e2 He2. repeat vget. vput s1 Hs1. apply wp_bind. eapply wp_conseq; [apply (sv_rot_ok n n j (j + 1) cs sn V _ HV); lia|]. cbn beta. intros V1 HV1.
  vput s2 Hs2. repeat vget. vput s3 Hs3. repeat vget. vput e3 He3.
  set (y := c3_right k j x). set (z := c3_left m j y).
  match goal with |- context [sv_rot m j (j + 1) ?c ?s U] => set (cs' := c); set (sn' := s) end.
  assert (Ey : cs' = (it_f y / fhypot (it_f y) (it_g y))%f) by reflexivity. assert (Ez : sn' = (it_g y / fhypot (it_f y) (it_g y))%f) by reflexivity.
  assert (W : wp (if j <? m - 1 then sv_rot m j (j + 1) cs' sn' U else Ok U) (fun U' => RTab U' m n (it_U z))).
  { unfold z, c3_left. cbn [it_U]. destruct (j <? m - 1); [|apply wp_ok; exact HU]. rewrite <- Ey, <- Ez. apply (sv_rot_ok m n j (j + 1) cs' sn' U _ HU); lia. }
  apply wp_bind. eapply wp_conseq; [exact W|]. clear W. intros U1 HU1. cbn beta in HU1. apply wp_ok.
  split; [exact Hs3|]. split; [exact He3|]. split; [exact HU1|]. split; [exact HV1|]. split; reflexivity.
Qed.
Definition c3_fin (m p k : Z) (S E : Z -> F) (U V : Z -> Z -> F) : it_st :=
  let x := c3_iter m k (p - 1 - k) (mkIT S E U V (fst (shiftF p k S E)) (snd (shiftF p k S E))) in
  mkIT (it_S x) (vset (it_E x) (p - 2) (it_f x)) (it_U x) (it_V x) (it_f x) (it_g x).
Lemma sv_case3_ok m n p k s e U V S E G H : VTab s n S -> VTab e n E -> RTab U m n G -> RTab V n n H -> 0 <= m -> 0 <= k -> k <= p - 2 -> p <= n ->
  wp (sv_case3 m n p k s e U V) (fun r => let '(s', e', U', V') := r in let x := c3_fin m p k S E G H in
    VTab s' n (it_S x) /\ VTab e' n (it_E x) /\ RTab U' m n (it_U x) /\ RTab V' n n (it_V x)).
Proof.
  intros Hs He HU HV Hm Hk Hkp Hp. unfold sv_case3. rewrite (sv_shift_ok n p k s e S E Hs He) by lia. cbn [bind].
  destruct (shiftF p k S E) as [f g] eqn:Ef. apply wp_bind. set (x0 := mkIT S E G H f g).
  apply (wp_for (fun j st => ITT m n (c3_iter m k (j - k) x0) st)).
  - lia.
  - rewrite Z.sub_diag. cbn. auto 8.
  - intros j st Hj K. replace (j + 1 - k) with (j - k + 1) by lia. unfold c3_iter. rewrite accum_S by lia. fold (c3_iter m k (j - k) x0). replace (k + (j - k)) with j by lia.
    apply sv_chase_ok; auto; lia.
  - intros [[[[[s1 e1] U1] V1] f1] g1] (Hs1 & He1 & HU1 & HV1 & -> & ->). vput e2 He2. apply wp_ok. unfold c3_fin. rewrite Ef. cbn [fst snd]. fold x0. auto.
Qed.

(** The value moved from place k to place q, those between moved down. *)
Definition cyc (k q i : Z) : Z := if (k <=? i) && (i <? q) then i + 1 else if i =? q then k else i.
Definition posS (S : Z -> F) (k : Z) : F := if fle (S k) fzero then (if flt (S k) fzero then fneg (S k) else fzero) else S k.
Definition posV (S : Z -> F) (k : Z) (V : Z -> Z -> F) (i j : Z) : F := if fle (S k) fzero then (if j =? k then fneg (V i k) else V i j) else V i j.
Lemma sv_case4_ok m n k s U V S G H : VTab s n S -> RTab U m n G -> RTab V n n H -> 0 <= k < n -> n <= m ->
  wp (sv_case4 m n k s U V) (fun r => let '(s', U', V') := r in let S1 := vset S k (posS S k) in
    exists q, k <= q <= n - 1 /\ (forall i, k < i <= q -> fge (S1 k) (S1 i) = false) /\ (q < n - 1 -> fge (S1 k) (S1 (q + 1)) = true) /\
    VTab s' n (fun i => S1 (cyc k q i)) /\ RTab U' m n (fun i j => G i (cyc k q j)) /\ RTab V' n n (fun i j => posV S k H i (cyc k q j))).
Proof.
  intros Hs HU HV Hk Hn. unfold sv_case4. set (S1 := vset S k (posS S k)). set (H1 := posV S k H).
  assert (W : wp (let* x := zget s k in
    if fle x fzero then
      let* x := zget s k in
      let* s := (if flt x fzero then let* x := zget s k in zset s k (fneg x) else zset s k fzero) in
      let* V := for_ 0 (n - 1 + 1) (fun i V => let* x := mget V i k in mset V i k (fneg x)) V in
      Ok (s, V)
    else Ok (s, V)) (fun r => VTab (fst r) n S1 /\ RTab (snd r) n n H1)).
  { unfold S1, H1, posS, posV. repeat vget. destruct (fle (S k) fzero) eqn:El.
    - assert (W : wp (if flt (S k) fzero then zset s k (fneg (S k)) else zset s k fzero) (fun s => VTab s n (vset S k (if flt (S k) fzero then fneg (S k) else fzero)))).
      { destruct (flt (S k) fzero); vput s1 Hs1; apply wp_ok; auto. }
      apply wp_bind. eapply wp_conseq; [exact W|]. clear W. intros s1 Hs1. cbn beta in Hs1. apply wp_bind. replace (n - 1 + 1) with n by lia.
      apply (wp_colloop (fun i => fneg (H i k)) V n n H k 0 n _ _ HV); try lia.
      + intros i V1 Hi HV1. tget. unfold colpart. zbq. auto.
      + intros V1 HV1. apply wp_ok. cbn [fst snd]. split; auto. eapply RTab_ext; [exact HV1|]. intros. unfold colpart. cbn beta. zbq; subst; auto.
    - apply wp_ok. cbn [fst snd]. split; auto. eapply VTab_ext; [exact Hs|]. intros. unfold vset. zbq; subst; auto. }
  destruct W as ([s1 V1] & E & Hs1 & HV1). cbn [fst snd] in *.
  destruct (zget s k) as [x|?|?]; [|discriminate|discriminate]. cbn [bind] in E |- *. rewrite E. cbn [bind]. clear E.
  apply wp_bind. 
  apply (wp_for_brk (fun q r => let '(s', U', V') := r in k <= q <= n - 1 /\ (forall i, k < i <= q -> fge (S1 k) (S1 i) = false) /\
      VTab s' n (fun i => S1 (cyc k q i)) /\ RTab U' m n (fun i j => G i (cyc k q j)) /\ RTab V' n n (fun i j => H1 i (cyc k q j)))
    (fun r => let '(s', U', V') := r in exists q, k <= q <= n - 1 /\ (forall i, k < i <= q -> fge (S1 k) (S1 i) = false) /\ (q < n - 1 -> fge (S1 k) (S1 (q + 1)) = true) /\
      VTab s' n (fun i => S1 (cyc k q i)) /\ RTab U' m n (fun i j => G i (cyc k q j)) /\ RTab V' n n (fun i j => H1 i (cyc k q j)))).
  - lia.
  - assert (C : forall i, cyc k k i = i) by (intros; unfold cyc; zbq; auto). split; [lia|]. split; [intros; lia|].
    split; [eapply VTab_ext; [exact Hs1|]|split; [eapply RTab_ext; [exact HU|]|eapply RTab_ext; [exact HV1|]]]; intros; cbn beta; rewrite C; auto.
  - intros q [[s2 U2] V2] Hq (Hq' & Hlt & Hs2 & HU2 & HV2). repeat vget.
    assert (Cq : cyc k q q = k) by (unfold cyc; zbq; auto). assert (Cq1 : cyc k q (q + 1) = q + 1) by (unfold cyc; zbq; auto).
    assert (CS : forall j, cyc k (q + 1) j = if j =? q then cyc k q (q + 1) else if j =? q + 1 then cyc k q q else cyc k q j) by (intros; unfold cyc; zbq; subst; auto; lia).
    rewrite Cq, Cq1. destruct (fge (S1 k) (S1 (q + 1))) eqn:Eg.
    + apply wp_ok. cbn [fst snd]. exists q. split; [lia|]. split; [auto|]. split; [auto|]. auto.
    + vput s3 Hs3. vput s4 Hs4. replace (q <? n - 1) with true by (symmetry; apply Z.ltb_lt; lia). replace (q <? m - 1) with true by (symmetry; apply Z.ltb_lt; lia).
      apply wp_bind. eapply wp_conseq; [apply (sv_swap_ok n n q V2 _ HV2); lia|]. cbn beta. intros V3 HV3.
      apply wp_bind. eapply wp_conseq; [apply (sv_swap_ok m n q U2 _ HU2); lia|]. cbn beta. intros U3 HU3. apply wp_ok. cbn [fst snd].
      split; [lia|]. split. { intros i Hi. destruct (Z.eq_dec i (q + 1)) as [->|]; auto. apply Hlt. lia. }
      split; [eapply VTab_ext; [exact Hs4|]|split; [eapply RTab_ext; [exact HU3|]|eapply RTab_ext; [exact HV3|]]]; intros; cbn beta; unfold swpc; rewrite CS, ?Cq, ?Cq1; zbq; subst; auto.
  - intros [[s2 U2] V2] (Hq' & Hlt & K). apply wp_ok. exists (n - 1). split; [lia|]. split; [auto|]. split; [intros; lia|]. exact K.
  - intros [[s2 U2] V2] K. apply wp_ok. exact K.
Qed.
End SVDFacts2.

(** The symmetric eigen decomposition, for arbitrary scalar operations. *)
From Coq Require Import ZArith QArith List Lia Bool.
From Verif Require Import Base BaseLemmas Wpe Scalar Vector VecSpec VectorFacts Matrix MatSpec MatFacts Array2D BlockM Diagonal RealMatrixM Array2DFacts MatrixOps MatHist MatProps BlockFacts RealMat2 RealMat3 TabTac FSum CholFacts LUFacts2 QRFacts Hess Tridiag Schur Eigen HessSpec TridiagFacts.
Import ListNotations.
Open Scope Z_scope.

Lemma wpe_for_brk {S} (P : Z -> S -> Prop) (B : S -> Prop) lo hi body (s : S) (Q : bool * S -> Prop) E :
  lo <= hi -> P lo s ->
  (forall i s, lo <= i < hi -> P i s -> wpe (body i s) (fun bs : bool * S => if fst bs then B (snd bs) else P (i + 1) (snd bs)) E) ->
  (forall s, P hi s -> Q (false, s)) -> (forall s, B s -> Q (true, s)) -> wpe (for_brk lo hi body s) Q E.
Proof.
  intros Hle HP Hb HQ HB. remember (Z.to_nat (hi - lo)) as n eqn:En. revert lo s Hle HP Hb En. induction n; intros.
  - rewrite for_brk_nil by lia. apply HQ. replace hi with lo by lia. auto.
  - rewrite for_brk_step by lia. apply wpe_bind. eapply wpe_conseq; [apply Hb; [lia|auto]| |auto].
    intros [b s'] HP'. cbn [fst snd] in *. destruct b; [apply wpe_ok; auto|]. apply IHn; auto; try lia. intros; apply Hb; auto; lia.
Qed.

Section EigenFacts.
Context {O : Ops}.

Definition vset (D : Z -> F) (k : Z) (x : F) (i : Z) : F := if i =? k then x else D i.

(** Columns i and i+1 rotated. *)
Definition rotz (s c : F) (i : Z) (Zf : Z -> Z -> F) (a b : Z) : F :=
  if b =? i + 1 then (s * Zf a i + c * Zf a (i + 1)%Z)%f else if b =? i then (c * Zf a i - s * Zf a (i + 1)%Z)%f else Zf a b.
Lemma ed_rotz_ok n i s c z Zf : RTab z n n Zf -> 0 <= i -> i + 1 < n -> wp (ed_rotz n i s c z) (fun z' => RTab z' n n (rotz s c i Zf)).
Proof.
  intros H Hi Hn. unfold ed_rotz.
  apply (wp_for (fun k z => RTab z n n (fun a b => if a <? k then rotz s c i Zf a b else Zf a b))); [lia| | |].
  - eapply RTab_ext; [exact H|]. intros. cbn beta. zbq; auto.
  - intros k z1 Hk H1. repeat tget. tput z2 H2. tget. tput z3 H3. apply wp_ok. eapply RTab_ext; [exact H3|].
    intros a b Ha Hb. cbn beta. unfold tset, rotz. rewrite Z.ltb_irrefl, Z.eqb_refl. cbn [andb].
    replace (i =? i + 1) with false by (symmetry; apply Z.eqb_neq; lia). zbq; subst; auto.
  - intros z1 H1. eapply RTab_ext; [exact H1|]. intros. cbn beta. zbq; auto.
Qed.

(** The negligible secondary value. *)
Definition negl (D E : Z -> F) (m : Z) : bool := let delta := (fabs (D m) + fabs (D (m + 1)%Z))%f in feq (fabs (E m) + delta)%f delta.
Lemma ed_find_ok n j d e D E : VTab d n D -> VTab e n E -> 0 <= j < n ->
  wp (ed_find n j d e) (fun m => j <= m <= n - 1 /\ (m < n - 1 -> negl D E m = true) /\ forall k, j <= k < m -> negl D E k = false).
Proof.
  intros Hd He Hj. unfold ed_find. apply wp_bind.
  apply (wp_for_brk (fun m r => r = m /\ forall k, j <= k < m -> negl D E k = false)
    (fun m => j <= m < n - 1 /\ negl D E m = true /\ forall k, j <= k < m -> negl D E k = false)); [lia|split; auto; intros; lia| | |].
  - intros m r Hm [-> H]. repeat vget. fold (negl D E m). destruct (negl D E m) eqn:En; apply wp_ok; cbn [fst snd].
    + auto.
    + split; auto. intros k Hk. destruct (Z.eq_dec k m) as [->|]; auto. apply H. lia.
  - intros r [-> H]. apply wp_ok. split; [lia|]. split; auto. intros; lia.
  - intros m (H1 & H2 & H3). apply wp_ok. split; [lia|]. auto.
Qed.

(** The rotation chosen from p and q. *)
Definition rt (p q : F) : F := if fge (fabs p) (fabs q) then fsqrt ((q / p) * (q / p) + fone)%f else fsqrt ((p / q) * (p / q) + fone)%f.
Definition rr (p q : F) : F := if fge (fabs p) (fabs q) then (p * rt p q)%f else (q * rt p q)%f.
Definition rsn (p q : F) : F := if fge (fabs p) (fabs q) then (fone / rt p q)%f else (p / q * (fone / rt p q))%f.
Definition rcs (p q : F) : F := if fge (fabs p) (fabs q) then (q / p * (fone / rt p q))%f else (fone / rt p q)%f.

Lemma ed_rot_ok n m k d e z q u s c t D E Zf : VTab d n D -> VTab e n E -> RTab z n n Zf -> 0 <= m - 1 - k -> 0 <= k -> m < n ->
  wp (ed_rot n m k (d, e, z, q, u, s, c, t)) (fun bs => let '(b, (d', e', z', q', u', s', c', t')) := bs in
    let i := m - 1 - k in
    let p := (s * E i)%f in let h := (c * E i)%f in
    s' = rsn p q /\ c' = rcs p q /\ b = feq (rr p q) fzero /\
    if b then VTab d' n (vset D (i + 1) (D (i + 1)%Z - u)%f) /\ VTab e' n (vset (vset E (i + 1) (rr p q)) m fzero) /\ RTab z' n n Zf /\ q' = q /\ u' = u /\ t' = rt p q
    else let x := (D (i + 1)%Z - u)%f in
      t' = ((D i - x) * s' + flit 2 * c' * h)%f /\ u' = (s' * t')%f /\ q' = (c' * t' - h)%f /\
      VTab d' n (vset D (i + 1) (x + u')%f) /\ VTab e' n (vset E (i + 1) (rr p q)) /\ RTab z' n n (rotz s' c' i Zf)).
Proof.
  intros Hd He Hz Hk0 Hk Hm. unfold ed_rot. set (i := m - 1 - k) in *. assert (Hi : 0 <= i < n - 1) by (unfold i; lia). assert (Him : 0 <= m < n) by lia. repeat vget.
  assert (R : wp (if fge (fabs (s * E i)%f) (fabs q)
      then let* e0 := zset e (i + 1) (s * E i * fsqrt (q / (s * E i) * (q / (s * E i)) + fone))%f in
           Ok (e0, (fone / fsqrt (q / (s * E i) * (q / (s * E i)) + fone))%f, (q / (s * E i) * (fone / fsqrt (q / (s * E i) * (q / (s * E i)) + fone)))%f, fsqrt (q / (s * E i) * (q / (s * E i)) + fone)%f)
      else let* e0 := zset e (i + 1) (q * fsqrt (s * E i / q * (s * E i / q) + fone))%f in
           Ok (e0, (s * E i / q * (fone / fsqrt (s * E i / q * (s * E i / q) + fone)))%f, (fone / fsqrt (s * E i / q * (s * E i / q) + fone))%f, fsqrt (s * E i / q * (s * E i / q) + fone)%f))
     (fun r => let '(e', s', c', t') := r in VTab e' n (vset E (i + 1) (rr (s * E i)%f q)) /\ s' = rsn (s * E i)%f q /\ c' = rcs (s * E i)%f q /\ t' = rt (s * E i)%f q)).
  { unfold rr, rsn, rcs, rt. destruct (fge _ _).
    - vput e1 He1. apply wp_ok. repeat split; auto; apply He1.
    - vput e1 He1. apply wp_ok. repeat split; auto; apply He1. }
  apply wp_bind. eapply wp_conseq; [exact R|]. clear R. intros [[[e1 s'] c'] t'] (He1 & -> & -> & ->). vget. unfold vset at 1. rewrite Z.eqb_refl.
  destruct (feq (rr (s * E i)%f q) fzero) eqn:Eb.
  - vput d1 Hd1. vput e2 He2. apply wp_ok. cbn [bind].
    split; [auto|]. split; [auto|]. split; [auto|]. split; [|split; [|auto]]; auto.
  - repeat vget. vput d1 Hd1. apply wp_bind. eapply wp_conseq; [apply (ed_rotz_ok n i _ _ z Zf Hz); lia|]. intros z1 Hz1. apply wp_ok.
    split; [auto|]. split; [auto|]. split; [auto|]. repeat (split; [reflexivity|]). auto.
Qed.

Definition tabs (n : Z) (st : vec * vec * mat) : Prop := let '(d, e, z) := st in exists D E Zf, VTab d n D /\ VTab e n E /\ RTab z n n Zf.
Lemma ed_turn_total n j its st : tabs n st -> 0 <= j < n -> 0 <= its <= 30 ->
  wpe (ed_turn n j its st) (fun bs => tabs n (snd bs) /\ (its = 30 -> fst bs = true)) (fun x => x = EMaxIter).
Proof.
  destruct st as [[d e] z]. intros (D & E & Zf & Hd & He & Hz) Hj Hits. unfold ed_turn. apply wpe_bind_wp.
  eapply wp_conseq; [apply (ed_find_ok n j d e D E Hd He Hj)|]. intros m (Hm & _ & _).
  destruct (Z.eqb_spec m j). { apply wpe_ok. cbn [fst snd]. split; auto. exists D, E, Zf. auto. }
  destruct (Z.eqb_spec its 30). { apply wpe_err. auto. }
  repeat vget. apply wpe_bind_wp.
  apply (wp_for_brk (fun _ st => let '(d, e, z, _, _, _, _, _) := st in exists D E Zf, VTab d n D /\ VTab e n E /\ RTab z n n Zf)
    (fun st => let '(d, e, z, _, _, _, _, _) := st in exists D E Zf, VTab d n D /\ VTab e n E /\ RTab z n n Zf)); [lia|exists D, E, Zf; auto| | |].
  - intros k [[[[[[[d1 e1] z1] q] u] s] c] t] Hk (D1 & E1 & Z1 & Hd1 & He1 & Hz1).
    eapply wp_conseq; [apply (ed_rot_ok n m k d1 e1 z1 q u s c t D1 E1 Z1 Hd1 He1 Hz1); lia|].
    intros [b [[[[[[[d2 e2] z2] q2] u2] s2] c2] t2]] (_ & _ & _ & K). cbn [fst snd]. destruct b.
    + destruct K as (Hd2 & He2 & Hz2 & _). do 3 eexists. eauto.
    + destruct K as (_ & _ & _ & Hd2 & He2 & Hz2). do 3 eexists. eauto.
  - intros [[[[[[[d1 e1] z1] q] u] s] c] t] (D1 & E1 & Z1 & Hd1 & He1 & Hz1). rewrite andb_false_r. vget. vput d2 Hd2. vput e2 He2. vput e3 He3. apply wpe_ok.
    cbn [fst snd]. split; [|intros; lia]. do 3 eexists. eauto.
  - intros [[[[[[[d1 e1] z1] q] u] s] c] t] (D1 & E1 & Z1 & Hd1 & He1 & Hz1). destruct (_ && _).
    + apply wpe_ok. cbn [fst snd]. split; [|intros; lia]. do 3 eexists. eauto.
    + vget. vput d2 Hd2. vput e2 He2. vput e3 He3. apply wpe_ok. cbn [fst snd]. split; [|intros; lia]. do 3 eexists. eauto.
Qed.
Lemma ed_ql_total n st : tabs n st -> 0 <= n -> wpe (ed_ql n st) (tabs n) (fun x => x = EMaxIter).
Proof.
  intros H Hn. unfold ed_ql. apply (wpe_for (fun _ => tabs n)); auto. intros j st1 Hj H1. apply wpe_bind.
  apply (wpe_for_brk (fun its st => its <= 30 /\ tabs n st) (tabs n)); [lia|split; auto; lia| | |].
  - intros its st2 Hits [Hle H2]. eapply wpe_conseq; [apply (ed_turn_total n j its st2 H2); lia| |auto].
    intros [b st3] [H3 H4]. cbn [fst snd] in *. destruct b; auto. split; auto. destruct (Z.eq_dec its 30); [|lia]. discriminate (H4 e).
  - intros st2 [Hle _]. lia.
  - intros st2 H2. apply wpe_ok. auto.
Qed.

(** ** Before and after the iterations *)
Definition nullv (eps mx : F) (x : F) : F := if fle (fabs x) (eps * mx)%f then fzero else x.
Definition vmax (mx x : F) : F := if fgt (fabs x) mx then fabs x else mx.
Definition maxabs (n : Z) (D E : Z -> F) : F := accum (fun i mx => vmax (vmax mx (D i)) (E i)) (Z.to_nat n) fzero.
Definition maxabs1 (n : Z) (D : Z -> F) : F := accum (fun i mx => vmax mx (D i)) (Z.to_nat n) fzero.
Lemma ed_maxabs_ok n d e D E : VTab d n D -> VTab e n E -> 0 <= n -> ed_maxabs n d e = Ok (maxabs n D E).
Proof. intros Hd He Hn. unfold ed_maxabs. apply for_accum; auto. intros k s Hk. repeat vget. auto. Qed.
Lemma ed_null_ok n mx d e D E : VTab d n D -> VTab e n E -> 0 <= n ->
  wp (ed_null n mx d e) (fun de => VTab (fst de) n (fun i => if fne mx fzero then nullv doubleeps mx (D i) else D i) /\
    VTab (snd de) n (fun i => if fne mx fzero then nullv doubleeps mx (E i) else E i)).
Proof.
  intros Hd He Hn. unfold ed_null. destruct (fne mx fzero); [|apply wp_ok; auto].
  apply (wp_for (fun k de => VTab (fst de) n (fun i => if i <? k then nullv doubleeps mx (D i) else D i) /\
    VTab (snd de) n (fun i => if i <? k then nullv doubleeps mx (E i) else E i))); [lia| | |].
  - cbn [fst snd]. split; (eapply VTab_ext; [eassumption|]; intros; cbn beta; zbq; auto).
  - intros i [d1 e1] Hi [Hd1 He1]. cbn [fst snd] in *. vget. rewrite Z.ltb_irrefl.
    assert (Wd : wp (if fle (fabs (D i)) (doubleeps * mx)%f then zset d1 i fzero else Ok d1) (fun d => VTab d n (fun k => if k <? i + 1 then nullv doubleeps mx (D k) else D k))).
    { destruct (fle _ _) eqn:El.
      - destruct (VTab_set _ n _ i fzero Hd1) as (d2 & -> & Hd2); [lia|]. apply wp_ok. eapply VTab_ext; [exact Hd2|].
        intros k Hk. cbn beta. destruct (Z.eqb_spec k i) as [->|]; [|zbq; auto]. zbq. unfold nullv. rewrite El. auto.
      - apply wp_ok. eapply VTab_ext; [exact Hd1|]. intros k Hk. cbn beta. destruct (Z.eq_dec k i) as [->|]; [|zbq; auto]. zbq. unfold nullv. rewrite El. auto. }
    apply wp_bind. eapply wp_conseq; [exact Wd|]. intros d2 Hd2. clear Wd. cbn beta in Hd2. vget. rewrite Z.ltb_irrefl. apply wp_bind.
    assert (We : wp (if fle (fabs (E i)) (doubleeps * mx)%f then zset e1 i fzero else Ok e1) (fun d => VTab d n (fun k => if k <? i + 1 then nullv doubleeps mx (E k) else E k))).
    { destruct (fle _ _) eqn:El.
      - destruct (VTab_set _ n _ i fzero He1) as (d3 & -> & Hd3); [lia|]. apply wp_ok. eapply VTab_ext; [exact Hd3|].
        intros k Hk. cbn beta. destruct (Z.eqb_spec k i) as [->|]; [|zbq; auto]. zbq. unfold nullv. rewrite El. auto.
      - apply wp_ok. eapply VTab_ext; [exact He1|]. intros k Hk. cbn beta. destruct (Z.eq_dec k i) as [->|]; [|zbq; auto]. zbq. unfold nullv. rewrite El. auto. }
    eapply wp_conseq; [exact We|]. intros e2 He2. apply wp_ok. auto.
  - intros [d1 e1] [Hd1 He1]. cbn [fst snd] in *. split; (eapply VTab_ext; [eassumption|]; intros; cbn beta; zbq; auto).
Qed.

(** Column k of Z and entry k of D exchanged with those of i. *)
Definition swp (i k j : Z) : Z := if j =? i then k else if j =? k then i else j.
Definition ed_sel (n i : Z) (D : Z -> F) : Z * F := accum (fun t '(k, p) => if fgt (D (i + 1 + t)%Z) p then (i + 1 + t, D (i + 1 + t)%Z) else (k, p)) (Z.to_nat (n - (i + 1))) (i, D i).
Lemma ed_sel_range n i D : 0 <= i < n -> i <= fst (ed_sel n i D) < n /\ snd (ed_sel n i D) = D (fst (ed_sel n i D)).
Proof.
  intros Hi. unfold ed_sel. set (f := fun t '(k, p) => _).
  assert (G : forall t, 0 <= t <= n - (i + 1) -> i <= fst (accum f (Z.to_nat t) (i, D i)) < n /\ snd (accum f (Z.to_nat t) (i, D i)) = D (fst (accum f (Z.to_nat t) (i, D i)))).
  { intros t Ht. assert (Ht0 : 0 <= t) by lia. revert Ht. pattern t. apply natlike_ind; auto.
    - intros _. cbn [Z.to_nat accum fst snd]. split; [lia|auto].
    - intros x Hx IH Hx1. unfold Z.succ. rewrite accum_S by auto. destruct (accum f (Z.to_nat x) (i, D i)) as [k p] eqn:Ea. cbn [fst snd] in *.
      destruct IH as [IH1 IH2]; [lia|]. unfold f. destruct (fgt _ _); cbn [fst snd]; [split; [lia|auto]|split; [lia|auto]]. }
  apply G. lia.
Qed.
Lemma ed_sort_step n i d z D Zf : VTab d n D -> RTab z n n Zf -> 0 <= i < n ->
  wp (let* p := zget d i in
    let* (k, p) := for_ (i + 1) n (fun j '(k, p) =>
      let* x := zget d j in
      if fgt x p then Ok (j, x) else Ok (k, p)) (i, p) in
    if negb (k =? i) then
      let* x := zget d i in
      let* d := zset d k x in
      let* d := zset d i p in
      let* z := for_ 0 n (fun j z =>
        let* p := mget z j i in
        let* x := mget z j k in
        let* z := mset z j i x in
        mset z j k p) z in
      Ok (d, z)
    else Ok (d, z))
   (fun dz => let k := fst (ed_sel n i D) in VTab (fst dz) n (fun j => D (swp i k j)) /\ RTab (snd dz) n n (fun a j => Zf a (swp i k j))).
Proof.
  intros Hd Hz Hi. vget. apply wp_bind.
  apply (wp_for (fun c kp => kp = accum (fun t '(k, p) => if fgt (D (i + 1 + t)%Z) p then (i + 1 + t, D (i + 1 + t)%Z) else (k, p)) (Z.to_nat (c - (i + 1))) (i, D i))); [lia| | |].
  - rewrite Z.sub_diag. auto.
  - intros c [k p] Hc Ek. vget. replace (c + 1 - (i + 1)) with (c - (i + 1) + 1) by lia. rewrite accum_S by lia. rewrite <- Ek.
    replace (i + 1 + (c - (i + 1))) with c by lia. destruct (fgt (D c) p); apply wp_ok; auto.
  - intros [k p] Ek. destruct (ed_sel_range n i D Hi) as [Rk Rp]. unfold ed_sel in *. rewrite <- Ek in *. cbn [fst snd] in *.
    destruct (Z.eqb_spec k i) as [->|Hki]; cbn [negb].
    + apply wp_ok. cbn [fst snd]. split.
      * eapply VTab_ext; [exact Hd|]. intros j Hj. cbn beta. unfold swp. zbq; subst; auto.
      * eapply RTab_ext; [exact Hz|]. intros a j Ha Hj. cbn beta. unfold swp. zbq; subst; auto.
    + repeat vget. vput d1 Hd1. vput d2 Hd2. apply wp_bind.
      apply (wp_for (fun c z => RTab z n n (fun a j => if a <? c then Zf a (swp i k j) else Zf a j))); [lia| | |].
      * eapply RTab_ext; [exact Hz|]. intros. cbn beta. zbq; auto.
      * intros a z1 Ha Hz1. repeat tget. rewrite !Z.ltb_irrefl. tput z2 Hz2. tput z3 Hz3. apply wp_ok.
        eapply RTab_ext; [exact Hz3|]. intros b j Hb Hj. cbn beta. unfold tset, swp. zbq; subst; auto.
      * intros z1 Hz1. apply wp_ok. cbn [fst snd]. split.
        -- eapply VTab_ext; [exact Hd2|]. intros j Hj. cbn beta. unfold swp. zbq; subst; auto.
        -- eapply RTab_ext; [exact Hz1|]. intros b j Hb Hj. cbn beta. unfold swp. zbq; subst; auto.
Qed.
(** [sg i] is the composition of the first i exchanges. *)
Definition ed_perm (n : Z) (D : Z -> F) (i : Z) : Z -> Z :=
  accum (fun i sg => let k := fst (ed_sel n i (fun j => D (sg j))) in fun j => sg (swp i k j)) (Z.to_nat i) (fun j => j).
Lemma ed_sort_ok n d z D Zf : VTab d n D -> RTab z n n Zf -> 0 <= n ->
  wp (ed_sort n (d, z)) (fun dz => VTab (fst dz) n (fun j => D (ed_perm n D n j)) /\ RTab (snd dz) n n (fun a j => Zf a (ed_perm n D n j))).
Proof.
  intros Hd Hz Hn. unfold ed_sort.
  apply (wp_for (fun i dz => VTab (fst dz) n (fun j => D (ed_perm n D i j)) /\ RTab (snd dz) n n (fun a j => Zf a (ed_perm n D i j)))); [lia|split; auto| |auto].
  - intros i [d1 z1] Hi [Hd1 Hz1]. cbn [fst snd] in *.
    eapply wp_conseq; [apply (ed_sort_step n i d1 z1 _ _ Hd1 Hz1 Hi)|]. intros [d2 z2] [Hd2 Hz2]. cbn [fst snd] in *.
    unfold ed_perm. rewrite accum_S by lia. fold (ed_perm n D i). auto.
Qed.
Lemma ed_null2_ok n d D : VTab d n D -> 0 <= n ->
  wp (ed_null2 n d) (fun d => let mx := maxabs1 n D in
    VTab d n (fun i => if fne mx fzero then (if flt (fabs (D i)) (doubleeps * mx)%f then fzero else D i) else D i)).
Proof.
  intros Hd Hn. unfold ed_null2.
  rewrite (for_accum (fun i mx => vmax mx (D i)) n _ fzero Hn) by (intros; vget; auto). cbn [bind]. fold (maxabs1 n D). cbv zeta.
  destruct (fne (maxabs1 n D) fzero); [|apply wp_ok; auto].
  apply (wp_for (fun k d => VTab d n (fun i => if i <? k then (if flt (fabs (D i)) (doubleeps * maxabs1 n D)%f then fzero else D i) else D i))); [lia| | |].
  - eapply VTab_ext; [eassumption|]; intros; cbn beta; zbq; auto.
  - intros i d1 Hi Hd1. vget. rewrite Z.ltb_irrefl. destruct (flt (fabs (D i)) _) eqn:El.
    + destruct (VTab_set _ n _ i fzero Hd1) as (d2 & -> & Hd2); [lia|]. apply wp_ok. eapply VTab_ext; [exact Hd2|].
      intros k Hk. cbn beta. destruct (Z.eqb_spec k i) as [->|]; [|zbq; auto]. zbq. rewrite El. auto.
    + apply wp_ok. eapply VTab_ext; [exact Hd1|]. intros k Hk. cbn beta. destruct (Z.eq_dec k i) as [->|]; [|zbq; auto]. zbq. rewrite El. auto.
  - intros d1 Hd1. eapply VTab_ext; [eassumption|]; intros; cbn beta; zbq; auto.
Qed.
Lemma ed_columns_ok n z Zf : RTab z n n Zf -> 0 <= n -> wp (ed_columns n z) (fun vs => RTab vs n n (fun i j => Zf j i)).
Proof.
  intros Hz Hn. unfold ed_columns. rewrite make_ok by auto. cbn [bind]. destruct (make_VTab n Hn) as (tmp & -> & Ht). cbn [bind].
  apply wp_bind.
  apply (wp_for (fun k s => len (fst s) = n /\ (forall i, 0 <= i < k -> VTab (nthZ (fst s) i) n (fun j => Zf j i)) /\ exists T, VTab (snd s) n T)); [lia| | |].
  - cbn [fst snd]. split; [apply len_repeat; auto|]. split; [intros; lia|eauto].
  - intros i [vs t1] Hi (Hl & Hv & T & HT). cbn [fst snd] in *. apply wp_bind.
    apply (wp_vecloop (fun j => Zf j i) t1 n T 0 n _ _ HT); try lia. { intros j t2 Hj Ht2. tget. auto. }
    intros t2 Ht2. cbn [app]. rewrite zset_ok by lia. cbn [bind]. apply wp_ok. cbn [fst snd]. split; [rewrite len_upd; auto|]. split; [|eauto].
    intros k Hk. rewrite nthZ_upd by lia. destruct (Z.eqb_spec i k) as [->|].
    + eapply VTab_ext; [exact Ht2|]. intros. unfold vecpart. zbq; auto.
    + apply Hv. lia.
  - intros [vs t1] (Hl & Hv & _). cbn [fst snd] in *. apply wp_ok. split; [split; auto|].
    + intros i Hi. apply Hv. auto.
    + intros i j Hi Hj. apply Hv; auto.
Qed.
End EigenFacts.

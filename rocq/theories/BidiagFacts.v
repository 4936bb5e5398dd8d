(** The bidiagonal transform, for arbitrary scalar operations: closed forms. *)
From Coq Require Import ZArith List Lia Bool.
From Verif Require Import Base BaseLemmas Wpe Scalar Vector VecSpec VectorFacts Matrix MatSpec MatFacts Array2D BlockM Diagonal RealMatrixM Array2DFacts MatrixOps MatHist MatProps BlockFacts RealMat2 RealMat3 TabTac FSum CholFacts LUFacts2 QRFacts Bidiag HessSpec TridiagFacts.
Import ListNotations.
Open Scope Z_scope.

Section BidiagFacts.
Context {O : Ops}.
Definition flip (M : Z -> Z -> F) (i j : Z) : F := M j i.

(** One reflection of the column [x] of height [m] from row [k] on. *)
Definition bh_a (m : Z) (x : Z -> F) (k : Z) : F := if fgt (x k) fzero then fneg (hh_norm m x k) else hh_norm m x k.
Definition bh_v (m : Z) (x : Z -> F) (k r : Z) : F := if feq (bh_a m x k) fzero then x r else if r =? k then (x k - bh_a m x k)%f else x r.
Definition bh_alpha (m : Z) (x z : Z -> F) (k : Z) : F := (fsubl fzero k m (fun r => z r * bh_v m x k r) / (bh_a m x k * bh_v m x k k))%f.
Definition bc_M (m i0 j0 : Z) (M : Z -> Z -> F) (i j : Z) : F :=
  if feq (bh_a m (fun r => M r j0) i0) fzero then M i j else
  if j =? j0 then bh_v m (fun r => M r j0) i0 i else
  if (j0 <? j) && (i0 <=? i) then (M i j - bh_alpha m (fun r => M r j0) (fun r => M r j) i0 * bh_v m (fun r => M r j0) i0 i)%f else M i j.
Definition br_M (n i0 j0 : Z) (M : Z -> Z -> F) : Z -> Z -> F := flip (bc_M n j0 i0 (flip M)).

Lemma bd_col_ok m n i0 j0 k p hv M dg D : RTab hv m n M -> VTab dg p D -> 0 <= i0 < m -> 0 <= j0 < n -> 0 <= k < p ->
  wp (bd_col m n i0 j0 k (hv, dg)) (fun s => RTab (fst s) m n (bc_M m i0 j0 M) /\ VTab (snd s) p (td_upd D k (bh_a m (fun r => M r j0) i0))).
Proof.
  intros H HD Hi Hj Hk. unfold bd_col. set (x := fun r => M r j0).
  rewrite (for_adds (fun r => x r * x r)%f) by (try lia; intros; tget; auto). cbn [bind]. tget. change (M i0 j0) with (x i0).
  match goal with |- context [if fgt ?a ?b then ?c else ?d] => change (if fgt a b then c else d) with (bh_a m x i0) end.
  vput dg1 HD1. assert (HD2 : VTab dg1 p (td_upd D k (bh_a m x i0))) by (eapply VTab_ext; [exact HD1|]; intros; unfold td_upd; cbn beta; zbq; subst; auto). clear HD1.
  destruct (feq (bh_a m x i0) fzero) eqn:Ea.
  - apply wp_ok. cbn [fst snd]. split; auto. eapply RTab_ext; [exact H|]. intros i j Hi' Hj'. unfold bc_M. fold x. rewrite Ea. auto.
  - tput d1 H1. apply wp_bind.
    apply (wp_for (fun c d => RTab d m n (fun i j => if j =? j0 then bh_v m x i0 i else
      if (j0 <? j) && (j <? c) && (i0 <=? i) then (M i j - bh_alpha m x (fun r => M r j) i0 * bh_v m x i0 i)%f else M i j))); [lia| | |].
    + eapply RTab_ext; [exact H1|]. intros i j Hi' Hj'. cbn beta. unfold tset, bh_v. rewrite Ea. unfold x. zbq; subst; auto.
    + intros j d Hj' Hd. rewrite (for_subl (fun i => M i j * bh_v m x i0 i)%f).
      2: lia. 2:{ intros i s Hi'. repeat tget. rewrite Z.eqb_refl. zbq. auto. }
      cbn [bind]. tget. rewrite Z.eqb_refl. fold (bh_alpha m x (fun r => M r j) i0).
      apply (wp_colloop (fun i => M i j - bh_alpha m x (fun r => M r j) i0 * bh_v m x i0 i)%f d m n _ j i0 m _ _ Hd); try lia.
      * intros i d' Hi' Hd'. repeat tget. unfold colpart. zbq. auto.
      * intros d' Hd'. eapply RTab_ext; [exact Hd'|]. intros a b Ha Hb. cbn beta. rp.
    + intros d Hd. apply wp_ok. cbn [fst snd]. split; auto. eapply RTab_ext; [exact Hd|]. intros i j Hi' Hj'. cbn beta. unfold bc_M. fold x. rewrite Ea. zbq; auto.
Qed.
Lemma bd_row_ok m n i0 j0 k p hv M dg D : RTab hv m n M -> VTab dg p D -> 0 <= i0 < m -> 0 <= j0 < n -> 0 <= k < p ->
  wp (bd_row m n i0 j0 k (hv, dg)) (fun s => RTab (fst s) m n (br_M n i0 j0 M) /\ VTab (snd s) p (td_upd D k (bh_a n (M i0) j0))).
Proof.
  intros H HD Hi Hj Hk. unfold bd_row. set (x := M i0).
  rewrite (for_adds (fun r => x r * x r)%f) by (try lia; intros; tget; auto). cbn [bind]. tget. change (M i0 j0) with (x j0).
  match goal with |- context [if fgt ?a ?b then ?c else ?d] => change (if fgt a b then c else d) with (bh_a n x j0) end.
  vput dg1 HD1. assert (HD2 : VTab dg1 p (td_upd D k (bh_a n x j0))) by (eapply VTab_ext; [exact HD1|]; intros; unfold td_upd; cbn beta; zbq; subst; auto). clear HD1.
  destruct (feq (bh_a n x j0) fzero) eqn:Ea.
  - apply wp_ok. cbn [fst snd]. split; auto. eapply RTab_ext; [exact H|]. intros i j Hi' Hj'. unfold br_M, flip, bc_M. change (fun r => M i0 r) with x. rewrite Ea. auto.
  - tput d1 H1. apply wp_bind.
    apply (wp_for (fun c d => RTab d m n (fun i j => if i =? i0 then bh_v n x j0 j else
      if (i0 <? i) && (i <? c) && (j0 <=? j) then (M i j - bh_alpha n x (M i) j0 * bh_v n x j0 j)%f else M i j))); [lia| | |].
    + eapply RTab_ext; [exact H1|]. intros i j Hi' Hj'. cbn beta. unfold tset, bh_v. rewrite Ea. unfold x. zbq; subst; auto.
    + intros i d Hi' Hd. rewrite (for_subl (fun j => M i j * bh_v n x j0 j)%f).
      2: lia. 2:{ intros j s Hj'. repeat tget. rewrite Z.eqb_refl. zbq. auto. }
      cbn [bind]. tget. rewrite Z.eqb_refl. fold (bh_alpha n x (M i) j0).
      apply (wp_rowloop (fun j => M i j - bh_alpha n x (M i) j0 * bh_v n x j0 j)%f d m n _ i j0 n _ _ Hd); try lia.
      * intros j d' Hj' Hd'. repeat tget. unfold rowpart. zbq. auto.
      * intros d' Hd'. eapply RTab_ext; [exact Hd'|]. intros a b Ha Hb. cbn beta. rp.
    + intros d Hd. apply wp_ok. cbn [fst snd]. split; auto. eapply RTab_ext; [exact Hd|]. intros i j Hi' Hj'. cbn beta. unfold br_M, flip, bc_M. change (fun r => M i0 r) with x. rewrite Ea. zbq; auto.
Qed.

(** k steps of the transform of a tall table. *)
Definition bu_step (m n k : Z) (s : td_st) : td_st :=
  let '(M, D, Sc) := s in
  let M1 := bc_M m k k M in
  let D1 := td_upd D k (bh_a m (fun r => M r k) k) in
  if k <? n - 1 then (br_M n k (k + 1) M1, D1, td_upd Sc k (bh_a n (M1 k) (k + 1))) else (M1, D1, Sc).
Definition bu_iter (m n : Z) (A : Z -> Z -> F) (k : Z) : td_st := accum (bu_step m n) (Z.to_nat k) (A, fun _ => fzero, fun _ => fzero).

Lemma bd_upper_ok m n hv A mn sec : RTab hv m n A -> VTab mn n (fun _ => fzero) -> VTab sec (n - 1) (fun _ => fzero) -> 1 <= n <= m ->
  wp (bd_upper hv mn sec) (fun s => let '(hv', mn', sec') := s in let '(M, D, Sc) := bu_iter m n A n in RTab hv' m n M /\ VTab mn' n D /\ VTab sec' (n - 1) Sc).
Proof.
  intros H HD HS Hn. unfold bd_upper. rewrite (RTab_len _ _ _ _ H). destruct (RTab_row hv m n A 0 H ltac:(lia)) as (row & -> & Hr). cbn [bind]. rewrite (VTab_len _ _ _ Hr).
  apply (wp_for (fun k s => let '(hv', mn', sec') := s in let '(M, D, Sc) := bu_iter m n A k in RTab hv' m n M /\ VTab mn' n D /\ VTab sec' (n - 1) Sc)); [lia| | |].
  - cbn. auto.
  - intros k [[hv1 mn1] sec1] Hk HI. unfold bu_iter. rewrite accum_S by lia. fold (bu_iter m n A k). destruct (bu_iter m n A k) as [[M D] Sc]. destruct HI as (H1 & H2 & H3).
    apply wp_bind. eapply wp_conseq; [apply (bd_col_ok m n k k k n hv1 M mn1 D H1 H2); lia|]. cbn beta. intros [hv2 mn2] (H4 & H5). cbn [fst snd] in *.
    unfold bu_step. destruct (Z.ltb_spec k (n - 1)); [|apply wp_ok; auto].
    apply wp_bind. eapply wp_conseq; [apply (bd_row_ok m n k (k + 1) k (n - 1) hv2 _ sec1 Sc H4 H3); lia|]. cbn beta. intros [hv3 sec3] (H6 & H7). cbn [fst snd] in *.
    apply wp_ok. auto.
  - intros [[hv1 mn1] sec1] K. exact K.
Qed.
(** A wide table is transformed as its transpose. *)
Lemma bd_lower_ok m n hv A mn sec : RTab hv m n A -> VTab mn m (fun _ => fzero) -> VTab sec (m - 1) (fun _ => fzero) -> 1 <= m <= n ->
  wp (bd_lower hv mn sec) (fun s => let '(hv', mn', sec') := s in let '(M, D, Sc) := bu_iter n m (flip A) m in RTab hv' m n (flip M) /\ VTab mn' m D /\ VTab sec' (m - 1) Sc).
Proof.
  intros H HD HS Hn. unfold bd_lower. rewrite (RTab_len _ _ _ _ H). destruct (RTab_row hv m n A 0 H ltac:(lia)) as (row & -> & Hr). cbn [bind]. rewrite (VTab_len _ _ _ Hr).
  apply (wp_for (fun k s => let '(hv', mn', sec') := s in let '(M, D, Sc) := bu_iter n m (flip A) k in RTab hv' m n (flip M) /\ VTab mn' m D /\ VTab sec' (m - 1) Sc)); [lia| | |].
  - cbn. auto.
  - intros k [[hv1 mn1] sec1] Hk HI. unfold bu_iter. rewrite accum_S by lia. fold (bu_iter n m (flip A) k). destruct (bu_iter n m (flip A) k) as [[M D] Sc]. destruct HI as (H1 & H2 & H3).
    apply wp_bind. eapply wp_conseq; [apply (bd_row_ok m n k k k m hv1 (flip M) mn1 D H1 H2); lia|]. cbn beta. intros [hv2 mn2] (H4 & H5). cbn [fst snd] in *.
    unfold bu_step. destruct (Z.ltb_spec k (m - 1)); [|apply wp_ok; split; [exact H4|split; [exact H5|exact H3]]].
    apply wp_bind. eapply wp_conseq; [apply (bd_col_ok m n (k + 1) k k (m - 1) hv2 _ sec1 Sc H4 H3); lia|]. cbn beta. intros [hv3 sec3] (H6 & H7). cbn [fst snd] in *.
    apply wp_ok. split; [exact H6|split; [exact H5|exact H7]].
  - intros [[hv1 mn1] sec1] K. exact K.
Qed.

(** The stored table, diagonal and second diagonal of the transform of A. *)
Definition bd_fin (m n : Z) (A : Z -> Z -> F) : td_st :=
  if n <=? m then bu_iter m n A n else let '(M, D, Sc) := bu_iter n m (flip A) m in (flip M, D, Sc).
Lemma bd_new_spec x m n A : library x -> MatIs x m n A -> 1 <= m -> 1 <= n ->
  wp (NewBiDiagonalTransformer x) (fun d => let '(M, D, Sc) := bd_fin m n A in RTab (bd_hv d) m n M /\ VTab (bd_main d) (Z.min m n) D /\ VTab (bd_sec d) (Z.min m n - 1) Sc /\
    bd_cachedU d = None /\ bd_cachedB d = None /\ bd_cachedV d = None).
Proof.
  intros Hl Hx Hm Hn. unfold NewBiDiagonalTransformer. rewrite (MatIs_rows _ _ _ _ Hx), (MatIs_cols _ _ _ _ Hx). cbn [bind].
  apply wp_bind. eapply wp_conseq; [apply (m_Data_ok x m n _ Hl Hx)|]. cbn beta. intros hv Hv.
  destruct (make_VTab (Z.min m n) ltac:(lia)) as (mn & E1 & HD). rewrite E1. cbn [bind].
  destruct (make_VTab (Z.min m n - 1) ltac:(lia)) as (sec & E2 & HS). rewrite E2. cbn [bind]. unfold bd_fin.
  destruct (Z.leb_spec n m).
  - rewrite Z.min_r in * by lia. apply wp_bind. eapply wp_conseq; [apply (bd_upper_ok m n hv A mn sec Hv HD HS); lia|]. cbn beta. intros [[hv' mn'] sec'] K.
    destruct (bu_iter m n A n) as [[M D] Sc]. destruct K as (K1 & K2 & K3). apply wp_ok. cbn. auto 8.
  - rewrite Z.min_l in * by lia. apply wp_bind. eapply wp_conseq; [apply (bd_lower_ok m n hv A mn sec Hv HD HS); lia|]. cbn beta. intros [[hv' mn'] sec'] K.
    destruct (bu_iter n m (flip A) m) as [[M D] Sc]. destruct K as (K1 & K2 & K3). apply wp_ok. cbn. auto 8.
Qed.

(** ** Accessors *)
(** The product of the reflections with vectors [W], scalars [D], started at
    row [q + off] for the vector [q]; size [N]. *)
Section Acc.
Variables N p off : Z.
Variable W : Z -> Z -> F.
Variable D : Z -> F.
Definition ba_alpha (k : Z) (u : Z -> F) : F := (fsubl fzero k N (fun r => u r * W (k - off)%Z r) / (D (k - off)%Z * W (k - off)%Z k))%f.
Definition ba_step (k : Z) (T : Z -> Z -> F) (i j : Z) : F :=
  if feq (W (k - off) k) fzero then tq_unit T k i j else
  if (k <=? i) && (k <=? j) then (tq_unit T k i j + fneg (ba_alpha k (fun r => tq_unit T k r j)) * W (k - off)%Z i)%f else T i j.
Definition ba_init (i j : Z) : F := if (i =? j) && (p <=? i) then fone else fzero.
Definition ba_iter (k : Z) : Z -> Z -> F := accum (fun t T => ba_step (p - 1 - t) T) (Z.to_nat (p - k)) ba_init.
Definition ba_tab : Z -> Z -> F := if 0 <? off then tq_unit (ba_iter off) 0 else ba_iter off.
Lemma ba_iter_S k : k < p -> ba_iter k = ba_step k (ba_iter (k + 1)).
Proof.
  intros Hk. unfold ba_iter. replace (p - k) with (p - (k + 1) + 1) by lia. rewrite accum_S by lia. f_equal. lia.
Qed.
End Acc.
(** B when the upper diagonal is filled. *)
Definition bu_tabB (D Sc : Z -> F) (i j : Z) : F := if i =? j then D i else if j =? i + 1 then Sc i else fzero.
Section Tabs.
Variables m n : Z.
Variable M : Z -> Z -> F.
Variables D Sc : Z -> F.
Definition bd_tabU : Z -> Z -> F := if n <=? m then ba_tab m (Z.min m n) 0 (flip M) D else ba_tab m (Z.min m n) 1 (flip M) Sc.
Definition bd_tabV : Z -> Z -> F := if n <=? m then ba_tab n (Z.min m n) 1 M Sc else ba_tab n (Z.min m n) 0 M D.
Definition bd_tabB : Z -> Z -> F := if n <=? m then bu_tabB D Sc else flip (bu_tabB D Sc).
Definition bd_ok (d : BdD) : Prop :=
  RTab (bd_hv d) m n M /\ VTab (bd_main d) (Z.min m n) D /\ VTab (bd_sec d) (Z.min m n - 1) Sc /\
  tcache (bd_cachedU d) m m bd_tabU /\ tcache (bd_cachedB d) m n bd_tabB /\ tcache (bd_cachedV d) n n bd_tabV.
End Tabs.
Ltac bdok := refine (conj _ (conj _ (conj _ (conj _ (conj _ _))))); auto; try (split; auto; fail).

Lemma bd_B_ok m n M D Sc d : 1 <= m -> 1 <= n -> bd_ok m n M D Sc d ->
  wp (bd_B d) (fun r => general (fst r) /\ MatIs (fst r) m n (bd_tabB m n D Sc) /\ bd_ok m n M D Sc (snd r)).
Proof.
  intros Hm Hn (HT & HD & HS & CU & CB & CV). unfold bd_B. destruct (bd_cachedB d) as [r|] eqn:Ec.
  - apply wp_ok. cbn [fst snd]. destruct CB as [G1 G2]. refine (conj G1 (conj G2 _)). unfold bd_ok. rewrite Ec. bdok.
  - rewrite (RTab_len _ _ _ _ HT). destruct (RTab_row (bd_hv d) m n M 0 HT ltac:(lia)) as (row & -> & Hr). cbn [bind]. rewrite (VTab_len _ _ _ Hr).
    apply wp_bind. eapply wp_conseq; [apply (make2_spec m n); lia|]. cbn beta. intros t0 H0. rewrite (VTab_len _ _ _ HD). apply wp_bind.
    apply (wp_for (fun k h => RTab h m n (fun i j => if i <? k then bd_tabB m n D Sc i j else fzero))); [lia| | |].
    + eapply RTab_ext; [exact H0|]. intros i j Hi Hj. cbn beta. zbq; auto.
    + intros i t Hi Ht. vget. tput t1 H1. destruct (Z.ltb_spec m n).
      * destruct (Z.ltb_spec 0 i).
        -- vget. destruct (RTab_set t1 m n _ i (i - 1) (Sc (i - 1)) H1) as (h2 & -> & Hh2); [lia|lia|]. apply wp_ok.
           eapply RTab_ext; [exact Hh2|]. intros p q Hp Hq. cbn beta. unfold tset, bd_tabB, flip, bu_tabB. zbq; subst; auto; f_equal; lia.
        -- apply wp_ok. eapply RTab_ext; [exact H1|]. intros p q Hp Hq. cbn beta. unfold tset, bd_tabB, flip, bu_tabB. zbq; subst; auto.
      * destruct (Z.ltb_spec i (Z.min m n - 1)).
        -- vget. destruct (RTab_set t1 m n _ i (i + 1) (Sc i) H1) as (h2 & -> & Hh2); [lia|lia|]. apply wp_ok.
           eapply RTab_ext; [exact Hh2|]. intros p q Hp Hq. cbn beta. unfold tset, bd_tabB, flip, bu_tabB. zbq; subst; auto; f_equal; lia.
        -- apply wp_ok. eapply RTab_ext; [exact H1|]. intros p q Hp Hq. cbn beta. unfold tset, bd_tabB, flip, bu_tabB. zbq; subst; auto.
    + intros h Hh. assert (H2 : RTab h m n (bd_tabB m n D Sc)).
      { eapply RTab_ext; [exact Hh|]. intros i j Hi Hj. cbn beta. unfold bd_tabB, flip, bu_tabB. zbq; auto. }
      destruct (FromSlices_RTab h m n _ ltac:(lia) ltac:(lia) H2) as (r & -> & Hg & Hr2). cbn [orpanic bind]. apply wp_ok. cbn [fst snd].
      refine (conj Hg (conj Hr2 _)). unfold bd_ok. cbn. bdok.
Qed.
(** The loops shared by U and V. *)
Lemma ba_loop N p off W D body ua : 0 <= off <= 1 -> 1 <= p <= N -> off <= p -> RTab ua N N (ba_init p) ->
  (forall k T u, off <= k < p -> RTab u N N T -> wp (body k u) (fun u' => RTab u' N N (ba_step N off W D k T))) ->
  wp (let* ua := for_down (p - 1) off body ua in if 0 <? off then mset ua 0 0 fone else Ok ua) (fun u => RTab u N N (ba_tab N p off W D)).
Proof.
  intros Ho Hp Hop H Hb. apply wp_bind.
  apply (wp_for_down (fun k u => RTab u N N (ba_iter N p off W D k))); [lia| | |].
  - replace (p - 1 + 1) with p by lia. unfold ba_iter. rewrite Z.sub_diag. exact H.
  - intros k u Hk Hu. rewrite ba_iter_S by lia. apply Hb; auto. lia.
  - intros u Hu. unfold ba_tab. destruct (0 <? off); [|apply wp_ok; auto]. destruct (RTab_set u N N _ 0 0 fone Hu) as (u' & -> & Hu'); [lia|lia|]. apply wp_ok. exact Hu'.
Qed.
Lemma ba_start N p u : 0 <= p <= N -> RTab u N N (fun _ _ => fzero) -> wp (for_down (N - 1) p (fun k ua => mset ua k k fone) u) (fun u' => RTab u' N N (ba_init p)).
Proof.
  intros Hp H. apply (wp_for_down (fun k q => RTab q N N (fun i j => if (i =? j) && (k <=? i) then fone else fzero))); [lia| | |].
  - eapply RTab_ext; [exact H|]. intros i j Hi Hj. cbn beta. zbq; auto.
  - intros k q Hk Hq. destruct (RTab_set q N N _ k k fone Hq) as (q2 & -> & H2); [lia|lia|]. apply wp_ok. eapply RTab_ext; [exact H2|]. intros i j Hi Hj. cbn beta. unfold tset. zbq; subst; auto.
  - intros q Hq. exact Hq.
Qed.
Lemma bd_U_body m n off M D hv dg k T u : RTab hv m n M -> 0 <= off <= 1 -> off <= k < m -> k - off < n -> (exists p, VTab dg p D /\ k - off < p) -> RTab u m m T ->
  wp (let* ua := mset u k k fone in
        let* v := mget hv k (k - off) in
        if feq v fzero then Ok ua else
        for_ k m (fun j ua =>
          let* alpha := for_ k m (fun i alpha =>
            let* u := mget ua i j in let* v := mget hv i (k - off) in Ok (alpha - u * v)%f) fzero in
          let* dg := zget dg (k - off) in
          let* v := mget hv k (k - off) in
          let alpha := (alpha / (dg * v))%f in
          for_ k m (fun i ua =>
            let* u := mget ua i j in let* v := mget hv i (k - off) in mset ua i j (u + fneg alpha * v)%f) ua) ua)
    (fun u' => RTab u' m m (ba_step m off (flip M) D k T)).
Proof.
  intros H Ho Hk Hkn (p & HD & Hp) Hu. tput u1 H1. assert (H1' : RTab u1 m m (tq_unit T k)) by exact H1. clear H1. tget. unfold ba_step, flip at 1.
  destruct (feq (M k (k - off)) fzero) eqn:E0; [apply wp_ok; exact H1'|]. set (U := tq_unit T k) in *.
  apply (wp_for (fun c u => RTab u m m (fun i j => if (k <=? i) && (k <=? j) && (j <? c) then (U i j + fneg (ba_alpha m off (flip M) D k (fun r => U r j)) * M i (k - off)%Z)%f else U i j))); [lia| | |].
  - eapply RTab_ext; [exact H1'|]. intros i j Hi Hj. cbn beta. zbq; auto.
  - intros j u2 Hj H2. rewrite (for_subl (fun i => U i j * M i (k - off)%Z)%f).
    2: lia. 2:{ intros i s Hi. repeat tget. zbq. auto. }
    cbn [bind]. vget. match goal with |- context [(?a / ?b)%f] => change (a / b)%f with (ba_alpha m off (flip M) D k (fun r => U r j)) end.
    apply (wp_colloop (fun i => U i j + fneg (ba_alpha m off (flip M) D k (fun r => U r j)) * M i (k - off)%Z)%f u2 m m _ j k m _ _ H2); try lia.
    + intros i d' Hi Hd'. repeat tget. unfold colpart. zbq. auto.
    + intros d' Hd'. eapply RTab_ext; [exact Hd'|]. intros a b Ha Hb. cbn beta. rp.
  - intros u2 H2. eapply RTab_ext; [exact H2|]. intros i j Hi Hj. cbn beta. unfold flip. unfold U, tq_unit. zbq; subst; auto.
Qed.
Lemma bd_V_body m n off M D hv dg k T u : RTab hv m n M -> 0 <= off <= 1 -> off <= k < n -> k - off < m -> (exists p, VTab dg p D /\ k - off < p) -> RTab u n n T ->
  wp (let* va := mset u k k fone in
        let* v := mget hv (k - off) k in
        if feq v fzero then Ok va else
        for_ k n (fun j va =>
          let* beta := for_ k n (fun i beta =>
            let* u := mget va i j in let* v := mget hv (k - off) i in Ok (beta - u * v)%f) fzero in
          let* dg := zget dg (k - off) in
          let* v := mget hv (k - off) k in
          let beta := (beta / (dg * v))%f in
          for_ k n (fun i va =>
            let* u := mget va i j in let* v := mget hv (k - off) i in mset va i j (u + fneg beta * v)%f) va) va)
    (fun u' => RTab u' n n (ba_step n off M D k T)).
Proof.
  intros H Ho Hk Hkn (p & HD & Hp) Hu. tput u1 H1. assert (H1' : RTab u1 n n (tq_unit T k)) by exact H1. clear H1. tget. unfold ba_step.
  destruct (feq (M (k - off) k) fzero) eqn:E0; [apply wp_ok; exact H1'|]. set (U := tq_unit T k) in *.
  apply (wp_for (fun c u => RTab u n n (fun i j => if (k <=? i) && (k <=? j) && (j <? c) then (U i j + fneg (ba_alpha n off M D k (fun r => U r j)) * M (k - off)%Z i)%f else U i j))); [lia| | |].
  - eapply RTab_ext; [exact H1'|]. intros i j Hi Hj. cbn beta. zbq; auto.
  - intros j u2 Hj H2. rewrite (for_subl (fun i => U i j * M (k - off)%Z i)%f).
    2: lia. 2:{ intros i s Hi. repeat tget. zbq. auto. }
    cbn [bind]. vget. match goal with |- context [(?a / ?b)%f] => change (a / b)%f with (ba_alpha n off M D k (fun r => U r j)) end.
    apply (wp_colloop (fun i => U i j + fneg (ba_alpha n off M D k (fun r => U r j)) * M (k - off)%Z i)%f u2 n n _ j k n _ _ H2); try lia.
    + intros i d' Hi Hd'. repeat tget. unfold colpart. zbq. auto.
    + intros d' Hd'. eapply RTab_ext; [exact Hd'|]. intros a b Ha Hb. cbn beta. rp.
  - intros u2 H2. eapply RTab_ext; [exact H2|]. intros i j Hi Hj. cbn beta. unfold U, tq_unit. zbq; subst; auto.
Qed.
Lemma bd_U_ok m n M D Sc d : 1 <= m -> 1 <= n -> bd_ok m n M D Sc d ->
  wp (bd_U d) (fun r => general (fst r) /\ MatIs (fst r) m m (bd_tabU m n M D Sc) /\ bd_ok m n M D Sc (snd r)).
Proof.
  intros Hm Hn (HT & HD & HS & CU & CB & CV). unfold bd_U. destruct (bd_cachedU d) as [r|] eqn:Ec.
  - apply wp_ok. cbn [fst snd]. destruct CU as [G1 G2]. refine (conj G1 (conj G2 _)). unfold bd_ok. rewrite Ec. bdok.
  - rewrite (RTab_len _ _ _ _ HT). destruct (RTab_row (bd_hv d) m n M 0 HT ltac:(lia)) as (row & -> & Hr). cbn [bind]. rewrite (VTab_len _ _ _ Hr), (VTab_len _ _ _ HD).
    apply wp_bind. eapply wp_conseq; [apply (make2_spec m m); lia|]. cbn beta. intros t0 H0.
    apply wp_bind. eapply wp_conseq; [apply (ba_start m (Z.min m n) t0); [lia|exact H0]|]. cbn beta. intros t1 H1.
    set (off := if n <=? m then 0 else 1). set (dg := if n <=? m then bd_main d else bd_sec d).
    match goal with |- wp (let* ua := for_down _ _ ?b t1 in @?K ua) _ => set (body := b) end.
    assert (L : wp (let* ua := for_down (Z.min m n - 1) off body t1 in if 0 <? off then mset ua 0 0 fone else Ok ua) (fun u => RTab u m m (bd_tabU m n M D Sc))).
    { unfold bd_tabU. destruct (Z.leb_spec n m) as [Hnm|Hnm]; subst off dg.
      - apply ba_loop; try lia; auto. intros k T u Hk Hu. apply (bd_U_body m n 0 M D); auto; try lia. exists (Z.min m n). split; [auto|lia].
      - apply ba_loop; try lia; auto. intros k T u Hk Hu. apply (bd_U_body m n 1 M Sc); auto; try lia. exists (Z.min m n - 1). split; [auto|lia]. }
    destruct L as (u & E & Hu). destruct (for_down (Z.min m n - 1) off body t1) as [u0| |]; try discriminate. cbn [bind] in E |- *. rewrite E. cbn [bind].
    destruct (FromSlices_RTab u m m _ ltac:(lia) ltac:(lia) Hu) as (r & -> & Hg & Hr2). cbn [orpanic bind]. apply wp_ok. cbn [fst snd].
    refine (conj Hg (conj Hr2 _)). unfold bd_ok. cbn. bdok.
Qed.
Lemma bd_V_ok m n M D Sc d : 1 <= m -> 1 <= n -> bd_ok m n M D Sc d ->
  wp (bd_V d) (fun r => general (fst r) /\ MatIs (fst r) n n (bd_tabV m n M D Sc) /\ bd_ok m n M D Sc (snd r)).
Proof.
  intros Hm Hn (HT & HD & HS & CU & CB & CV). unfold bd_V. destruct (bd_cachedV d) as [r|] eqn:Ec.
  - apply wp_ok. cbn [fst snd]. destruct CV as [G1 G2]. refine (conj G1 (conj G2 _)). unfold bd_ok. rewrite Ec. bdok.
  - rewrite (RTab_len _ _ _ _ HT). destruct (RTab_row (bd_hv d) m n M 0 HT ltac:(lia)) as (row & -> & Hr). cbn [bind]. rewrite (VTab_len _ _ _ Hr), (VTab_len _ _ _ HD).
    apply wp_bind. eapply wp_conseq; [apply (make2_spec n n); lia|]. cbn beta. intros t0 H0.
    apply wp_bind. eapply wp_conseq; [apply (ba_start n (Z.min m n) t0); [lia|exact H0]|]. cbn beta. intros t1 H1.
    set (off := if n <=? m then 1 else 0). set (dg := if n <=? m then bd_sec d else bd_main d).
    match goal with |- wp (let* ua := for_down _ _ ?b t1 in @?K ua) _ => set (body := b) end.
    assert (L : wp (let* ua := for_down (Z.min m n - 1) off body t1 in if 0 <? off then mset ua 0 0 fone else Ok ua) (fun u => RTab u n n (bd_tabV m n M D Sc))).
    { unfold bd_tabV. destruct (Z.leb_spec n m) as [Hnm|Hnm]; subst off dg.
      - apply ba_loop; try lia; auto. intros k T u Hk Hu. apply (bd_V_body m n 1 M Sc); auto; try lia. exists (Z.min m n - 1). split; [auto|lia].
      - apply ba_loop; try lia; auto. intros k T u Hk Hu. apply (bd_V_body m n 0 M D); auto; try lia. exists (Z.min m n). split; [auto|lia]. }
    destruct L as (u & E & Hu). destruct (for_down (Z.min m n - 1) off body t1) as [u0| |]; try discriminate. cbn [bind] in E |- *. rewrite E. cbn [bind].
    destruct (FromSlices_RTab u n n _ ltac:(lia) ltac:(lia) Hu) as (r & -> & Hg & Hr2). cbn [orpanic bind]. apply wp_ok. cbn [fst snd].
    refine (conj Hg (conj Hr2 _)). unfold bd_ok. cbn. bdok.
Qed.
Lemma bd_calls_ok m n M D Sc d d' : 1 <= m -> 1 <= n -> bd_ok m n M D Sc d -> bd_calls d d' -> bd_ok m n M D Sc d'.
Proof.
  intros Hm Hn Hd Hc. induction Hc as [d|d d1 d2 x E _ IH|d d1 d2 x E _ IH|d d1 d2 x E _ IH]; auto; apply IH.
  - destruct (bd_U_ok m n M D Sc d Hm Hn Hd) as ([x' d1'] & E' & _ & _ & K). rewrite E in E'. injection E' as <- <-. exact K.
  - destruct (bd_B_ok m n M D Sc d Hm Hn Hd) as ([x' d1'] & E' & _ & _ & K). rewrite E in E'. injection E' as <- <-. exact K.
  - destruct (bd_V_ok m n M D Sc d Hm Hn Hd) as ([x' d1'] & E' & _ & _ & K). rewrite E in E'. injection E' as <- <-. exact K.
Qed.
Lemma bd_state x m n A d : library x -> MatIs x m n A -> 1 <= m -> 1 <= n -> bd_of x d -> let '(M, D, Sc) := bd_fin m n A in bd_ok m n M D Sc d.
Proof.
  intros Hl Hx Hm Hn (d0 & E & Hc). pose proof (bd_new_spec x m n A Hl Hx Hm Hn) as W. destruct (bd_fin m n A) as [[M D] Sc].
  eapply bd_calls_ok; [auto|auto| |exact Hc]. destruct W as (d1 & E1 & H1 & H2 & H3 & C1 & C2 & C3). rewrite E in E1. injection E1 as <-.
  unfold bd_ok. rewrite C1, C2, C3. refine (conj H1 (conj H2 (conj H3 _))). repeat split.
Qed.
End BidiagFacts.

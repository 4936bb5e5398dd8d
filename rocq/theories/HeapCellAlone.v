(** One goroutine calls an accessor of an LU decomposition for the first time. *)
From Coq Require Import ZArith List Lia Bool Arith.
From Verif Require Import Base BaseLemmas Scalar Vector Matrix MatSpec MatFacts MatProps MatrixOps RealMatrixM.
From Verif Require Import Heap HeapDec HeapSolve HeapSpec HeapFacts HeapSim HeapRefSpec HeapRef5 HeapIndep HeapCo HeapCoCode HeapCoSpec HeapCoFacts HeapCoRun HeapCoMain HeapCell HeapCellSpec HeapCellFacts.
Import ListNotations.
Open Scope Z_scope.

Section Alone.
Context {O : Ops}.
(** The whole of a program with cells, at once. *)
Fixpoint crun {A} (p : cprog A) (h : heap) (cs : list (option HMat)) : res A * heap * list (option HMat) :=
  match p with
  | Fin r => (r, h, cs)
  | Sub p k => let (r, h) := run p h in crun (k r) h cs
  | Look c k => crun (k (cell cs c)) h cs
  | Keep c x k => crun (k tt) h (HeapCo.put cs c (Some x))
  end.
Lemma cstep_crun {A} (p : cprog A) h cs : let '(h', cs', p') := cstep h cs p in crun p' h' cs' = crun p h cs.
Proof.
  destruct p as [r|p k|c k|c x k]; try reflexivity.
  destruct (sub_step h cs p k) as [(r & -> & E)|E]; rewrite E; [reflexivity|]. cbn [crun]. rewrite step_run. reflexivity.
Qed.
Lemma single {A} order h cs (p : cprog A) : exists p', cthreads (cmoves (mkCW h cs [p]) order) = [p'] /\
  crun p' (cmem (cmoves (mkCW h cs [p]) order)) (cells (cmoves (mkCW h cs [p]) order)) = crun p h cs.
Proof.
  revert h cs p. induction order as [|i order IH]; intros h cs p; [exists p; split; reflexivity|]. cbn [cmoves].
  destruct i as [|i].
  - unfold cmove. cbn [cthreads nth_error cmem cells]. pose proof (cstep_crun p h cs) as E. destruct (cstep h cs p) as [[h' cs'] p']. unfold HeapCo.put. cbn [firstn skipn app].
    destruct (IH h' cs' p') as (q & Q1 & Q2). exists q. split; [exact Q1|congruence].
  - unfold cmove. cbn [cthreads nth_error]. rewrite (proj2 (nth_error_None _ _)) by (cbn; lia). apply IH.
Qed.
Lemma single_end {A} order h cs (p : cprog A) r : finished (cmoves (mkCW h cs [p]) order) 0 r ->
  crun p h cs = (r, cmem (cmoves (mkCW h cs [p]) order), cells (cmoves (mkCW h cs [p]) order)).
Proof.
  unfold finished. destruct (single order h cs p) as (p' & E1 & E2). rewrite E1. cbn [nth_error]. intros E. injection E as ->. rewrite <- E2. reflexivity.
Qed.
(** It comes to an end. *)
Lemma cmove_one {A} h cs (p : cprog A) : cmove (mkCW h cs [p]) 0 = let '(h', cs', p') := cstep h cs p in mkCW h' cs' [p'].
Proof. unfold cmove. cbn [cthreads nth_error cmem cells]. destruct (cstep h cs p) as [[h' cs'] p']. reflexivity. Qed.
Lemma sub_done {A} r (k : res (list answer) -> cprog A) h cs :
  (forall r h, exists n r', finished (cmoves (mkCW h cs [k r]) (repeat 0%nat n)) 0 r') ->
  exists n r', finished (cmoves (mkCW h cs [Sub (Done r) k]) (repeat 0%nat n)) 0 r'.
Proof. intros H. destruct (H r h) as (n & r' & E). exists (Datatypes.S n), r'. cbn [repeat cmoves]. rewrite cmove_one. exact E. Qed.
Lemma sub_go {A} p (k : res (list answer) -> cprog A) h cs :
  (exists n r', finished (cmoves (mkCW (fst (step h p)) cs [Sub (snd (step h p)) k]) (repeat 0%nat n)) 0 r') ->
  exists n r', finished (cmoves (mkCW h cs [Sub p k]) (repeat 0%nat n)) 0 r'.
Proof.
  intros (n & r' & E). destruct (sub_step h cs p k) as [(r & -> & _)|Es]; [exists n, r'; exact E|].
  exists (Datatypes.S n), r'. cbn [repeat cmoves]. rewrite cmove_one, Es. exact E.
Qed.
Lemma sub_ends {A} (p : prog (list answer)) (k : res (list answer) -> cprog A) : forall h cs,
  (forall r h, exists n r', finished (cmoves (mkCW h cs [k r]) (repeat 0%nat n)) 0 r') ->
  exists n r', finished (cmoves (mkCW h cs [Sub p k]) (repeat 0%nat n)) 0 r'.
Proof.
  induction p as [r|s i p' IH|s i p' IH|s i x p' IH|s i x p' IH|l p' IH|l p' IH|d p' IH|d s p' IH]; intros h cs H.
  { apply sub_done. exact H. }
  all: apply sub_go.
  all: try (cbn [step]; unfold goon; match goal with |- context [match ?m with (_, _) => _ end] => destruct m as [[y|e|e] h'] end; cbn [fst snd]; try (apply IH; exact H); apply sub_done; exact H).
Qed.
Lemma one_ends {A} (p : cprog A) : forall h cs, exists n r, finished (cmoves (mkCW h cs [p]) (repeat 0%nat n)) 0 r.
Proof.
  induction p as [r|p k IH|c k IH|c x k IH]; intros h cs.
  - exists 0%nat, r. reflexivity.
  - apply sub_ends. intros. apply IH.
  - destruct (IH (cell cs c) h cs) as (n & r & E). exists (Datatypes.S n), r. cbn [repeat cmoves]. rewrite cmove_one. exact E.
  - destruct (IH tt h (HeapCo.put cs c (Some x))) as (n & r & E). exists (Datatypes.S n), r. cbn [repeat cmoves]. rewrite cmove_one. exact E.
Qed.

(** ** What a program with cells does, step by step *)
Definition cwp {A} (p : cprog A) (h : heap) (cs : list (option HMat)) (Q : A -> heap -> list (option HMat) -> Prop) : Prop :=
  match crun p h cs with (Ok a, h', cs') => Q a h' cs' | _ => False end.
Lemma cwp_bind {A B} (p : cprog A) (f : A -> cprog B) Q : forall h cs,
  cwp p h cs (fun a h cs => cwp (f a) h cs Q) -> cwp (cbind p f) h cs Q.
Proof.
  unfold cwp. induction p as [r|p k IH|c k IH|c x k IH]; intros h cs H; cbn [cbind crun] in *.
  - destruct r; [exact H|contradiction..].
  - destruct (run p h) as [r h']. apply IH. exact H.
  - apply IH. exact H.
  - apply IH. exact H.
Qed.
Lemma cwp_weaken {A} (p : cprog A) h cs (Q Q' : A -> heap -> list (option HMat) -> Prop) : cwp p h cs Q -> (forall a h cs, Q a h cs -> Q' a h cs) -> cwp p h cs Q'.
Proof. unfold cwp. destruct (crun p h cs) as [[[a|e|e] h'] cs']; auto. Qed.
Lemma cwp_for (I : Z -> heap -> list (option HMat) -> Prop) lo hi body : forall h cs, lo <= hi -> I lo h cs ->
  (forall i h cs, lo <= i < hi -> I i h cs -> cwp (body i) h cs (fun _ => I (i + 1))) -> cwp (cfor lo hi body) h cs (fun _ => I hi).
Proof.
  unfold cfor. remember (Z.to_nat (hi - lo)) as n eqn:En. revert lo En. induction n as [|n IH]; intros lo En h cs Hl H0 Hs.
  - replace hi with lo by lia. exact H0.
  - cbn [cup]. apply cwp_bind. eapply cwp_weaken; [apply Hs; [lia|exact H0]|]. intros [] h1 cs1 H1. apply (IH (lo + 1)); [lia|lia|exact H1|].
    intros i h2 cs2 Hi. apply Hs. lia.
Qed.

(** ** The matrix that is being filled *)
Definition Root (h0 : heap) (x : HMat) (n : Z) (h : heap) (g : Z -> Z -> F) : Prop :=
  exists m, RootI h0 x n n h m /\ general m /\ MatIs m n n g.
Lemma Root_ext h0 x n h g g' : Root h0 x n h g -> (forall i j, 0 <= i < n -> 0 <= j < n -> g i j = g' i j) -> Root h0 x n h g'.
Proof. intros (m & H1 & H2 & H3) H. exists m. split; [auto|]. split; [auto|]. eapply MatIs_ext; eauto. Qed.
Lemma Root_is h0 x n h g : Root h0 x n h g -> HMatIs h x n n g /\ Ext h0 h.
Proof.
  intros (m & H1 & H2 & H3). split; [|eapply RootI_ext; eauto]. destruct H1 as [_ H1].
  destruct (RootI_is h0 x n n h m (conj (ex_intro _ g H3) H1)) as (f & Hf & HX).
  destruct (MatIs_unique _ _ _ _ _ _ _ H3 Hf) as (_ & _ & E). 
  revert HX. destruct x as [o|s|hb]; cbn [HMatIs].
  - intros (N & R1 & R2 & d & D1 & D2 & D3). repeat (split; [auto|]). exists d. repeat (split; [auto|]). intros i j Hi Hj. rewrite E by auto. auto.
  - destruct m; contradiction.
  - intros (bl & B1 & B2 & B3 & B4 & B5 & B6). exists bl. do 5 (split; [auto|]). eapply MatIs_ext; [exact B6|]. intros. symmetry. auto.
Qed.
Lemma root_zero h n : 1 <= n -> exists x h', h_NewRealMatrixWithDimension n n h = (Ok x, h') /\ Root h x n h' (fun _ _ => fzero).
Proof.
  intros Hn. pose proof (root_new h n n) as H. destruct (new_zero n n Hn Hn) as (_ & _ & m & E & Hg & Hm). unfold sim in H. rewrite E in H.
  destruct (h_NewRealMatrixWithDimension n n h) as [[x|e|e] h']; [|contradiction..]. exists x, h'. split; [reflexivity|]. exists m. auto.
Qed.
Lemma root_put h0 x n h g i j v : Root h0 x n h g -> 0 <= i < n -> 0 <= j < n -> exists h', hm_SetEntry x i j v h = (Ok tt, h') /\ Root h0 x n h' (tset g i j v).
Proof.
  intros (m & H1 & H2 & H3) Hi Hj. pose proof (root_set _ _ _ _ _ _ i j v H1 Hi Hj) as H. destruct (m_SetEntry_ok m n n g i j v H2 H3 Hi Hj) as (m' & E & Hg & Hm).
  unfold sim in H. rewrite E in H. destruct (hm_SetEntry x i j v h) as [[[]|e|e] h']; [|contradiction..]. exists h'. split; [reflexivity|]. exists m'. auto.
Qed.
Lemma own_cell (cs : list (option HMat)) c x : (c < length cs)%nat -> cell (HeapCo.put cs c (Some x)) c = Some x.
Proof.
  intros Hc. unfold cell, HeapCo.put. rewrite app_nth2; rewrite firstn_length_le by lia; [|lia]. rewrite Nat.sub_diag. reflexivity.
Qed.
Lemma cwp_new c n h cs : 1 <= n -> (c < length cs)%nat ->
  cwp (keep_new c n) h cs (fun _ h' cs' => exists x, Root h x n h' (fun _ _ => fzero) /\ cs' = HeapCo.put cs c (Some x)).
Proof.
  intros Hn Hc. destruct (root_zero h n Hn) as (x & h' & E & HR). unfold cwp, keep_new. cbn [crun]. rewrite run_bind. unfold mbind. rewrite same_h_NewRealMatrixWithDimension, E. cbn [run pret crun]. eauto.
Qed.
Lemma cwp_set c h0 n x h cs g i j p v : cell cs c = Some x -> Root h0 x n h g -> 0 <= i < n -> 0 <= j < n -> run p h = (Ok v, h) ->
  cwp (cell_set c i j p) h cs (fun _ h' cs' => Root h0 x n h' (tset g i j v) /\ cs' = cs).
Proof.
  intros Hx HR Hi Hj Hp. destruct (root_put h0 x n h g i j v HR Hi Hj) as (h' & E & HR'). unfold cwp, cell_set. cbn [crun]. rewrite Hx. cbn [crun].
  rewrite run_bind. unfold mbind. rewrite Hp. rewrite run_bind. unfold mbind. rewrite same_hm_SetEntry, E. cbn [run pret crun]. auto.
Qed.
Lemma run_lu h0 h o n f i j : HTab h0 o n n f -> Ext h0 h -> 0 <= i < n -> 0 <= j < n -> run (p_rd2 o i j) h = (Ok (f i j), h).
Proof.
  intros (_ & _ & _ & d & D1 & _ & D3) He Hi Hj. rewrite same_rd2. eapply runs_rd2; [eapply MRep_ext; eauto|auto].
Qed.
Ltac zs := unfold tset; repeat match goal with |- context [?a =? ?b] => destruct (Z.eqb_spec a b) | |- context [?a <? ?b] => destruct (Z.ltb_spec a b) | |- context [?a <=? ?b] => destruct (Z.leb_spec a b) end; cbn [andb]; subst; try lia; auto.
Definition Inv (h0 : heap) (cs : list (option HMat)) (c : nat) (x : HMat) (n : Z) (g : Z -> Z -> F) (h : heap) (cs' : list (option HMat)) : Prop :=
  Root h0 x n h g /\ cs' = HeapCo.put cs c (Some x).
Lemma inv_ext h0 cs c x n g g' h cs' : Inv h0 cs c x n g h cs' -> (forall i j, 0 <= i < n -> 0 <= j < n -> g i j = g' i j) -> Inv h0 cs c x n g' h cs'.
Proof. intros [H1 H2] H. split; [eapply Root_ext; eauto|auto]. Qed.
Lemma inv_set h0 cs c x n g h cs' i j p v : (c < length cs)%nat -> Inv h0 cs c x n g h cs' -> 0 <= i < n -> 0 <= j < n -> (Ext h0 h -> run p h = (Ok v, h)) ->
  cwp (cell_set c i j p) h cs' (fun _ => Inv h0 cs c x n (tset g i j v)).
Proof.
  intros Hc [H1 ->] Hi Hj Hp. eapply cwp_weaken.
  - eapply cwp_set; [|exact H1|exact Hi|exact Hj|apply Hp; eapply Root_is; exact H1]. rewrite own_cell by auto. reflexivity.
  - intros a h' cs' [R1 R2]. split; auto.
Qed.
Lemma inv_row h0 cs c x n o f i lo hi g h cs' : (c < length cs)%nat -> HTab h0 o n n f -> Inv h0 cs c x n g h cs' -> 0 <= i < n -> 0 <= lo <= hi -> hi <= n ->
  cwp (cfor lo hi (fun j => cell_set c i j (p_rd2 o i j))) h cs' (fun _ => Inv h0 cs c x n (fun a b => if (a =? i) && (lo <=? b) && (b <? hi) then f a b else g a b)).
Proof.
  intros Hc Hf H0 Hi Hlo Hhi. apply (cwp_for (fun k => Inv h0 cs c x n (fun a b => if (a =? i) && (lo <=? b) && (b <? k) then f a b else g a b))); [lia| |].
  - eapply inv_ext; [exact H0|]. intros a b Ha Hb. cbn beta. zs.
  - intros j h1 cs1 Hj H1. eapply cwp_weaken.
    + eapply inv_set; [exact Hc|exact H1|lia|lia|]. intros He. eapply run_lu; [exact Hf|exact He|lia|lia].
    + intros [] h2 cs2 H2. eapply inv_ext; [exact H2|]. intros a b Ha Hb. cbn beta. zs.
Qed.
(** What the caller has at the end. *)
Definition first_call (q : accessor) (h : heap) (cs : list (option HMat)) (c : nat) (n : Z) (g : Z -> Z -> F) : Prop :=
  cwp (access q) h cs (fun l h' cs' => exists x, l = [AMat x] /\ Inv h cs c x n g h' cs').
Lemma give_end h cs c x n g h' cs' : (c < length cs)%nat -> Inv h cs c x n g h' cs' ->
  cwp (give c) h' cs' (fun l h1 cs1 => exists x, l = [AMat x] /\ Inv h cs c x n g h1 cs1).
Proof.
  intros Hc [H1 ->]. unfold cwp, give. cbn [crun]. rewrite own_cell by auto. cbn [held]. exists x. split; [reflexivity|]. split; auto.
Qed.
Section LU.
Variable h : heap.
Variable cs : list (option HMat).
Variable c : nat.
Variable s : HLU.
Variable f : Z -> Z -> F.
Hypothesis Hc : (c < length cs)%nat.
Hypothesis He : cell cs c = None.
Hypothesis Hs : hlu_singular s = false.
Let n := len (hlu_pivot s).
Hypothesis Hf : HTab h (hlu_lu s) n n f.
Lemma n_pos : 1 <= n. Proof. destruct Hf as (_ & H & _). exact H. Qed.
Lemma first_L : first_call (LuL c s) h cs c n (unit_lower f).
Proof.
  unfold first_call, access, c_luL. unfold cwp. cbn [crun]. rewrite He, Hs. fold n. change (cwp (cbind (cbind (keep_new c n) (fun _ => cfor 0 n (fun i =>
    cbind (cfor 0 i (fun j => cell_set c i j (p_rd2 (hlu_lu s) i j))) (fun _ => cell_set c i i (pret fone))))) (fun _ => give c)) h cs (fun l h' cs' => exists x, l = [AMat x] /\ Inv h cs c x n (unit_lower f) h' cs')).
  apply cwp_bind, cwp_bind. pose proof n_pos as Hn. eapply cwp_weaken; [apply cwp_new; auto|]. intros [] h1 cs1 (x & HR & E1). cbn beta.
  eapply cwp_weaken.
  - apply (cwp_for (fun k => Inv h cs c x n (fun a b => if a <? k then unit_lower f a b else fzero))); [lia| |].
    + split; [|exact E1]. eapply Root_ext; [exact HR|]. intros a b Ha Hb. cbn beta. zs.
    + intros i h2 cs2 Hi H2. apply cwp_bind. eapply cwp_weaken; [eapply (inv_row h cs c x n _ f i 0 i); [exact Hc|exact Hf|exact H2|lia|lia|lia]|].
      intros [] h3 cs3 H3. eapply cwp_weaken; [eapply (inv_set h cs c x n _ h3 cs3 i i (pret fone) fone); [exact Hc|exact H3|lia|lia|reflexivity]|].
      intros [] h4 cs4 H4. eapply inv_ext; [exact H4|]. intros a b Ha Hb. cbn beta. unfold unit_lower. zs.
  - intros [] h2 cs2 H2. cbn beta. eapply give_end; [exact Hc|]. eapply inv_ext; [exact H2|]. intros a b Ha Hb. cbn beta. zs.
Qed.
Lemma first_U : first_call (LuU c s) h cs c n (upper f).
Proof.
  unfold first_call, access, c_luU. unfold cwp. cbn [crun]. rewrite He, Hs. fold n. change (cwp (cbind (cbind (keep_new c n) (fun _ => cfor 0 n (fun i => cfor i n (fun j => cell_set c i j (p_rd2 (hlu_lu s) i j))))) (fun _ => give c)) h cs (fun l h' cs' => exists x, l = [AMat x] /\ Inv h cs c x n (upper f) h' cs')).
  apply cwp_bind, cwp_bind. pose proof n_pos as Hn. eapply cwp_weaken; [apply cwp_new; auto|]. intros [] h1 cs1 (x & HR & E1). cbn beta.
  eapply cwp_weaken.
  - apply (cwp_for (fun k => Inv h cs c x n (fun a b => if a <? k then upper f a b else fzero))); [lia| |].
    + split; [|exact E1]. eapply Root_ext; [exact HR|]. intros a b Ha Hb. cbn beta. zs.
    + intros i h2 cs2 Hi H2. eapply cwp_weaken; [eapply (inv_row h cs c x n _ f i i n); [exact Hc|exact Hf|exact H2|lia|lia|lia]|].
      intros [] h3 cs3 H3. eapply inv_ext; [exact H3|]. intros a b Ha Hb. cbn beta. unfold upper. zs.
  - intros [] h2 cs2 H2. cbn beta. eapply give_end; [exact Hc|]. eapply inv_ext; [exact H2|]. intros a b Ha Hb. cbn beta. zs.
Qed.
Variable p : Z -> Z.
Hypothesis Hp : forall i, 0 <= i < n -> zget (hlu_pivot s) i = Ok (p i) /\ 0 <= p i < n.
Lemma first_P : first_call (LuP c s) h cs c n (rows_of p).
Proof.
  unfold first_call, access, c_luP. unfold cwp. cbn [crun]. rewrite He, Hs. fold n. match goal with |- context [cbind (cbind (keep_new c n) ?k) ?k'] =>
    change (cwp (cbind (cbind (keep_new c n) k) k') h cs (fun l h' cs' => exists x, l = [AMat x] /\ Inv h cs c x n (rows_of p) h' cs')) end.
  apply cwp_bind, cwp_bind. pose proof n_pos as Hn. eapply cwp_weaken; [apply cwp_new; auto|]. intros [] h1 cs1 (x & HR & E1). cbn beta.
  eapply cwp_weaken.
  - apply (cwp_for (fun k => Inv h cs c x n (fun a b => if a <? k then rows_of p a b else fzero))); [lia| |].
    + split; [|exact E1]. eapply Root_ext; [exact HR|]. intros a b Ha Hb. cbn beta. zs.
    + intros i h2 cs2 Hi H2. cbn beta. destruct (Hp i Hi) as [Ei Hi']. rewrite Ei.
      eapply cwp_weaken; [eapply (inv_set h cs c x n _ h2 cs2 i _ (pret fone) fone); [exact Hc|exact H2|lia|lia|reflexivity]|].
      intros [] h4 cs4 H4. eapply inv_ext; [exact H4|]. intros a b Ha Hb. cbn beta. unfold rows_of. zs.
  - intros [] h2 cs2 H2. cbn beta. eapply give_end; [exact Hc|]. eapply inv_ext; [exact H2|]. intros a b Ha Hb. cbn beta. zs.
Qed.
End LU.
Lemma first_caller q h cs c n g order : (c < length cs)%nat -> wfheap h -> first_call q h cs c n g ->
  (forall r, finished (cmoves (begin h cs [] [q]) order) 0 r -> exists x, r = Ok [AMat x] /\ HMatIs (cmem (cmoves (begin h cs [] [q]) order)) x n n g /\
    cell (cells (cmoves (begin h cs [] [q]) order)) c = Some x /\ only_adds h (cmem (cmoves (begin h cs [] [q]) order))) /\
  exists k r, finished (cmoves (begin h cs [] [q]) (repeat 0%nat k)) 0 r.
Proof.
  intros Hc Hw H. unfold begin. cbn [map app]. split; [|apply one_ends]. intros r Hr. apply single_end in Hr. unfold first_call, cwp in H. rewrite Hr in H.
  destruct r as [l|e|e]; [|contradiction..]. destruct H as (x & -> & HR & Ec). exists x. destruct (Root_is _ _ _ _ _ HR) as [R1 R2].
  split; [reflexivity|]. split; [exact R1|]. split; [|apply Ext_only_adds; auto]. rewrite Ec, own_cell by auto. reflexivity.
Qed.
(** The three together. *)
Lemma alone_LU h cs c s f g q order : ready h [] -> (c < length cs)%nat -> cell cs c = None -> hlu_singular s = false ->
  HTab h (hlu_lu s) (len (hlu_pivot s)) (len (hlu_pivot s)) f ->
  (q = LuL c s /\ g = unit_lower f) \/ (q = LuU c s /\ g = upper f) \/
  (q = LuP c s /\ exists p, g = rows_of p /\ forall i, 0 <= i < len (hlu_pivot s) -> zget (hlu_pivot s) i = Ok (p i) /\ 0 <= p i < len (hlu_pivot s)) ->
  let w := cmoves (begin h cs [] [q]) order in
  (forall r, finished w 0 r -> exists x, r = Ok [AMat x] /\ HMatIs (cmem w) x (len (hlu_pivot s)) (len (hlu_pivot s)) g /\
    cell (cells w) c = Some x /\ only_adds h (cmem w)) /\
  exists k r, finished (cmoves (begin h cs [] [q]) (repeat 0%nat k)) 0 r.
Proof.
  intros [Hw _] Hc He Hs Hf Hq. apply first_caller; auto. destruct Hq as [[-> ->]|[[-> ->]|(-> & p & -> & Hp)]];
    [apply first_L|apply first_U|eapply first_P]; eauto.
Qed.
End Alone.

(** Sums, differences and products that goroutines compute at the same time. *)
From Coq Require Import ZArith List Lia Bool.
From Verif Require Import Base BaseLemmas Scalar Vector Matrix VecSpec MatSpec Heap HeapSpec HeapDec HeapRefSpec HeapRef6 HeapArith HeapArithMain HeapArithProps HeapBlkArith HeapBlkArithSpec HeapBlkArithMain HeapBlkArithProps
  HeapCo HeapCoCode HeapCoSpec HeapCoMain.
Import ListNotations.
Open Scope Z_scope.

Section HeapCoArith.
Context {O : Ops}.

Lemma made_of h gs order i c q (m : M slice) r k f : ready h gs -> nth_error gs i = Some [Make c None None] ->
  alone c = mbind m (fun d => ret (AMat (HA d))) -> returns m h (fun h' o => HTab h' o r k f) ->
  ended (moves (launch h gs) order) i q -> has_made (moves (launch h gs) order) q r k f.
Proof.
  intros Hr Hi Ha (o & h' & E & (_ & _ & _ & d & M1 & R1 & V1)) He. pose proof (co_alone h gs order i _ q Hr Hi He) as X.
  assert (G : go_alone [Make c None None] [] h = (Ok [AMat (HA o)], h')).
  { cbn [go_alone the_call pick app]. unfold the_call, pick. rewrite Ha. unfold mbind. rewrite E. reflexivity. }
  rewrite G in X. cbn [fst snd outcome map seen] in X. destruct q as [l|e|e]; cbn [outcome] in X; try discriminate. injection X as X.
  destruct l as [|y [|]]; cbn [map] in X; try discriminate. injection X as X. destruct y as [x|s|s|[s|s|s]|s|s|s|s|s]; cbn [seen] in X; try discriminate.
  injection X as X1 X2 X3. exists s. split; [reflexivity|].
  assert (Ev : view (memory (moves (launch h gs) order)) (OM s) = d).
  { rewrite <- (MRep_view _ _ _ M1). cbn [view]. apply (f_equal (map snd)) in X3. rewrite !map_map in X3. exact X3. }
  rewrite Ev. split; auto.
Qed.
Lemma co_arith h gs order i q a m f g x r n c : ready h gs -> HTab h a r n f -> ended (moves (launch h gs) order) i q ->
  (HMatIs h m r n g -> nth_error gs i = Some [Make (CPlus a m) None None] ->
    has_made (moves (launch h gs) order) q r n (fun i j => (f i j + g i j)%f)) /\
  (HMatIs h m r n g -> nth_error gs i = Some [Make (CMinus a m) None None] ->
    has_made (moves (launch h gs) order) q r n (fun i j => (f i j - g i j)%f)) /\
  (HMatIs h m n c g -> nth_error gs i = Some [Make (CTimes a m) None None] ->
    has_made (moves (launch h gs) order) q r c (fun i j => fsum n (fun k => (f i k * g k j)%f))) /\
  (nth_error gs i = Some [Make (CScale a x) None None] ->
    has_made (moves (launch h gs) order) q r n (fun i j => (f i j * x)%f)).
Proof.
  intros Hr Ha He. split; [|split; [|split]]; intros.
  - eapply made_of; [exact Hr|eassumption|reflexivity| |exact He]. apply m2_Add; auto.
  - eapply made_of; [exact Hr|eassumption|reflexivity| |exact He]. apply m2_Subtract; auto.
  - eapply made_of; [exact Hr|eassumption|reflexivity| |exact He]. apply m2_Multiply; auto.
  - eapply made_of; [exact Hr|eassumption|reflexivity| |exact He]. apply m2_ScalarMultiply; auto.
Qed.
Lemma blocks_of h gs order i c q (m : M HBlk) r k f : ready h gs -> nth_error gs i = Some [Make c None None] ->
  alone c = mbind m (fun d => ret (AMat (HB d))) -> returns m h (fun h' o => HBlkIs h' o r k f) ->
  ended (moves (launch h gs) order) i q -> has_made_blocks (moves (launch h gs) order) q r k f.
Proof.
  intros Hr Hi Ha (o & h' & E & (d & M1 & D1 & D2 & D3 & D4 & V1)) He. pose proof (co_alone h gs order i _ q Hr Hi He) as X.
  assert (G : go_alone [Make c None None] [] h = (Ok [AMat (HB o)], h')).
  { cbn [go_alone the_call pick app]. unfold the_call, pick. rewrite Ha. unfold mbind. rewrite E. reflexivity. }
  rewrite G in X. cbn [fst snd outcome map seen] in X. destruct q as [l|e|e]; cbn [outcome] in X; try discriminate. injection X as X.
  destruct l as [|y [|]]; cbn [map] in X; try discriminate. injection X as X. destruct y as [x|s|s|[s|s|s]|s|s|s|s|s]; cbn [seen] in X; try discriminate.
  injection X as X1 X2 X3 X4 X5 X6 X7. exists s. split; [reflexivity|]. split; [congruence|]. split; [congruence|].
  assert (Ev : view (memory (moves (launch h gs) order)) (OM (hb_blocks s)) = d).
  { rewrite <- (MRep_view _ _ _ M1). cbn [view]. apply (f_equal (map snd)) in X3. rewrite !map_map in X3. exact X3. }
  rewrite Ev. replace (hb_blockRows s) with (nblk r) by congruence. replace (hb_blockColumns s) with (nblk k) by congruence. exact V1.
Qed.
Lemma co_blocks h gs order i q b m f g x r n c : ready h gs -> HBlkIs h b r n f -> ended (moves (launch h gs) order) i q ->
  (HMatIs h m r n g -> nth_error gs i = Some [Make (CBPlus b m) None None] ->
    has_made_blocks (moves (launch h gs) order) q r n (fun i j => (f i j + g i j)%f)) /\
  (HMatIs h m r n g -> nth_error gs i = Some [Make (CBMinus b m) None None] ->
    has_made_blocks (moves (launch h gs) order) q r n (fun i j => (f i j - g i j)%f)) /\
  (HMatIs h m n c g -> nth_error gs i = Some [Make (CBTimes b m) None None] ->
    has_made_blocks (moves (launch h gs) order) q r c (fun i j => sum_blocks (match m with HB _ => sum_fours | _ => fsum end) n (fun k => (f i k * g k j)%f))) /\
  (nth_error gs i = Some [Make (CBScale b x) None None] ->
    has_made_blocks (moves (launch h gs) order) q r n (fun i j => (f i j * x)%f)).
Proof.
  intros Hr Ha He. split; [|split; [|split]]; intros.
  - eapply blocks_of; [exact Hr|eassumption|reflexivity| |exact He]. eapply (mb_entries h b m r n f g x); eauto.
  - eapply blocks_of; [exact Hr|eassumption|reflexivity| |exact He]. eapply (mb_entries h b m r n f g x); eauto.
  - eapply blocks_of; [exact Hr|eassumption|reflexivity| |exact He]. apply mb_product; auto.
  - eapply blocks_of; [exact Hr|eassumption|reflexivity| |exact He]. apply (mb_entries h b (HB b) r n f f x); auto.
Qed.
(** Vectors and numbers. *)
Lemma slice_of h gs order i c q (m : M slice) n g : ready h gs -> nth_error gs i = Some [Make c None None] ->
  alone c = mbind m (fun d => ret (ASlice d)) -> HeapSpec.fresh m OF h (fun h' o => HVecIs h' o n g) ->
  ended (moves (launch h gs) order) i q -> has_made_vector (moves (launch h gs) order) q n g.
Proof.
  intros Hr Hi Ha (o & h' & E & (l & V1 & L1 & G1) & _) He. pose proof (co_alone h gs order i _ q Hr Hi He) as X.
  assert (G : go_alone [Make c None None] [] h = (Ok [ASlice o], h')).
  { cbn [go_alone the_call pick app]. unfold the_call, pick. rewrite Ha. unfold mbind. rewrite E. reflexivity. }
  rewrite G in X. cbn [fst snd outcome map seen] in X. destruct q as [k|e|e]; cbn [outcome] in X; try discriminate. injection X as X.
  destruct k as [|y [|]]; cbn [map] in X; try discriminate. injection X as X. destruct y as [x|s|s|[s|s|s]|s|s|s|s|s]; cbn [seen] in X; try discriminate.
  injection X as X1 X2 X3. exists s, l. split; [reflexivity|]. split; [|auto]. cbn [view]. destruct V1 as [V1 _]. congruence.
Qed.
Lemma number_of h gs order i c q (m : M F) x : ready h gs -> nth_error gs i = Some [Make c None None] ->
  alone c = mbind m (fun d => ret (ANum d)) -> m h = (Ok x, h) -> ended (moves (launch h gs) order) i q -> q = Ok [ANum x].
Proof.
  intros Hr Hi Ha E He. pose proof (co_alone h gs order i _ q Hr Hi He) as X.
  assert (G : go_alone [Make c None None] [] h = (Ok [ANum x], h)).
  { cbn [go_alone the_call pick app]. unfold the_call, pick. rewrite Ha. unfold mbind. rewrite E. reflexivity. }
  rewrite G in X. cbn [fst snd outcome map seen] in X. destruct q as [k|e|e]; cbn [outcome] in X; try discriminate. injection X as X.
  destruct k as [|y [|]]; cbn [map] in X; try discriminate. injection X as X. destruct y as [y|s|s|[s|s|s]|s|s|s|s|s]; cbn [seen] in X; try discriminate.
  congruence.
Qed.
Lemma co_vectors h gs order i q a b f v w g k r c : ready h gs -> HVecIs h v c g -> HVecIs h w r k -> ended (moves (launch h gs) order) i q ->
  (HTab h a r c f -> nth_error gs i = Some [Make (COperate a (HArr v)) None None] ->
    has_made_vector (moves (launch h gs) order) q r (fun i => fsum c (fun j => (f i j * g j)%f))) /\
  (HTab h a r c f -> nth_error gs i = Some [Make (CPreMultiply a (HArr w)) None None] ->
    has_made_vector (moves (launch h gs) order) q c (fun j => fsum r (fun i => (f i j * k i)%f))) /\
  (HBlkIs h b r c f -> nth_error gs i = Some [Make (CBOperate b (HArr v)) None None] ->
    has_made_vector (moves (launch h gs) order) q r (fun i => sum_blocks sum_fours c (fun j => (f i j * g j)%f))) /\
  (HBlkIs h b r c f -> nth_error gs i = Some [Make (CBPreMultiply b (HArr w)) None None] ->
    has_made_vector (moves (launch h gs) order) q c (fun j => sum_blocks sum_fours r (fun i => (f i j * k i)%f))).
Proof.
  intros Hr Hv Hw He. pose proof (proj1 Hr) as W.
  split; [|split; [|split]]; intros Hm Hi; (eapply slice_of; [exact Hr|exact Hi|reflexivity| |exact He]).
  - apply (arith_vectors h a r c f v w g k W Hm Hv Hw).
  - apply (arith_vectors h a r c f v w g k W Hm Hv Hw).
  - apply (blk_vectors h b r c f v w g k W Hm Hv Hw).
  - apply (blk_vectors h b r c f v w g k W Hm Hv Hw).
Qed.
Lemma co_shifts h gs order i q a b f x r c : ready h gs -> ended (moves (launch h gs) order) i q ->
  (HTab h a r c f -> nth_error gs i = Some [Make (CShift a x) None None] ->
    has_made (moves (launch h gs) order) q r c (fun i j => (f i j + x)%f)) /\
  (HBlkIs h b r c f -> nth_error gs i = Some [Make (CBShift b x) None None] ->
    has_made_blocks (moves (launch h gs) order) q r c (fun i j => (f i j + x)%f)) /\
  (HTab h a r r f -> nth_error gs i = Some [Make (CTrace a) None None] -> q = Ok [ANum (fsum r (fun i => f i i))]) /\
  (HBlkIs h b r r f -> nth_error gs i = Some [Make (CBTrace b) None None] -> q = Ok [ANum (fsum r (fun i => f i i))]).
Proof.
  intros Hr He. split; [|split; [|split]]; intros Hm Hi.
  - eapply made_of; [exact Hr|exact Hi|reflexivity| |exact He]. apply m2_ScalarAdd; auto.
  - eapply blocks_of; [exact Hr|exact Hi|reflexivity| |exact He]. apply (mb_entries h b (HB b) r c f f x); auto.
  - eapply number_of; [exact Hr|exact Hi|reflexivity| |exact He]. apply m2_Trace; auto.
  - eapply number_of; [exact Hr|exact Hi|reflexivity| |exact He]. apply blk_trace; auto.
Qed.
End HeapCoArith.

(** The vocabulary of the theorems about goroutines. *)
From Coq Require Import ZArith List Lia Bool.
From Verif Require Import Base Scalar Vector Matrix MatSpec Heap HeapSpec HeapDec HeapSolve HeapArith HeapBlkArith HeapCo HeapCoCode.
Import ListNotations.
Open Scope Z_scope.

Section Spec.
Context {O : Ops}.
(** A call as it is made when nothing else happens: the computations of Heap.v,
    HeapDec.v, HeapSolve.v, HeapArith.v and HeapBlkArith.v. *)
Definition alone (c : call) : M answer :=
  match c with
  | CLU x t => let! d := h_NewLU x t in ret (ALU d)
  | CCholesky x rel pos => let! d := h_NewCholesky x rel pos in ret (ATable d)
  | CQR x => let! d := h_NewQR x in ret (AQR d)
  | CRRQR x => let! d := h_NewRRQR x in ret (ARR d)
  | CHessenberg x => let! d := h_NewHessenberg x in ret (AHs d)
  | CTriDiagonal x => let! d := h_NewTriDiagonal x in ret (ATd d)
  | CBiDiagonal x => let! d := h_NewBiDiagonal x in ret (ATd d)
  | CRectChol x small => let! d := h_NewRectChol x small in ret (AMat d)
  | CLUVector s b => let! d := hlus_SolveVector s b in ret (ASlice d)
  | CLUMatrix s b => let! d := hlus_SolveMatrix s b in ret (AMat d)
  | CLUInverse s => let! d := hlus_Inverse s in ret (AMat d)
  | CChVector s b => let! d := hchs_SolveVector s b in ret (ASlice d)
  | CChMatrix s b => let! d := hchs_SolveMatrix s b in ret (AMat d)
  | CChInverse s => let! d := hchs_Inverse s in ret (AMat d)
  | CQRVector s t b => let! d := hqrs_SolveVector s t b in ret (ASlice d)
  | CQRMatrix s t b => let! d := hqrs_SolveMatrix s t b in ret (AMat d)
  | CQRInverse s t => let! d := hqrs_Inverse s t in ret (AMat d)
  | CVAt v i => let! x := hv_At v i in ret (ANum x)
  | CVCopy v => let! d := h_NewArrayRealVectorCopy v in ret (ASlice d)
  | CVFromSlice v => let! d := h_NewArrayRealVectorFromSlice v in ret (ASlice d)
  | CVToArray v => let! d := hv_ToArray v in ret (ASlice d)
  | CVSub v i n => let! d := h_SubVector v i n in ret (ASlice d)
  | CVFromTwo v w => let! d := h_FromTwo v w in ret (ASlice d)
  | CVAppend v x => let! d := h_Append v x in ret (ASlice d)
  | CVAdd v w => let! d := h_Add v w in ret (ASlice d)
  | CAt x i j => let! y := hm_At x i j in ret (ANum y)
  | CData x => let! d := hm_Data x in ret (ATable d)
  | CTranspose x => let! d := hm_Transpose x in ret (AMat d)
  | CFromSlices d => let! d := h_NewRealMatrixFromSlices d in ret (AMat d)
  | CCopy (HA a) => let! d := h2_Copy a in ret (AMat (HA d))
  | CCopy (HD a) => let! d := hd_Copy a in ret (AMat (HD d))
  | CCopy (HB b) => let! d := hb_Copy b in ret (AMat (HB d))
  | CRow (HA a) i => let! d := h2_RowAt a i in ret (ASlice d)
  | CRow (HD a) i => let! d := hd_RowAt a i in ret (ASlice d)
  | CRow (HB a) i => let! d := hb_RowAt a i in ret (ASlice d)
  | CColumn (HA a) j => let! d := h2_ColumnAt a j in ret (ASlice d)
  | CColumn (HD a) j => let! d := hd_ColumnAt a j in ret (ASlice d)
  | CColumn (HB a) j => let! d := hb_ColumnAt a j in ret (ASlice d)
  | CRowVector a i => let! d := h2_RowVectorAt a i in ret (ASlice d)
  | CColumnVector a j => let! d := h2_ColumnVectorAt a j in ret (ASlice d)
  | CSub a r0 r1 c0 c1 => let! d := h2_SubMatrix a r0 r1 c0 c1 in ret (AMat (HA d))
  | CSubBlock a r0 r1 c0 c1 => let! d := hb_SubMatrix a r0 r1 c0 c1 in ret (AMat (HB d))
  | CRowMatrix a i => let! d := h2_RowMatrixAt a i in ret (AMat (HA d))
  | CColumnMatrix a j => let! d := h2_ColumnMatrixAt a j in ret (AMat (HA d))
  | CPlus a m => let! d := h2_Add a m in ret (AMat (HA d))
  | CMinus a m => let! d := h2_Subtract a m in ret (AMat (HA d))
  | CTimes a m => let! d := h2_Multiply a m in ret (AMat (HA d))
  | CShift a x => let! d := h2_ScalarAdd a x in ret (AMat (HA d))
  | CScale a x => let! d := h2_ScalarMultiply a x in ret (AMat (HA d))
  | CTrace a => let! x := h2_Trace a in ret (ANum x)
  | COperate a v => let! d := h2_OperateVector a v in ret (ASlice d)
  | CPreMultiply a v => let! d := h2_PreMultiplyVector a v in ret (ASlice d)
  | CDPlus a m => let! d := hd_Add a m in ret (AMat (HD d))
  | CDMinus a m => let! d := hd_Subtract a m in ret (AMat (HD d))
  | CDTimes a m => let! d := hd_Multiply a m in ret (AMat d)
  | CDShift a x => let! d := hd_ScalarAdd a x in ret (AMat (HD d))
  | CDScale a x => let! d := hd_ScalarMultiply a x in ret (AMat (HD d))
  | CDOperate a v => let! d := hd_OperateVector a v in ret (ASlice d)
  | CDPreMultiply a v => let! d := hd_PreMultiplyVector a v in ret (ASlice d)
  | CBPlus a m => let! d := hb_Add a m in ret (AMat (HB d))
  | CBMinus a m => let! d := hb_Subtract a m in ret (AMat (HB d))
  | CBTimes a m => let! d := hb_Multiply a m in ret (AMat (HB d))
  | CBShift a x => let! d := hb_ScalarAdd a x in ret (AMat (HB d))
  | CBScale a x => let! d := hb_ScalarMultiply a x in ret (AMat (HB d))
  | CBTrace a => let! d := hb_Trace a in ret (ANum d)
  | CBOperate a v => let! d := hb_OperateVector a v in ret (ASlice d)
  | CBPreMultiply a v => let! d := hb_PreMultiplyVector a v in ret (ASlice d)
  end.
(** All that a goroutine does when nothing else happens. *)
Definition put (had : list answer) (n : nat) (i j : Z) (x : F) : M unit :=
  match nth_error had n with
  | Some (AMat m) => hm_SetEntry m i j x
  | Some (ASlice s) => h_SetEntry s i x
  | _ => ret tt
  end.
Fixpoint go_alone (ts : list task) (had : list answer) : M (list answer) :=
  match ts with
  | [] => ret had
  | Make c first second :: ts => let! a := alone (the_call c first second had) in go_alone ts (had ++ [a])
  | Put n i j x :: ts => let! _ := put had n i j x in go_alone ts had
  end.

(** ** Looking at results *)
(** What can be seen of a result in memory [h]: whether a slice is nil, its length
    and the numbers in it, and everything that is not a slice. *)
Definition see_vec (h : heap) (s : slice) : bool * Z * list F := (isnil s, sl_len s, cont h s).
Definition see_tab (h : heap) (o : slice) : bool * Z * list (bool * Z * list F) := (isnil o, sl_len o, map (see_vec h) (heads h o)).
Inductive sight :=
| SNum (x : F)
| SVec (v : bool * Z * list F)
| STab (o : bool * Z * list (bool * Z * list F))
| SArr2 (o : bool * Z * list (bool * Z * list F))
| SDiag (v : bool * Z * list F)
| SBlk (o : bool * Z * list (bool * Z * list F)) (rows columns blockRows blockColumns : Z)
| SLU (o : bool * Z * list (bool * Z * list F)) (pivot : list Z) (even singular : bool)
| SQR (o : bool * Z * list (bool * Z * list F)) (rDiag : bool * Z * list F)
| SRR (o : bool * Z * list (bool * Z * list F)) (rDiag : bool * Z * list F) (p : list Z)
| SHs (o : bool * Z * list (bool * Z * list F)) (ort : bool * Z * list F)
| STd (o : bool * Z * list (bool * Z * list F)) (main secondary : bool * Z * list F).
Definition seen (h : heap) (a : answer) : sight :=
  match a with
  | ANum x => SNum x
  | ASlice s => SVec (see_vec h s)
  | ATable o => STab (see_tab h o)
  | AMat (HA o) => SArr2 (see_tab h o)
  | AMat (HD d) => SDiag (see_vec h d)
  | AMat (HB b) => SBlk (see_tab h (hb_blocks b)) (hb_rows b) (hb_columns b) (hb_blockRows b) (hb_blockColumns b)
  | ALU d => SLU (see_tab h (hlu_lu d)) (hlu_pivot d) (hlu_even d) (hlu_singular d)
  | AQR d => SQR (see_tab h (hqr_qrt d)) (see_vec h (hqr_rDiag d))
  | ARR d => SRR (see_tab h (hrr_qrt d)) (see_vec h (hrr_rDiag d)) (hrr_p d)
  | AHs d => SHs (see_tab h (hhs_hv d)) (see_vec h (hhs_ort d))
  | ATd d => STd (see_tab h (htd_hv d)) (see_vec h (htd_main d)) (see_vec h (htd_sec d))
  end.
(** What can be seen of an outcome: the results, or the error or panic. *)
Definition outcome (h : heap) (q : res (list answer)) : res (list sight) :=
  match q with Ok l => Ok (map (seen h) l) | Err e => Err e | Panic e => Panic e end.

(** ** Goroutines and the memory they share *)
(** The objects that a call carries are in memory. *)
Definition vec_in (h : heap) (v : HVec) : Prop := match v with HArr s => exists_in h (OF s) | HOther _ => True end.
Definition mat_in (h : heap) (x : HMat) : Prop :=
  match x with HA o => exists_in h (OM o) | HD d => exists_in h (OF d) | HB b => exists_in h (OM (hb_blocks b)) end.
Definition qr_in (h : heap) (d : HQR) : Prop := exists_in h (OM (hqr_qrt d)) /\ exists_in h (OF (hqr_rDiag d)).
Definition call_in (h : heap) (c : call) : Prop :=
  match c with
  | CLU x _ | CCholesky x _ _ | CQR x | CRRQR x | CHessenberg x | CTriDiagonal x | CBiDiagonal x | CRectChol x _ => mat_in h x
  | CLUVector s b => exists_in h (OM (hlu_lu s)) /\ vec_in h b
  | CLUMatrix s b => exists_in h (OM (hlu_lu s)) /\ mat_in h b
  | CLUInverse s => exists_in h (OM (hlu_lu s))
  | CChVector s b => exists_in h (OM s) /\ vec_in h b
  | CChMatrix s b => exists_in h (OM s) /\ mat_in h b
  | CChInverse s => exists_in h (OM s)
  | CQRVector s _ b => qr_in h s /\ vec_in h b
  | CQRMatrix s _ b => qr_in h s /\ mat_in h b
  | CQRInverse s _ => qr_in h s
  | CVAt v _ | CVCopy v | CVToArray v => vec_in h v
  | CVFromSlice v | CVSub v _ _ | CVAppend v _ => exists_in h (OF v)
  | CVFromTwo v w => exists_in h (OF v) /\ exists_in h (OF w)
  | CVAdd v w => exists_in h (OF v) /\ vec_in h w
  | CAt x _ _ | CData x | CTranspose x | CCopy x | CRow x _ | CColumn x _ => mat_in h x
  | CSubBlock b _ _ _ _ => exists_in h (OM (hb_blocks b))
  | CFromSlices o | CRowVector o _ | CColumnVector o _ | CSub o _ _ _ _ | CRowMatrix o _ | CColumnMatrix o _ | CShift o _ | CScale o _ | CTrace o => exists_in h (OM o)
  | CPlus o m | CMinus o m | CTimes o m => exists_in h (OM o) /\ mat_in h m
  | COperate o v | CPreMultiply o v => exists_in h (OM o) /\ vec_in h v
  | CDPlus d m | CDMinus d m | CDTimes d m => exists_in h (OF d) /\ mat_in h m
  | CDShift d _ | CDScale d _ => exists_in h (OF d)
  | CDOperate d v | CDPreMultiply d v => exists_in h (OF d) /\ vec_in h v
  | CBPlus b m | CBMinus b m | CBTimes b m => exists_in h (OM (hb_blocks b)) /\ mat_in h m
  | CBShift b _ | CBScale b _ | CBTrace b => exists_in h (OM (hb_blocks b))
  | CBOperate b v | CBPreMultiply b v => exists_in h (OM (hb_blocks b)) /\ vec_in h v
  end.
(** Goroutines about to make their calls; the world after turns in some order. *)
Definition ready (h : heap) (gs : list (list task)) : Prop :=
  wfheap h /\ forall ts c first second, In ts gs -> In (Make c first second) ts -> call_in h c.
Definition launch (h : heap) (gs : list (list task)) : world (list answer) := mkWorld h (map (fun ts => go ts []) gs).
(** Goroutine number [i] has come to the end with outcome [q]. *)
Definition ended {A} (w : world A) (i : nat) (q : res A) : Prop := nth_error (threads w) i = Some (Done q).
(** The arrays that can be reached through a result. *)
Definition vec_at (s : slice) (k : kind) (a : Z) : Prop := k = KF /\ sl_arr s = a.
Definition tab_at (h : heap) (o : slice) (k : kind) (a : Z) : Prop :=
  (k = KS /\ sl_arr o = a) \/ exists s, In s (heads h o) /\ vec_at s k a.
Definition reaches (h : heap) (x : answer) (k : kind) (a : Z) : Prop :=
  match x with
  | ANum _ => False
  | ASlice s | AMat (HD s) => vec_at s k a
  | ATable o | AMat (HA o) => tab_at h o k a
  | AMat (HB b) => tab_at h (hb_blocks b) k a
  | ALU d => tab_at h (hlu_lu d) k a
  | AQR d => tab_at h (hqr_qrt d) k a \/ vec_at (hqr_rDiag d) k a
  | ARR d => tab_at h (hrr_qrt d) k a \/ vec_at (hrr_rDiag d) k a
  | AHs d => tab_at h (hhs_hv d) k a \/ vec_at (hhs_ort d) k a
  | ATd d => tab_at h (htd_hv d) k a \/ vec_at (htd_main d) k a \/ vec_at (htd_sec d) k a
  end.
(** The array is in memory. *)
Definition array_in (h : heap) (k : kind) (a : Z) : Prop :=
  0 <= a < match k with KF => len (hf h) | KS => len (hs h) end.
(** How often [i] is in the list. *)
Definition turns_of (order : list nat) (i : nat) : nat := length (filter (Nat.eqb i) order).
(** Two goroutines are about to touch the same array, and one of them to change it. *)
Definition race {A} (w : world A) : Prop :=
  exists i j p q k a, i <> j /\ nth_error (threads w) i = Some p /\ nth_error (threads w) j = Some q /\
    0 <= a /\ changes p k a /\ uses q k a.
(** The goroutine has ended with one matrix: in the memory it has these
    dimensions and entries. *)
Definition has_made (w : world (list answer)) (q : res (list answer)) (r c : Z) (f : Z -> Z -> F) : Prop :=
  exists o, q = Ok [AMat (HA o)] /\ rect (view (memory w) (OM o)) r c /\
    forall i j, 0 <= i < r -> 0 <= j < c -> mget (view (memory w) (OM o)) i j = Ok (f i j).
(** The same for a block matrix. *)
Definition has_made_blocks (w : world (list answer)) (q : res (list answer)) (r c : Z) (f : Z -> Z -> F) : Prop :=
  exists b, q = Ok [AMat (HB b)] /\ hb_rows b = r /\ hb_columns b = c /\
    MatIs (MBlk (mkBlock (view (memory w) (OM (hb_blocks b))) r c (hb_blockRows b) (hb_blockColumns b))) r c f.
(** ... and for a vector of [n] elements. *)
Definition has_made_vector (w : world (list answer)) (q : res (list answer)) (n : Z) (g : Z -> F) : Prop :=
  exists s l, q = Ok [ASlice s] /\ view (memory w) (OF s) = [l] /\ len l = n /\ forall i, 0 <= i < n -> zget l i = Ok (g i).
End Spec.

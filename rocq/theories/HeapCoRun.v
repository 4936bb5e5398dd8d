(** Run alone, the programs of HeapCoCode.v are those of Heap.v, HeapDec.v and
    HeapSolve.v, and those of HeapArith.v and HeapBlkArith.v. *)
From Coq Require Import ZArith QArith List Lia Bool.
From Verif Require Import Base Scalar Vector Matrix Heap HeapDec HeapSolve HeapArith HeapBlkArith HeapCo HeapCoCode HeapFacts HeapCoFacts.
Import ListNotations.
Open Scope Z_scope.

Create HintDb same.
Ltac sm1 :=
  match goal with
  | |- same (if ?b then _ else _) _ => destruct b
  | |- same (let '(_, _) := ?p in _) _ => destruct p
  | |- same (match ?v with HArr _ => _ | HOther _ => _ end) _ => destruct v
  | |- same (match ?v with HA _ => _ | HD _ => _ | HB _ => _ end) _ => destruct v
  | |- same (pbind _ _) _ => apply same_bind; [|intros]
  | |- same (Done _) _ => apply same_pure
  | |- same (ppan _) _ => apply same_pan
  | |- same (pfor _ _ _ _) _ => apply same_for; intros
  | |- same (pdown _ _ _ _) _ => apply same_down; intros
  | |- same (pfor_brk _ _ _ _) _ => apply same_brk; intros
  | |- same (pwhile _ _ _ _) _ => apply same_while; intros
  | |- same (pret (if ?b then _ else _)) _ => destruct b
  | |- _ => solve [auto 2 with same nocore]
  end.
Ltac sm := repeat sm1.

Section Run.
Context {O : Ops}.
#[local] Hint Resolve same_ret same_panic same_err same_pure same_rdF same_rdS same_wrF same_wrS same_newF same_newS
  same_appendF same_makeF same_makeS same_reslice same_gocopy : same.

Lemma same_modF (s : slice) (i : Z) (g : F -> F) : same (p_modF s i g) (modF s i g).
Proof. intros. unfold p_modF, modF. sm. Qed.
#[local] Hint Resolve same_modF : same.
Lemma same_rd2 (s : slice) (i j : Z) : same (p_rd2 s i j) (rd2 s i j).
Proof. intros. unfold p_rd2, rd2. sm. Qed.
#[local] Hint Resolve same_rd2 : same.
Lemma same_wr2 (s : slice) (i j : Z) (x : F) : same (p_wr2 s i j x) (wr2 s i j x).
Proof. intros. unfold p_wr2, wr2. sm. Qed.
#[local] Hint Resolve same_wr2 : same.
Lemma same_copyrange (d : slice) (i j : Z) (s : slice) (k l : Z) : same (p_copyrange d i j s k l) (copyrange d i j s k l).
Proof. intros. unfold p_copyrange, copyrange. sm. Qed.
#[local] Hint Resolve same_copyrange : same.
Lemma same_hv_At (v : HVec) (i : Z) : same (p_hv_At v i) (hv_At v i).
Proof. intros. unfold p_hv_At, hv_At. sm. Qed.
#[local] Hint Resolve same_hv_At : same.
Lemma same_hcheck (s : slice) (i : Z) : same (p_hcheck s i) (hcheck s i).
Proof. intros. unfold p_hcheck, hcheck. sm. Qed.
#[local] Hint Resolve same_hcheck : same.
Lemma same_h_NewArrayRealVectorCopy (v : HVec) : same (p_h_NewArrayRealVectorCopy v) (h_NewArrayRealVectorCopy v).
Proof. intros. unfold p_h_NewArrayRealVectorCopy, h_NewArrayRealVectorCopy. sm. Qed.
#[local] Hint Resolve same_h_NewArrayRealVectorCopy : same.
Lemma same_h_NewArrayRealVectorFromSlice (d : slice) : same (p_h_NewArrayRealVectorFromSlice d) (h_NewArrayRealVectorFromSlice d).
Proof. intros. unfold p_h_NewArrayRealVectorFromSlice, h_NewArrayRealVectorFromSlice. sm. Qed.
#[local] Hint Resolve same_h_NewArrayRealVectorFromSlice : same.
Lemma same_h_NewArrayRealVector (d : slice) (copyArray : bool) : same (p_h_NewArrayRealVector d copyArray) (h_NewArrayRealVector d copyArray).
Proof. intros. unfold p_h_NewArrayRealVector, h_NewArrayRealVector. sm. Qed.
#[local] Hint Resolve same_h_NewArrayRealVector : same.
Lemma same_h_ToArray (arv : slice) : same (p_h_ToArray arv) (h_ToArray arv).
Proof. intros. unfold p_h_ToArray, h_ToArray. sm. Qed.
#[local] Hint Resolve same_h_ToArray : same.
Lemma same_h_SubVector (arv : slice) (index n : Z) : same (p_h_SubVector arv index n) (h_SubVector arv index n).
Proof. intros. unfold p_h_SubVector, h_SubVector. sm. Qed.
#[local] Hint Resolve same_h_SubVector : same.
Lemma same_h_FromTwo (v1 v2 : slice) : same (p_h_FromTwo v1 v2) (h_FromTwo v1 v2).
Proof. intros. unfold p_h_FromTwo, h_FromTwo. sm. Qed.
#[local] Hint Resolve same_h_FromTwo : same.
Lemma same_h_Append (arv : slice) (x : F) : same (p_h_Append arv x) (h_Append arv x).
Proof. intros. unfold p_h_Append, h_Append. sm. Qed.
#[local] Hint Resolve same_h_Append : same.
Lemma same_h_Add (arv : slice) (v : HVec) : same (p_h_Add arv v) (h_Add arv v).
Proof. intros. unfold p_h_Add, h_Add. sm. Qed.
#[local] Hint Resolve same_h_Add : same.
Lemma same_h2_cols (a : slice) : same (p_h2_cols a) (h2_cols a).
Proof. intros. unfold p_h2_cols, h2_cols. sm. Qed.
#[local] Hint Resolve same_h2_cols : same.
Lemma same_h2_ckrow (a : slice) (i : Z) : same (p_h2_ckrow a i) (h2_ckrow a i).
Proof. intros. unfold p_h2_ckrow, h2_ckrow. sm. Qed.
#[local] Hint Resolve same_h2_ckrow : same.
Lemma same_h2_ckcol (a : slice) (j : Z) : same (p_h2_ckcol a j) (h2_ckcol a j).
Proof. intros. unfold p_h2_ckcol, h2_ckcol. sm. Qed.
#[local] Hint Resolve same_h2_ckcol : same.
Lemma same_h2_ck (a : slice) (i j : Z) : same (p_h2_ck a i j) (h2_ck a i j).
Proof. intros. unfold p_h2_ck, h2_ck. sm. Qed.
#[local] Hint Resolve same_h2_ck : same.
Lemma same_h_make2 (r c : Z) : same (p_h_make2 r c) (h_make2 r c).
Proof. intros. unfold p_h_make2, h_make2. sm. Qed.
#[local] Hint Resolve same_h_make2 : same.
Lemma same_h2_New (r c : Z) : same (p_h2_New r c) (h2_New r c).
Proof. intros. unfold p_h2_New, h2_New. sm. Qed.
#[local] Hint Resolve same_h2_New : same.
Lemma same_h2_At (a : slice) (i j : Z) : same (p_h2_At a i j) (h2_At a i j).
Proof. intros. unfold p_h2_At, h2_At. sm. Qed.
#[local] Hint Resolve same_h2_At : same.
Lemma same_h2_SetEntry (a : slice) (i j : Z) (x : F) : same (p_h2_SetEntry a i j x) (h2_SetEntry a i j x).
Proof. intros. unfold p_h2_SetEntry, h2_SetEntry. sm. Qed.
#[local] Hint Resolve same_h2_SetEntry : same.
Lemma same_h2_SetSubMatrix (a sub : slice) (row column : Z) : same (p_h2_SetSubMatrix a sub row column) (h2_SetSubMatrix a sub row column).
Proof. intros. unfold p_h2_SetSubMatrix, h2_SetSubMatrix. sm. Qed.
#[local] Hint Resolve same_h2_SetSubMatrix : same.
Lemma same_h2_copyIn (sub : slice) : same (p_h2_copyIn sub) (h2_copyIn sub).
Proof. intros. unfold p_h2_copyIn, h2_copyIn. sm. Qed.
#[local] Hint Resolve same_h2_copyIn : same.
Lemma same_h2_copyOut (a : slice) : same (p_h2_copyOut a) (h2_copyOut a).
Proof. intros. unfold p_h2_copyOut, h2_copyOut. sm. Qed.
#[local] Hint Resolve same_h2_copyOut : same.
Lemma same_h2_Data (a : slice) : same (p_h2_Data a) (h2_Data a).
Proof. intros. unfold p_h2_Data, h2_Data. sm. Qed.
#[local] Hint Resolve same_h2_Data : same.
Lemma same_h2_Copy (a : slice) : same (p_h2_Copy a) (h2_Copy a).
Proof. intros. unfold p_h2_Copy, h2_Copy. sm. Qed.
#[local] Hint Resolve same_h2_Copy : same.
Lemma same_h2_FromSlices (data : slice) (copyArray : bool) : same (p_h2_FromSlices data copyArray) (h2_FromSlices data copyArray).
Proof. intros. unfold p_h2_FromSlices, h2_FromSlices. sm. Qed.
#[local] Hint Resolve same_h2_FromSlices : same.
Lemma same_h2_ColumnAt (a : slice) (j : Z) : same (p_h2_ColumnAt a j) (h2_ColumnAt a j).
Proof. intros. unfold p_h2_ColumnAt, h2_ColumnAt. sm. Qed.
#[local] Hint Resolve same_h2_ColumnAt : same.
Lemma same_h2_RowAt (a : slice) (i : Z) : same (p_h2_RowAt a i) (h2_RowAt a i).
Proof. intros. unfold p_h2_RowAt, h2_RowAt. sm. Qed.
#[local] Hint Resolve same_h2_RowAt : same.
Lemma same_h2_RowVectorAt (a : slice) (i : Z) : same (p_h2_RowVectorAt a i) (h2_RowVectorAt a i).
Proof. intros. unfold p_h2_RowVectorAt, h2_RowVectorAt. sm. Qed.
#[local] Hint Resolve same_h2_RowVectorAt : same.
Lemma same_h2_ColumnVectorAt (a : slice) (j : Z) : same (p_h2_ColumnVectorAt a j) (h2_ColumnVectorAt a j).
Proof. intros. unfold p_h2_ColumnVectorAt, h2_ColumnVectorAt. sm. Qed.
#[local] Hint Resolve same_h2_ColumnVectorAt : same.
Lemma same_h2_SubMatrix (a : slice) (r0 r1 c0 c1 : Z) : same (p_h2_SubMatrix a r0 r1 c0 c1) (h2_SubMatrix a r0 r1 c0 c1).
Proof. intros. unfold p_h2_SubMatrix, h2_SubMatrix. sm. Qed.
#[local] Hint Resolve same_h2_SubMatrix : same.
Lemma same_h2_RowMatrixAt (a : slice) (row : Z) : same (p_h2_RowMatrixAt a row) (h2_RowMatrixAt a row).
Proof. intros. unfold p_h2_RowMatrixAt, h2_RowMatrixAt. sm. Qed.
#[local] Hint Resolve same_h2_RowMatrixAt : same.
Lemma same_h2_ColumnMatrixAt (a : slice) (column : Z) : same (p_h2_ColumnMatrixAt a column) (h2_ColumnMatrixAt a column).
Proof. intros. unfold p_h2_ColumnMatrixAt, h2_ColumnMatrixAt. sm. Qed.
#[local] Hint Resolve same_h2_ColumnMatrixAt : same.
Lemma same_h2_Transpose (a : slice) : same (p_h2_Transpose a) (h2_Transpose a).
Proof. intros. unfold p_h2_Transpose, h2_Transpose. sm. Qed.
#[local] Hint Resolve same_h2_Transpose : same.
Lemma same_hd_Copy (d : slice) : same (p_hd_Copy d) (hd_Copy d).
Proof. intros. unfold p_hd_Copy, hd_Copy. sm. Qed.
#[local] Hint Resolve same_hd_Copy : same.
Lemma same_hd_Data (d : slice) : same (p_hd_Data d) (hd_Data d).
Proof. intros. unfold p_hd_Data, hd_Data. sm. Qed.
#[local] Hint Resolve same_hd_Data : same.
Lemma same_hd_At (d : slice) (i j : Z) : same (p_hd_At d i j) (hd_At d i j).
Proof. intros. unfold p_hd_At, hd_At. sm. Qed.
#[local] Hint Resolve same_hd_At : same.
Lemma same_hd_SetEntry (d : slice) (i j : Z) (x : F) : same (p_hd_SetEntry d i j x) (hd_SetEntry d i j x).
Proof. intros. unfold p_hd_SetEntry, hd_SetEntry. sm. Qed.
#[local] Hint Resolve same_hd_SetEntry : same.
Lemma same_hd_ColumnAt (d : slice) (j : Z) : same (p_hd_ColumnAt d j) (hd_ColumnAt d j).
Proof. intros. unfold p_hd_ColumnAt, hd_ColumnAt. sm. Qed.
#[local] Hint Resolve same_hd_ColumnAt : same.
Lemma same_hd_RowAt (d : slice) (i : Z) : same (p_hd_RowAt d i) (hd_RowAt d i).
Proof. intros. unfold p_hd_RowAt, hd_RowAt. sm. Qed.
#[local] Hint Resolve same_hd_RowAt : same.
Lemma same_hb_create (rows columns : Z) : same (p_hb_create rows columns) (hb_create rows columns).
Proof. intros. unfold p_hb_create, hb_create. sm. Qed.
#[local] Hint Resolve same_hb_create : same.
Lemma same_hb_New (rows columns : Z) : same (p_hb_New rows columns) (hb_New rows columns).
Proof. intros. unfold p_hb_New, hb_New. sm. Qed.
#[local] Hint Resolve same_hb_New : same.
Lemma same_hb_FromBlockData (rows columns : Z) (blockData : slice) : same (p_hb_FromBlockData rows columns blockData) (hb_FromBlockData rows columns blockData).
Proof. intros. unfold p_hb_FromBlockData, hb_FromBlockData. sm. Qed.
#[local] Hint Resolve same_hb_FromBlockData : same.
Lemma same_hb_toBlocks (raw : slice) : same (p_hb_toBlocks raw) (hb_toBlocks raw).
Proof. intros. unfold p_hb_toBlocks, hb_toBlocks. sm. Qed.
#[local] Hint Resolve same_hb_toBlocks : same.
Lemma same_hb_FromSlices (raw : slice) : same (p_hb_FromSlices raw) (hb_FromSlices raw).
Proof. intros. unfold p_hb_FromSlices, hb_FromSlices. sm. Qed.
#[local] Hint Resolve same_hb_FromSlices : same.
Lemma same_hb_Copy (b : HBlk) : same (p_hb_Copy b) (hb_Copy b).
Proof. intros. unfold p_hb_Copy, hb_Copy. sm. Qed.
#[local] Hint Resolve same_hb_Copy : same.
Lemma same_hb_Data (b : HBlk) : same (p_hb_Data b) (hb_Data b).
Proof. intros. unfold p_hb_Data, hb_Data. sm. Qed.
#[local] Hint Resolve same_hb_Data : same.
Lemma same_hb_ckrow (b : HBlk) (i : Z) : same (p_hb_ckrow b i) (hb_ckrow b i).
Proof. intros. unfold p_hb_ckrow, hb_ckrow. sm. Qed.
#[local] Hint Resolve same_hb_ckrow : same.
Lemma same_hb_ckcol (b : HBlk) (j : Z) : same (p_hb_ckcol b j) (hb_ckcol b j).
Proof. intros. unfold p_hb_ckcol, hb_ckcol. sm. Qed.
#[local] Hint Resolve same_hb_ckcol : same.
Lemma same_hb_At (b : HBlk) (i j : Z) : same (p_hb_At b i j) (hb_At b i j).
Proof. intros. unfold p_hb_At, hb_At. sm. Qed.
#[local] Hint Resolve same_hb_At : same.
Lemma same_hb_SetEntry (b : HBlk) (i j : Z) (x : F) : same (p_hb_SetEntry b i j x) (hb_SetEntry b i j x).
Proof. intros. unfold p_hb_SetEntry, hb_SetEntry. sm. Qed.
#[local] Hint Resolve same_hb_SetEntry : same.
Lemma same_hb_RowAt (b : HBlk) (row : Z) : same (p_hb_RowAt b row) (hb_RowAt b row).
Proof. intros. unfold p_hb_RowAt, hb_RowAt. sm. Qed.
#[local] Hint Resolve same_hb_RowAt : same.
Lemma same_hb_ColumnAt (b : HBlk) (column : Z) : same (p_hb_ColumnAt b column) (hb_ColumnAt b column).
Proof. intros. unfold p_hb_ColumnAt, hb_ColumnAt. sm. Qed.
#[local] Hint Resolve same_hb_ColumnAt : same.
Lemma same_hb_part (src : slice) (sw sr0 sr1 sc0 sc1 : Z) (dst : slice) (dw dr0 dc0 : Z) : same (p_hb_part src sw sr0 sr1 sc0 sc1 dst dw dr0 dc0) (hb_part src sw sr0 sr1 sc0 sc1 dst dw dr0 dc0).
Proof. intros. unfold p_hb_part, hb_part. sm. Qed.
#[local] Hint Resolve same_hb_part : same.
Lemma same_hb_SubMatrix (b : HBlk) (r0 r1 c0 c1 : Z) : same (p_hb_SubMatrix b r0 r1 c0 c1) (hb_SubMatrix b r0 r1 c0 c1).
Proof. intros. unfold p_hb_SubMatrix, hb_SubMatrix. sm. Qed.
#[local] Hint Resolve same_hb_SubMatrix : same.
Lemma same_hm_cols (x : HMat) : same (p_hm_cols x) (hm_cols x).
Proof. intros. unfold p_hm_cols, hm_cols. sm. Qed.
#[local] Hint Resolve same_hm_cols : same.
Lemma same_hm_Data (x : HMat) : same (p_hm_Data x) (hm_Data x).
Proof. intros. unfold p_hm_Data, hm_Data. sm. Qed.
#[local] Hint Resolve same_hm_Data : same.
Lemma same_hm_IsSquare (x : HMat) : same (p_hm_IsSquare x) (hm_IsSquare x).
Proof. intros. unfold p_hm_IsSquare, hm_IsSquare. sm. Qed.
#[local] Hint Resolve same_hm_IsSquare : same.
Lemma same_hd_Transpose (d : slice) : same (p_hd_Transpose d) (hd_Transpose d).
Proof. intros. unfold p_hd_Transpose, hd_Transpose. sm. Qed.
#[local] Hint Resolve same_hd_Transpose : same.
Lemma same_hb_Transpose (b : HBlk) : same (p_hb_Transpose b) (hb_Transpose b).
Proof. intros. unfold p_hb_Transpose, hb_Transpose. sm. Qed.
#[local] Hint Resolve same_hb_Transpose : same.
Lemma same_hm_Transpose (x : HMat) : same (p_hm_Transpose x) (hm_Transpose x).
Proof. intros. unfold p_hm_Transpose, hm_Transpose. sm. Qed.
#[local] Hint Resolve same_hm_Transpose : same.
Lemma same_hlu_reduce (lu : slice) (row col n : Z) : same (p_hlu_reduce lu row col n) (hlu_reduce lu row col n).
Proof. intros. unfold p_hlu_reduce, hlu_reduce. sm. Qed.
#[local] Hint Resolve same_hlu_reduce : same.
Lemma same_hlu_upper (col : Z) (lu : slice) : same (p_hlu_upper col lu) (hlu_upper col lu).
Proof. intros. unfold p_hlu_upper, hlu_upper. sm. Qed.
#[local] Hint Resolve same_hlu_upper : same.
Lemma same_hlu_lower (m col : Z) (lu : slice) : same (p_hlu_lower m col lu) (hlu_lower m col lu).
Proof. intros. unfold p_hlu_lower, hlu_lower. sm. Qed.
#[local] Hint Resolve same_hlu_lower : same.
Lemma same_hlu_swap (m max col : Z) (lu : slice) (pivot : list Z) : same (p_hlu_swap m max col lu pivot) (hlu_swap m max col lu pivot).
Proof. intros. unfold p_hlu_swap, hlu_swap. sm. Qed.
#[local] Hint Resolve same_hlu_swap : same.
Lemma same_hlu_divide (m col : Z) (lu : slice) : same (p_hlu_divide m col lu) (hlu_divide m col lu).
Proof. intros. unfold p_hlu_divide, hlu_divide. sm. Qed.
#[local] Hint Resolve same_hlu_divide : same.
Lemma same_hlu_column (m : Z) (threshold : F) (lu : slice) (col : Z) (s : list Z * bool) : same (p_hlu_column m threshold lu col s) (hlu_column m threshold lu col s).
Proof. intros. destruct s. unfold p_hlu_column, hlu_column. sm. Qed.
#[local] Hint Resolve same_hlu_column : same.
Lemma same_h_NewLU (x : HMat) (threshold : F) : same (p_h_NewLU x threshold) (h_NewLU x threshold).
Proof. intros. unfold p_h_NewLU, h_NewLU. sm. Qed.
#[local] Hint Resolve same_h_NewLU : same.
Lemma same_hch_check (order : Z) (rel : F) (lT : slice) : same (p_hch_check order rel lT) (hch_check order rel lT).
Proof. intros. unfold p_hch_check, hch_check. sm. Qed.
#[local] Hint Resolve same_hch_check : same.
Lemma same_hch_step (order : Z) (pos : F) (lT : slice) (i : Z) (u : unit) : same (p_hch_step order pos lT i u) (hch_step order pos lT i u).
Proof. intros. unfold p_hch_step, hch_step. sm. Qed.
#[local] Hint Resolve same_hch_step : same.
Lemma same_h_NewCholesky (x : HMat) (rel pos : F) : same (p_h_NewCholesky x rel pos) (h_NewCholesky x rel pos).
Proof. intros. unfold p_h_NewCholesky, h_NewCholesky. sm. Qed.
#[local] Hint Resolve same_h_NewCholesky : same.
Lemma same_hqr_reflect (qrt rDiag : slice) (minor : Z) (u : unit) : same (p_hqr_reflect qrt rDiag minor u) (hqr_reflect qrt rDiag minor u).
Proof. intros. unfold p_hqr_reflect, hqr_reflect. sm. Qed.
#[local] Hint Resolve same_hqr_reflect : same.
Lemma same_h_NewQR (x : HMat) : same (p_h_NewQR x) (h_NewQR x).
Proof. intros. unfold p_h_NewQR, h_NewQR. sm. Qed.
#[local] Hint Resolve same_h_NewQR : same.
Lemma same_hhs_step (n : Z) (hv ort : slice) (m : Z) (u : unit) : same (p_hhs_step n hv ort m u) (hhs_step n hv ort m u).
Proof. intros. unfold p_hhs_step, hhs_step. sm. Qed.
#[local] Hint Resolve same_hhs_step : same.
Lemma same_h_NewHessenberg (x : HMat) : same (p_h_NewHessenberg x) (h_NewHessenberg x).
Proof. intros. unfold p_h_NewHessenberg, h_NewHessenberg. sm. Qed.
#[local] Hint Resolve same_h_NewHessenberg : same.
Lemma same_hrr_reflect (qrt rDiag : slice) (minor : Z) (p : list Z) : same (p_hrr_reflect qrt rDiag minor p) (hrr_reflect qrt rDiag minor p).
Proof. intros. unfold p_hrr_reflect, hrr_reflect. sm. Qed.
#[local] Hint Resolve same_hrr_reflect : same.
Lemma same_h_NewRRQR (x : HMat) : same (p_h_NewRRQR x) (h_NewRRQR x).
Proof. intros. unfold p_h_NewRRQR, h_NewRRQR. sm. Qed.
#[local] Hint Resolve same_h_NewRRQR : same.
Lemma same_htd_step (m : Z) (hv mn sec z : slice) (k : Z) (u : unit) : same (p_htd_step m hv mn sec z k u) (htd_step m hv mn sec z k u).
Proof. intros. unfold p_htd_step, htd_step. sm. Qed.
#[local] Hint Resolve same_htd_step : same.
Lemma same_h_NewTriDiagonal (x : HMat) : same (p_h_NewTriDiagonal x) (h_NewTriDiagonal x).
Proof. intros. unfold p_h_NewTriDiagonal, h_NewTriDiagonal. sm. Qed.
#[local] Hint Resolve same_h_NewTriDiagonal : same.
Lemma same_hbd_columns (hv : slice) (k lo m from n : Z) (a : F) (v0 : prog F) (v0' : M F) : same v0 v0' -> same (p_hbd_columns hv k lo m from n a v0) (hbd_columns hv k lo m from n a v0').
Proof. intros. unfold p_hbd_columns, hbd_columns. sm. Qed.
#[local] Hint Resolve same_hbd_columns : same.
Lemma same_hbd_rows (hv hK : slice) (lo n from m : Z) (a : F) (v0 : prog F) (v0' : M F) : same v0 v0' -> same (p_hbd_rows hv hK lo n from m a v0) (hbd_rows hv hK lo n from m a v0').
Proof. intros. unfold p_hbd_rows, hbd_rows. sm. Qed.
#[local] Hint Resolve same_hbd_rows : same.
Lemma same_hbd_upper (hv mn sec : slice) (m n k : Z) (u : unit) : same (p_hbd_upper hv mn sec m n k u) (hbd_upper hv mn sec m n k u).
Proof. intros. unfold p_hbd_upper, hbd_upper. sm. Qed.
#[local] Hint Resolve same_hbd_upper : same.
Lemma same_hbd_lower (hv mn sec : slice) (m n k : Z) (u : unit) : same (p_hbd_lower hv mn sec m n k u) (hbd_lower hv mn sec m n k u).
Proof. intros. unfold p_hbd_lower, hbd_lower. sm. Qed.
#[local] Hint Resolve same_hbd_lower : same.
Lemma same_h_NewBiDiagonal (x : HMat) : same (p_h_NewBiDiagonal x) (h_NewBiDiagonal x).
Proof. intros. unfold p_h_NewBiDiagonal, h_NewBiDiagonal. sm. Qed.
#[local] Hint Resolve same_h_NewBiDiagonal : same.
Lemma same_hm_SetEntry (x : HMat) (i j : Z) (v : F) : same (p_hm_SetEntry x i j v) (hm_SetEntry x i j v).
Proof. intros. unfold p_hm_SetEntry, hm_SetEntry. sm. Qed.
#[local] Hint Resolve same_hm_SetEntry : same.
Lemma same_h_NewRealMatrixWithDimension (r c : Z) : same (p_h_NewRealMatrixWithDimension r c) (h_NewRealMatrixWithDimension r c).
Proof. intros. unfold p_h_NewRealMatrixWithDimension, h_NewRealMatrixWithDimension. sm. Qed.
#[local] Hint Resolve same_h_NewRealMatrixWithDimension : same.
Lemma same_hrc_turn (order : Z) (small : F) (b c : slice) (r : Z) (s : list Z * Z) : same (p_hrc_turn order small b c r s) (hrc_turn order small b c r s).
Proof. intros. unfold p_hrc_turn, hrc_turn. sm. Qed.
#[local] Hint Resolve same_hrc_turn : same.
Lemma same_h_NewRectChol (x : HMat) (small : F) : same (p_h_NewRectChol x small) (h_NewRectChol x small).
Proof. intros. unfold p_h_NewRectChol, h_NewRectChol. sm. Qed.
#[local] Hint Resolve same_h_NewRectChol : same.
Lemma same_h_NewRealMatrixFromSlices (data : slice) : same (p_h_NewRealMatrixFromSlices data) (h_NewRealMatrixFromSlices data).
Proof. intros. unfold p_h_NewRealMatrixFromSlices, h_NewRealMatrixFromSlices. sm. Qed.
#[local] Hint Resolve same_h_NewRealMatrixFromSlices : same.
Lemma same_hm_At (x : HMat) (i j : Z) : same (p_hm_At x i j) (hm_At x i j).
Proof. intros. unfold p_hm_At, hm_At. sm. Qed.
#[local] Hint Resolve same_hm_At : same.
Lemma same_hv_ToArray (v : HVec) : same (p_hv_ToArray v) (hv_ToArray v).
Proof. intros. unfold p_hv_ToArray, hv_ToArray. sm. Qed.
#[local] Hint Resolve same_hv_ToArray : same.
Lemma same_h_NewRealIdentityMatrix (n : Z) : same (p_h_NewRealIdentityMatrix n) (h_NewRealIdentityMatrix n).
Proof. intros. unfold p_h_NewRealIdentityMatrix, h_NewRealIdentityMatrix. sm. Qed.
#[local] Hint Resolve same_h_NewRealIdentityMatrix : same.
Lemma same_hlus_SolveVector (s : HLU) (b : HVec) : same (p_hlus_SolveVector s b) (hlus_SolveVector s b).
Proof. intros. unfold p_hlus_SolveVector, hlus_SolveVector. sm. Qed.
#[local] Hint Resolve same_hlus_SolveVector : same.
Lemma same_hrow_sub (n : Z) (rI rC : slice) (l : F) : same (p_hrow_sub n rI rC l) (hrow_sub n rI rC l).
Proof. intros. unfold p_hrow_sub, hrow_sub. sm. Qed.
#[local] Hint Resolve same_hrow_sub : same.
Lemma same_hrow_div (n : Z) (rC : slice) (u : F) : same (p_hrow_div n rC u) (hrow_div n rC u).
Proof. intros. unfold p_hrow_div, hrow_div. sm. Qed.
#[local] Hint Resolve same_hrow_div : same.
Lemma same_hlus_SolveMatrix (s : HLU) (b : HMat) : same (p_hlus_SolveMatrix s b) (hlus_SolveMatrix s b).
Proof. intros. unfold p_hlus_SolveMatrix, hlus_SolveMatrix. sm. Qed.
#[local] Hint Resolve same_hlus_SolveMatrix : same.
Lemma same_hlus_Inverse (s : HLU) : same (p_hlus_Inverse s) (hlus_Inverse s).
Proof. intros. unfold p_hlus_Inverse, hlus_Inverse. sm. Qed.
#[local] Hint Resolve same_hlus_Inverse : same.
Lemma same_hchs_SolveVector (lT : slice) (b : HVec) : same (p_hchs_SolveVector lT b) (hchs_SolveVector lT b).
Proof. intros. unfold p_hchs_SolveVector, hchs_SolveVector. sm. Qed.
#[local] Hint Resolve same_hchs_SolveVector : same.
Lemma same_hchs_SolveMatrix (lT : slice) (b : HMat) : same (p_hchs_SolveMatrix lT b) (hchs_SolveMatrix lT b).
Proof. intros. unfold p_hchs_SolveMatrix, hchs_SolveMatrix. sm. Qed.
#[local] Hint Resolve same_hchs_SolveMatrix : same.
Lemma same_hchs_Inverse (lT : slice) : same (p_hchs_Inverse lT) (hchs_Inverse lT).
Proof. intros. unfold p_hchs_Inverse, hchs_Inverse. sm. Qed.
#[local] Hint Resolve same_hchs_Inverse : same.
Lemma same_h_checkSingular (diag : slice) (min : F) (raise : bool) : same (p_h_checkSingular diag min raise) (h_checkSingular diag min raise).
Proof. intros. unfold p_h_checkSingular, h_checkSingular. sm. Qed.
#[local] Hint Resolve same_h_checkSingular : same.
Lemma same_hqrs_SolveVector (s : HQR) (threshold : F) (b : HVec) : same (p_hqrs_SolveVector s threshold b) (hqrs_SolveVector s threshold b).
Proof. intros. unfold p_hqrs_SolveVector, hqrs_SolveVector. sm. Qed.
#[local] Hint Resolve same_hqrs_SolveVector : same.
Lemma same_h_CopySubMatrix (b : HMat) (startRow endRow startColumn endColumn : Z) (destination : slice) : same (p_h_CopySubMatrix b startRow endRow startColumn endColumn destination) (h_CopySubMatrix b startRow endRow startColumn endColumn destination).
Proof. intros. unfold p_h_CopySubMatrix, h_CopySubMatrix. sm. Qed.
#[local] Hint Resolve same_h_CopySubMatrix : same.
Lemma same_hqrs_forward (s : HQR) (m n kWidth : Z) (y alpha : slice) : same (p_hqrs_forward s m n kWidth y alpha) (hqrs_forward s m n kWidth y alpha).
Proof. intros. unfold p_hqrs_forward, hqrs_forward. sm. Qed.
#[local] Hint Resolve same_hqrs_forward : same.
Lemma same_hqrs_backward (s : HQR) (cBlocks kBlock kWidth : Z) (y xBlocks : slice) : same (p_hqrs_backward s cBlocks kBlock kWidth y xBlocks) (hqrs_backward s cBlocks kBlock kWidth y xBlocks).
Proof. intros. unfold p_hqrs_backward, hqrs_backward. sm. Qed.
#[local] Hint Resolve same_hqrs_backward : same.
Lemma same_hqrs_SolveMatrix (s : HQR) (threshold : F) (b : HMat) : same (p_hqrs_SolveMatrix s threshold b) (hqrs_SolveMatrix s threshold b).
Proof. intros. unfold p_hqrs_SolveMatrix, hqrs_SolveMatrix. sm. Qed.
#[local] Hint Resolve same_hqrs_SolveMatrix : same.
Lemma same_hqrs_Inverse (s : HQR) (threshold : F) : same (p_hqrs_Inverse s threshold) (hqrs_Inverse s threshold).
Proof. intros. unfold p_hqrs_Inverse, hqrs_Inverse. sm. Qed.
#[local] Hint Resolve same_hqrs_Inverse : same.
Lemma same_h_ckAdd (a : HMat) (m : HMat) : same (p_h_ckAdd a m) (h_ckAdd a m).
Proof. intros. unfold p_h_ckAdd, h_ckAdd. sm. Qed.
#[local] Hint Resolve same_h_ckAdd : same.
Lemma same_h_ckMul (a : HMat) (m : HMat) : same (p_h_ckMul a m) (h_ckMul a m).
Proof. intros. unfold p_h_ckMul, h_ckMul. sm. Qed.
#[local] Hint Resolve same_h_ckMul : same.
Lemma same_h2_Add (a : slice) (m : HMat) : same (p_h2_Add a m) (h2_Add a m).
Proof. intros. unfold p_h2_Add, h2_Add. sm. Qed.
#[local] Hint Resolve same_h2_Add : same.
Lemma same_h2_Subtract (a : slice) (m : HMat) : same (p_h2_Subtract a m) (h2_Subtract a m).
Proof. intros. unfold p_h2_Subtract, h2_Subtract. sm. Qed.
#[local] Hint Resolve same_h2_Subtract : same.
Lemma same_h2_Multiply (a : slice) (m : HMat) : same (p_h2_Multiply a m) (h2_Multiply a m).
Proof. intros. unfold p_h2_Multiply, h2_Multiply. sm. Qed.
#[local] Hint Resolve same_h2_Multiply : same.
Lemma same_h2_ScalarAdd (a : slice) (d : F) : same (p_h2_ScalarAdd a d) (h2_ScalarAdd a d).
Proof. intros. unfold p_h2_ScalarAdd, h2_ScalarAdd. sm. Qed.
#[local] Hint Resolve same_h2_ScalarAdd : same.
Lemma same_h2_ScalarMultiply (a : slice) (d : F) : same (p_h2_ScalarMultiply a d) (h2_ScalarMultiply a d).
Proof. intros. unfold p_h2_ScalarMultiply, h2_ScalarMultiply. sm. Qed.
#[local] Hint Resolve same_h2_ScalarMultiply : same.
Lemma same_h2_Trace (a : slice) : same (p_h2_Trace a) (h2_Trace a).
Proof. intros. unfold p_h2_Trace, h2_Trace. sm. Qed.
#[local] Hint Resolve same_h2_Trace : same.
Lemma same_h2_Operate (a : slice) (v : slice) : same (p_h2_Operate a v) (h2_Operate a v).
Proof. intros. unfold p_h2_Operate, h2_Operate. sm. Qed.
#[local] Hint Resolve same_h2_Operate : same.
Lemma same_h2_OperateVector (a : slice) (vec : HVec) : same (p_h2_OperateVector a vec) (h2_OperateVector a vec).
Proof. intros. unfold p_h2_OperateVector, h2_OperateVector. sm. Qed.
#[local] Hint Resolve same_h2_OperateVector : same.
Lemma same_h2_PreMultiply (a : slice) (v : slice) : same (p_h2_PreMultiply a v) (h2_PreMultiply a v).
Proof. intros. unfold p_h2_PreMultiply, h2_PreMultiply. sm. Qed.
#[local] Hint Resolve same_h2_PreMultiply : same.
Lemma same_h2_PreMultiplyVector (a : slice) (vec : HVec) : same (p_h2_PreMultiplyVector a vec) (h2_PreMultiplyVector a vec).
Proof. intros. unfold p_h2_PreMultiplyVector, h2_PreMultiplyVector. sm. Qed.
#[local] Hint Resolve same_h2_PreMultiplyVector : same.
Lemma same_hd_NewDim (dimension : Z) : same (p_hd_NewDim dimension) (hd_NewDim dimension).
Proof. intros. unfold p_hd_NewDim, hd_NewDim. sm. Qed.
#[local] Hint Resolve same_hd_NewDim : same.
Lemma same_hd_Add (d : slice) (m : HMat) : same (p_hd_Add d m) (hd_Add d m).
Proof. intros. unfold p_hd_Add, hd_Add. sm. Qed.
#[local] Hint Resolve same_hd_Add : same.
Lemma same_hd_Subtract (d : slice) (m : HMat) : same (p_hd_Subtract d m) (hd_Subtract d m).
Proof. intros. unfold p_hd_Subtract, hd_Subtract. sm. Qed.
#[local] Hint Resolve same_hd_Subtract : same.
Lemma same_hd_MultiplyDiag (d : slice) (e : slice) : same (p_hd_MultiplyDiag d e) (hd_MultiplyDiag d e).
Proof. intros. unfold p_hd_MultiplyDiag, hd_MultiplyDiag. sm. Qed.
#[local] Hint Resolve same_hd_MultiplyDiag : same.
Lemma same_hd_Multiply (d : slice) (m : HMat) : same (p_hd_Multiply d m) (hd_Multiply d m).
Proof. intros. unfold p_hd_Multiply, hd_Multiply. sm. Qed.
#[local] Hint Resolve same_hd_Multiply : same.
Lemma same_hd_Operate (d : slice) (v : slice) : same (p_hd_Operate d v) (hd_Operate d v).
Proof. intros. unfold p_hd_Operate, hd_Operate. sm. Qed.
#[local] Hint Resolve same_hd_Operate : same.
Lemma same_hd_OperateVector (d : slice) (vec : HVec) : same (p_hd_OperateVector d vec) (hd_OperateVector d vec).
Proof. intros. unfold p_hd_OperateVector, hd_OperateVector. sm. Qed.
#[local] Hint Resolve same_hd_OperateVector : same.
Lemma same_hd_PreMultiplyVector (d : slice) (vec : HVec) : same (p_hd_PreMultiplyVector d vec) (hd_PreMultiplyVector d vec).
Proof. intros. unfold p_hd_PreMultiplyVector, hd_PreMultiplyVector. sm. Qed.
#[local] Hint Resolve same_hd_PreMultiplyVector : same.
Lemma same_hd_ScalarAdd (d : slice) (x : F) : same (p_hd_ScalarAdd d x) (hd_ScalarAdd d x).
Proof. intros. unfold p_hd_ScalarAdd, hd_ScalarAdd. sm. Qed.
#[local] Hint Resolve same_hd_ScalarAdd : same.
Lemma same_hd_ScalarMultiply (d : slice) (x : F) : same (p_hd_ScalarMultiply d x) (hd_ScalarMultiply d x).
Proof. intros. unfold p_hd_ScalarMultiply, hd_ScalarMultiply. sm. Qed.
#[local] Hint Resolve same_hd_ScalarMultiply : same.
Lemma same_hb_Add (b : HBlk) (mat : HMat) : same (p_hb_Add b mat) (hb_Add b mat).
Proof. intros. unfold p_hb_Add, hb_Add. cbv zeta. sm. Qed.
#[local] Hint Resolve same_hb_Add : same.
Lemma same_hb_Subtract (b : HBlk) (mat : HMat) : same (p_hb_Subtract b mat) (hb_Subtract b mat).
Proof. intros. unfold p_hb_Subtract, hb_Subtract. cbv zeta. sm. Qed.
#[local] Hint Resolve same_hb_Subtract : same.
Lemma same_hb_ScalarAdd (b : HBlk) (d : F) : same (p_hb_ScalarAdd b d) (hb_ScalarAdd b d).
Proof. intros. unfold p_hb_ScalarAdd, hb_ScalarAdd. cbv zeta. sm. Qed.
#[local] Hint Resolve same_hb_ScalarAdd : same.
Lemma same_hb_ScalarMultiply (b : HBlk) (d : F) : same (p_hb_ScalarMultiply b d) (hb_ScalarMultiply b d).
Proof. intros. unfold p_hb_ScalarMultiply, hb_ScalarMultiply. cbv zeta. sm. Qed.
#[local] Hint Resolve same_hb_ScalarMultiply : same.
Lemma same_hb_dot4 (tBlock mBlock : slice) (jWidth lStart lEnd nStart : Z) : same (p_hb_dot4 tBlock mBlock jWidth lStart lEnd nStart) (hb_dot4 tBlock mBlock jWidth lStart lEnd nStart).
Proof. intros. unfold p_hb_dot4, hb_dot4. cbv zeta. sm. Qed.
#[local] Hint Resolve same_hb_dot4 : same.
Lemma same_hb_Multiply (b : HBlk) (mat : HMat) : same (p_hb_Multiply b mat) (hb_Multiply b mat).
Proof. intros. unfold p_hb_Multiply, hb_Multiply. cbv zeta. sm. Qed.
#[local] Hint Resolve same_hb_Multiply : same.
Lemma same_hb_Trace (b : HBlk) : same (p_hb_Trace b) (hb_Trace b).
Proof. intros. unfold p_hb_Trace, hb_Trace. cbv zeta. sm. Qed.
#[local] Hint Resolve same_hb_Trace : same.
Lemma same_hb_Operate (b : HBlk) (v : slice) : same (p_hb_Operate b v) (hb_Operate b v).
Proof. intros. unfold p_hb_Operate, hb_Operate. cbv zeta. sm. Qed.
#[local] Hint Resolve same_hb_Operate : same.
Lemma same_hb_OperateVector (b : HBlk) (vec : HVec) : same (p_hb_OperateVector b vec) (hb_OperateVector b vec).
Proof. intros. unfold p_hb_OperateVector, hb_OperateVector. cbv zeta. sm. Qed.
#[local] Hint Resolve same_hb_OperateVector : same.
Lemma same_hb_PreMultiply (b : HBlk) (v : slice) : same (p_hb_PreMultiply b v) (hb_PreMultiply b v).
Proof. intros. unfold p_hb_PreMultiply, hb_PreMultiply. cbv zeta. sm. Qed.
#[local] Hint Resolve same_hb_PreMultiply : same.
Lemma same_hb_PreMultiplyVector (b : HBlk) (vec : HVec) : same (p_hb_PreMultiplyVector b vec) (hb_PreMultiplyVector b vec).
Proof. intros. unfold p_hb_PreMultiplyVector, hb_PreMultiplyVector. cbv zeta. sm. Qed.
#[local] Hint Resolve same_hb_PreMultiplyVector : same.
End Run.

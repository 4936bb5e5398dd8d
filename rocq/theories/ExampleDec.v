(** Observations of decompositions of float64 matrices, for the concrete cases
    beside the theorems. *)
From Coq Require Import ZArith List Floats.SpecFloat.
From Verif Require Import Base Scalar Vector Matrix Array2D BlockM Diagonal RealMatrixM LU Cholesky QR RectChol Hess Tridiag Bidiag Schur Eigen SVD Float64 ExampleOps.
Import ListNotations.
Open Scope Z_scope.

Definition lu_obs (rows : list (list Z)) : option (list Z * bool) :=
  match @NewLUDecomposition E64 (@MArr E64 (mkA2D (Some (flss rows)))) with
  | Ok d => Some (@lu_Pivot E64 d, @lus_IsNonSingular E64 d)
  | _ => None end.

(** L, LT and the solution of A x = b; [Err] and [Panic] as they are. *)
Definition chol_obs (rows : list (list Z)) (b : list Z) : res (list (list spec_float) * list (list spec_float) * list spec_float) :=
  let* d := @NewDefaultCholeskyDecomposition E64 (@MArr E64 (mkA2D (Some (flss rows)))) in
  let* (l, d) := @ch_L E64 d in
  let* (lt, d) := @ch_LT E64 d in
  let* l := @m_Data E64 l in
  let* lt := @m_Data E64 lt in
  let* x := @chs_SolveVector E64 d (VArr (fls b)) in
  Ok (l, lt, v_data x).
Definition chol_nan : res (list (list spec_float)) :=
  let* d := @NewDefaultCholeskyDecomposition E64 (@MArr E64 (mkA2D (Some [[NaN64]]))) in
  let* (l, d) := @ch_L E64 d in @m_Data E64 l.

(** R and the solution of A x = b; R of the rank-revealing decomposition, the
    permutation matrix, the rank; H. *)
Definition qr_obs (rows : list (list Z)) (b : list Z) : res (list (list spec_float) * list spec_float) :=
  let* d := @NewQRDecomposition E64 (@MArr E64 (mkA2D (Some (flss rows)))) in
  let* (r, d) := @qr_R E64 d in
  let* r := @m_Data E64 r in
  let* x := @qrs_SolveVector E64 d (VArr (fls b)) in
  Ok (r, v_data x).
Definition rr_obs (rows : list (list Z)) : res (list (list spec_float) * list (list spec_float) * Z) :=
  let* d := @NewRRQRDecomposition E64 (@MArr E64 (mkA2D (Some (flss rows)))) in
  let* (r, d) := @rr_lift E64 (@qr_R E64) d in
  let* (p, d) := @rr_P E64 d in
  let* r := @m_Data E64 r in
  let* p := @m_Data E64 p in
  let* (k, d) := @rr_Rank E64 d (@fzero E64) in
  Ok (r, p, k).
Definition qr_obsH (rows : list (list Z)) : res (list (list spec_float)) :=
  let* d := @NewQRDecomposition E64 (@MArr E64 (mkA2D (Some (flss rows)))) in
  let* (h, d) := @qr_H E64 d in @m_Data E64 h.

(** The rectangular root, threshold 0. *)
Definition rc_obs (rows : list (list Z)) : res (list (list spec_float) * Z) :=
  let* d := @NewRectangularCholeskyDecomposition E64 (@MArr E64 (mkA2D (Some (flss rows)))) in
  let* r := @m_Data E64 (rc_RootMatrix d) in
  Ok (r, rc_Rank d).

(** P and H; Q and T; U, B and V. *)
Definition hs_obs (rows : list (list spec_float)) : res (list (list spec_float) * list (list spec_float)) :=
  let* d := @NewHessenbergTransformer E64 (@MArr E64 (mkA2D (Some (rows : list (list (@F E64)))))) in
  let* (p, d) := @hs_P E64 d in
  let* (h, d) := @hs_H E64 d in
  let* p := @m_Data E64 p in
  let* h := @m_Data E64 h in Ok (p, h).
Definition td_obs (rows : list (list Z)) : res (list (list spec_float) * list (list spec_float)) :=
  let* d := @NewTriDiagonalTransformer E64 (@MArr E64 (mkA2D (Some (flss rows)))) in
  let* (q, d) := @td_Q E64 d in
  let* (t, d) := @td_T E64 d in
  let* q := @m_Data E64 q in
  let* t := @m_Data E64 t in Ok (q, t).
Definition bd_obs (rows : list (list Z)) : res (list (list spec_float) * list (list spec_float) * list (list spec_float)) :=
  let* d := @NewBiDiagonalTransformer E64 (@MArr E64 (mkA2D (Some (flss rows)))) in
  let* (u, d) := @bd_U E64 d in
  let* (b, d) := @bd_B E64 d in
  let* (v, d) := @bd_V E64 d in
  let* u := @m_Data E64 u in
  let* b := @m_Data E64 b in
  let* v := @m_Data E64 v in Ok (u, b, v).
(** The smallest positive float64, 2^-1074. *)
Definition tiny64 : spec_float := S754_finite false 1 (-1074).
(** Eigenvectors, real and imaginary parts of the eigenvalues; the determinant
    and the one of the LU decomposition; the square root; a solution. *)
Definition ed_obs (rows : list (list Z)) : res (list (list spec_float) * list spec_float * list spec_float) :=
  let* d := @NewEigenDecomposition E64 (@MArr E64 (mkA2D (Some (flss rows)))) in
  let* (v, d) := @ed_V E64 d in
  let* v := @m_Data E64 v in
  Ok (v, @ed_RealEigenvalues E64 d, @ed_ImagEigenvalues E64 d).
Definition ed_obsT (mn sec : list Z) : res (list (list spec_float) * list spec_float) :=
  let* d := @NewEigenDecompositionFromTridiagonal E64 (fls mn) (fls sec) in
  let* (v, d) := @ed_V E64 d in
  let* v := @m_Data E64 v in
  Ok (v, @ed_RealEigenvalues E64 d).
Definition ed_dets (rows : list (list spec_float)) : res (spec_float * spec_float) :=
  let* d := @NewEigenDecomposition E64 (@MArr E64 (mkA2D (Some (rows : list (list (@F E64)))))) in
  let* x := @ed_Determinant E64 d in
  let* l := @NewLUDecomposition E64 (@MArr E64 (mkA2D (Some (rows : list (list (@F E64)))))) in
  let* y := @lu_Determinant E64 l in
  Ok (x, y).
Definition ed_root (rows : list (list Z)) : res (list (list spec_float)) :=
  let* d := @NewEigenDecomposition E64 (@MArr E64 (mkA2D (Some (flss rows)))) in
  let* (v, d) := @ed_SquareRoot E64 d in @m_Data E64 v.
Definition ed_solve (rows : list (list Z)) (b : list Z) : res (list spec_float) :=
  let* d := @NewEigenDecomposition E64 (@MArr E64 (mkA2D (Some (flss rows)))) in
  let* x := @eds_SolveVector E64 d (VArr (fls b)) in Ok (v_data x).
(** P and T of the Schur transform; the product P T PT; a matrix divided by 2^k. *)
Definition sc_obs (rows : list (list spec_float)) : res (list (list spec_float) * list (list spec_float)) :=
  let* d := @NewSchurTransformer E64 (@MArr E64 (mkA2D (Some (rows : list (list (@F E64)))))) in
  let* (p, d) := @sc_getP E64 d in
  let* (t, d) := @sc_getT E64 d in
  let* p := @m_Data E64 p in
  let* t := @m_Data E64 t in Ok (p, t).
Definition sc_prod (rows : list (list spec_float)) : res (list (list spec_float)) :=
  let* d := @NewSchurTransformer E64 (@MArr E64 (mkA2D (Some (rows : list (list (@F E64)))))) in
  let* (p, d) := @sc_getP E64 d in
  let* (t, d) := @sc_getT E64 d in
  let* (q, d) := @sc_getPT E64 d in
  let* a := @m_Multiply E64 p t in
  let* a := @m_Multiply E64 a q in @m_Data E64 a.
Definition over2 (k : Z) (rows : list (list spec_float)) : list (list spec_float) :=
  map (map (fun x => match x with S754_finite s m e => S754_finite s m (e - k) | _ => x end)) rows.
(** The residual A V - V D of the eigen decomposition beside V, and the largest
    absolute value of an entry. *)
Definition ed_res (rows : list (list spec_float)) : res (list (list spec_float) * list (list spec_float)) :=
  let x := @MArr E64 (mkA2D (Some (rows : list (list (@F E64))))) in
  let* d := @NewEigenDecomposition E64 x in
  let* (v, d) := @ed_V E64 d in
  let* (D, d) := @ed_D E64 d in
  let* av := @m_Multiply E64 x v in
  let* vd := @m_Multiply E64 v D in
  let* r := @m_Subtract E64 av vd in
  let* r := @m_Data E64 r in
  let* v := @m_Data E64 v in Ok (r, v).
Definition largest (rows : list (list spec_float)) : spec_float :=
  fold_left (fun m row => fold_left (fun m x => if SFltb m (@fabs E64 x) then @fabs E64 x else m) row m) rows (S754_zero false).
Definition is_zero64 (x : spec_float) : bool := match x with S754_zero _ => true | _ => false end.

(** U, the singular values and V; the product U S VT; Norm, ConditionNumber and
    InverseConditionNumber; rank, IsNonSingular and the pseudo-inverse; the
    covariance matrix; at most 100 turns. *)
Definition sv_new (rows : list (list spec_float)) : res (@SvD E64) := @NewSingularValueDecomposition E64 100 (@MArr E64 (mkA2D (Some (rows : list (list (@F E64)))))).
Definition sv_obs (rows : list (list spec_float)) : res (list (list spec_float) * list spec_float * list (list spec_float)) :=
  let* d := sv_new rows in
  let* u := @m_Data E64 (@sv_U E64 d) in
  let* v := @m_Data E64 (@sv_V E64 d) in Ok (u, @sv_SingularValues E64 d, v).
Definition sv_prod (rows : list (list spec_float)) : res (list (list spec_float)) :=
  let* d := sv_new rows in
  let* (s, d) := @sv_S E64 d in
  let* (vt, d) := @sv_VT E64 d in
  let* p := @m_Multiply E64 (@sv_U E64 d) s in
  let* p := @m_Multiply E64 p vt in @m_Data E64 p.
Definition sv_nums (rows : list (list spec_float)) : res (spec_float * spec_float * spec_float) :=
  let* d := sv_new rows in
  let* a := @sv_Norm E64 d in
  let* b := @sv_ConditionNumber E64 d in
  let* c := @sv_InverseConditionNumber E64 d in Ok (a, b, c).
Definition sv_rank (rows : list (list spec_float)) : res (Z * bool * list (list spec_float)) :=
  let* d := sv_new rows in
  let* r := @sv_Rank E64 d in
  let* b := @svs_IsNonSingular E64 d in
  let* (pm, d) := @sv_Solver E64 d in
  let* p := @m_Data E64 (@svs_Inverse E64 pm) in Ok (r, b, p).
Definition sv_cov (rows : list (list spec_float)) (min : spec_float) : res (list (list spec_float)) :=
  let* d := sv_new rows in
  let* (m, d) := @sv_Covariance E64 d min in @m_Data E64 m.
Definition sv_UUT (rows : list (list spec_float)) : res (list (list spec_float)) :=
  let* d := sv_new rows in
  let* (ut, d) := @sv_UT E64 d in
  let* p := @m_Multiply E64 (@sv_U E64 d) ut in @m_Data E64 p.

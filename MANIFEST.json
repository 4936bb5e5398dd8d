{
 "claims": [
  {
   "property": "C01",
   "status": "proved",
   "theorems": [
    "C01_block_table",
    "C01_new_matrices"
   ],
   "note": "Any history of entry updates on a block matrix refines a plain table, for every arithmetic; panicking calls leave it unchanged."
  },
  {
   "property": "C02",
   "status": "proved",
   "theorems": [
    "C02_interchangeable",
    "C02_same_reads",
    "C02_histories"
   ],
   "note": "Simulation over histories of 16 kinds of operations. Multiply, Operate and the dense SetRow are outside (summation orders differ; dense SetRow is broken, see C11)."
  },
  {
   "property": "C03",
   "status": "proved",
   "theorems": [
    "C03_from_slices",
    "C03_rejected",
    "C03_nil_rejected"
   ],
   "note": "All four ways of building from slices, with rejection of nil, empty and ragged input."
  },
  {
   "property": "C04",
   "status": "proved",
   "theorems": [
    "C04_diagonal",
    "C04_transpose"
   ],
   "note": "Dense, block and diagonal."
  },
  {
   "property": "C05",
   "status": "proved",
   "theorems": [
    "C05_diagonal",
    "C05_diagonal_other",
    "C05_diagonal_scalar",
    "C05_entrywise",
    "C05_mismatch"
   ],
   "note": "Dense and block receivers with every argument implementation (the anchors of the property); diagonal Add/Subtract in C17/C15 theorems."
  },
  {
   "property": "C06",
   "status": "proved",
   "theorems": [
    "C06_product",
    "C06_dense_order",
    "C06_mismatch"
   ],
   "note": "Exact arithmetic for the three implementations with any argument; the dense product is additionally the left-to-right sum in any arithmetic."
  },
  {
   "property": "C07",
   "status": "proved",
   "theorems": [
    "C07_diagonal",
    "C07_operate",
    "C07_premultiply",
    "C07_mismatch"
   ],
   "note": "Exact arithmetic, the three implementations; length mismatch panics in any arithmetic."
  },
  {
   "property": "C08",
   "status": "partial",
   "theorems": [
    "C08_diagonal_foreign",
    "C08_diagonal_refuted",
    "C08_any_vector_refuted"
   ],
   "note": "Refuted: dense and block matrices panic on every vector that is not an *ArrayRealVector."
  },
  {
   "property": "C09",
   "status": "proved",
   "theorems": [
    "C09_diagonal",
    "C09_submatrix"
   ],
   "note": "Dense, block and diagonal where the window is legal."
  },
  {
   "property": "C10",
   "status": "partial",
   "theorems": [
    "C10_diagonal",
    "C10_diagonal_fit_refuted",
    "C10_set_submatrix"
   ],
   "note": "Dense and block proved in full. The diagonal matrix accepts an out-of-range block of zeros (C10_diagonal_fit_refuted); its in-range writes are proved (C10_diagonal)."
  },
  {
   "property": "C11",
   "status": "partial",
   "theorems": [
    "C11_diagonal_rows",
    "C11_diagonal_set",
    "C11_diagonal_matrices_refuted",
    "C11_rows",
    "C11_columns",
    "C11_row_and_column_matrices",
    "C11_set_rows_partial",
    "C11_set_columns",
    "C11_set_row_block",
    "C11_set_row_dense_refuted",
    "C11_set_row_dense_partial",
    "C11_bad_arguments"
   ],
   "note": "Everything except SetRow of the dense matrix, which is refuted: it panics for every row but 0."
  },
  {
   "property": "C12",
   "status": "proved",
   "theorems": [
    "C12_orders",
    "C12_walks",
    "C12_walks_bounded",
    "C12_bad_window"
   ],
   "note": "All three implementations and orders, arbitrary visitors with state."
  },
  {
   "property": "C13",
   "status": "proved",
   "theorems": [
    "C13_update_walks",
    "C13_update_walks_bounded",
    "C13_map_window"
   ],
   "note": "Dense and block, arbitrary visitors with state."
  },
  {
   "property": "C14",
   "status": "proved",
   "theorems": [
    "C14_power",
    "C14_refused"
   ],
   "note": "Exact arithmetic; any library matrix, any non-negative exponent."
  },
  {
   "property": "C15",
   "status": "partial",
   "theorems": [
    "C15_entry_histories",
    "C15_histories",
    "C15_new"
   ],
   "note": "Entry histories and whole-operation histories are proved. 'A refused write changes nothing' holds for single-entry writes and is refuted for SetRow and SetColumn (C56_entries, C56_diagonal_refuted)."
  },
  {
   "property": "C16",
   "status": "partial",
   "theorems": [
    "C16_scaling_partial",
    "C16_scaling_refuted"
   ],
   "note": "False as stated: ScalarMultiply panics for every negative, infinite or NaN scalar when n >= 2 (C16_scaling_refuted). Proved for n = 1 and for every finite scalar with clear sign bit."
  },
  {
   "property": "C17",
   "status": "proved",
   "theorems": [
    "C17_products",
    "C17_inverse",
    "C17_inverse_identity"
   ],
   "note": "Products and inverse entries for all scalars; inverse times original is the identity in exact arithmetic."
  },
  {
   "property": "C18",
   "status": "partial",
   "theorems": [
    "C18_sound_partial",
    "C18_reflexive",
    "C18_exact",
    "C18_symmetry_refuted",
    "C18_zeros_refuted",
    "C18_adjacent_refuted"
   ],
   "note": "False as stated: asymmetric, distinguishes the two zeros, rejects some adjacent floats (three refutations). Proved: whatever it accepts is equal or adjacent and not NaN; exact characterisation by bit patterns."
  },
  {
   "property": "C19",
   "status": "proved",
   "theorems": [
    "C19_entrywise_binary",
    "C19_entrywise_map",
    "C19_mismatch",
    "C19_entries"
   ],
   "note": "Any arithmetic, any argument implementation."
  },
  {
   "property": "C20",
   "status": "partial",
   "theorems": [
    "C20_append_partial",
    "C20_append_foreign_refuted",
    "C20_subvector",
    "C20_set_subvector"
   ],
   "note": "AppendVector of a foreign vector is refuted; the rest proved."
  },
  {
   "property": "C21",
   "status": "proved",
   "theorems": [
    "C21_norms",
    "C21_values",
    "C21_distances",
    "C21_cosine",
    "C21_unitize",
    "C21_unit_vector"
   ],
   "note": "Exact arithmetic (real numbers): no NaN or overflow."
  },
  {
   "property": "C22",
   "status": "proved",
   "theorems": [
    "C22_MinIndex",
    "C22_MaxIndex"
   ],
   "note": "All float64 vectors, NaN and infinities included."
  },
  {
   "property": "C23",
   "status": "proved",
   "theorems": [
    "C23_matrix_equals",
    "C23_matrix_reflexive",
    "C23_matrix_symmetric",
    "C23_matrix_transitive",
    "C23_vector_equals",
    "C23_vector_equivalence",
    "C23_vector_nan"
   ],
   "note": "Vectors and matrices; equivalence laws for float64."
  },
  {
   "property": "C24",
   "status": "proved",
   "theorems": [
    "C24_factorisation",
    "C24_any_arithmetic",
    "C24_not_square",
    "C24_singular_means",
    "C24_accepts"
   ],
   "note": "C24_factorisation: P*A = L*U, unit lower L with entries at most 1, upper U with non-zero diagonal, P matching Pivot(), over the reals with a positive threshold, after any sequence of accessor calls. C24_any_arithmetic: no panic, permutation, exact elimination formulas for any scalar operations including float64 with NaN. C24_not_square: error. C24_singular_means / C24_accepts say when singular is reported."
  },
  {
   "property": "C25",
   "status": "proved",
   "theorems": [
    "C25_determinant",
    "C25_zero"
   ],
   "note": "C25_determinant and C25_zero over the reals; det is the expansion along the first column (Det.v)."
  },
  {
   "property": "C26",
   "status": "proved",
   "theorems": [
    "C26_solve_vector",
    "C26_solve_matrix",
    "C26_inverse",
    "C26_panics",
    "C26_no_panic"
   ],
   "note": "C26_solve_vector (with uniqueness), C26_solve_matrix, C26_inverse (two-sided) over the reals; C26_panics and C26_no_panic for any scalar operations."
  },
  {
   "property": "C27",
   "status": "proved",
   "theorems": [
    "C27_factorisation",
    "C27_upper_triangle",
    "C27_accepts",
    "C27_accepts_definite",
    "C27_definite",
    "C27_not_square",
    "C27_outcome",
    "C27_any_arithmetic"
   ],
   "note": "Exact arithmetic for factorisation, determinant and the exact acceptance condition; errors and the entry recurrences hold in any arithmetic. NaN passes both tests on float64 (shown as an example)."
  },
  {
   "property": "C28",
   "status": "proved",
   "theorems": [
    "C28_solve_vector",
    "C28_solve_matrix",
    "C28_inverse",
    "C28_any_arithmetic"
   ],
   "note": "Exact arithmetic; in any arithmetic no panic and SolveMatrix columns equal SolveVector answers."
  },
  {
   "property": "C29",
   "status": "proved",
   "theorems": [
    "C29_factorisation",
    "C29_reflectors",
    "C29_total",
    "C29_any_arithmetic"
   ],
   "note": "Exact arithmetic for A = QR, orthogonality, triangular shape and the reflectors in H; QT = transpose of Q bit for bit and totality in any arithmetic. Every implementation of the matrix."
  },
  {
   "property": "C30",
   "status": "proved",
   "theorems": [
    "C30_solve_vector",
    "C30_solve_matrix",
    "C30_inverse",
    "C30_full_rank",
    "C30_any_arithmetic"
   ],
   "note": "Least squares with uniqueness, square and underdetermined systems, SolveMatrix column by column, Inverse, full rank test with threshold 0; panics in any arithmetic."
  },
  {
   "property": "C31",
   "status": "proved",
   "theorems": [
    "C31_factorisation",
    "C31_total",
    "C31_any_arithmetic",
    "C31_rank_range",
    "C31_rank",
    "C31_rank_unique",
    "C31_rank_drop",
    "C31_solve_vector",
    "C31_solve_matrix",
    "C31_inverse",
    "C31_panics"
   ],
   "note": "A*P = Q*R, ordered diagonal, Rank range in any arithmetic. Also Rank is the rank when the drop threshold is at most 0 except 1 on the zero matrix, and the solver."
  },
  {
   "property": "C32",
   "status": "proved",
   "theorems": [
    "C32_factorisation",
    "C32_defined",
    "C32_symmetric",
    "C32_error",
    "C32_any_arithmetic"
   ],
   "note": "Error bounded by the threshold, exact with threshold 0, Rank is the rank, acceptance characterised; totality in any arithmetic. A symmetric indefinite matrix may be accepted without an error (C32_symmetric)."
  },
  {
   "property": "C33",
   "status": "proved",
   "theorems": [
    "C33_factorisation",
    "C33_total",
    "C33_error",
    "C33_upper_triangle"
   ],
   "note": "Exact-arithmetic factorisation over the reals for every matrix kind of the library and every accessor history; success, error on non-square input and use of the upper triangle only for every arithmetic including float64."
  },
  {
   "property": "C34",
   "status": "proved",
   "theorems": [
    "C34_factorisation",
    "C34_total",
    "C34_any_arithmetic"
   ],
   "note": "Exact-arithmetic factorisation over the reals; totality, shape and independence of accessor history for every arithmetic including float64."
  },
  {
   "property": "C35",
   "status": "proved",
   "theorems": [
    "C35_factorisation",
    "C35_total",
    "C35_error",
    "C35_any_arithmetic",
    "C35_float_refuted"
   ],
   "note": "Exact-arithmetic factorisation over the reals; totality, error, exact zeros and independence of accessor history for every arithmetic. C35_float_refuted: on float64 a finite 3x3 matrix with a denormal entry gives a P containing NaN."
  },
  {
   "property": "C36",
   "status": "proved",
   "theorems": [
    "C36_array",
    "C36_block",
    "C36_block_from_slices",
    "C36_diagonal",
    "C36_vector",
    "C36_any_outcome",
    "C36_writers",
    "C36_histories",
    "C36_reads",
    "C36_shares_array",
    "C36_shares_vector",
    "C36_shares_diagonal",
    "C36_shares_block"
   ],
   "note": "Heap model; any arithmetic, any arguments and any outcome for separation; contents for well-formed arguments. Independence quantifies over all later actions of two programs, each holding one side. The reference accessors and constructors, and NewBlockRealMatrixFromBlockData, are proved to share."
  },
  {
   "property": "C37",
   "status": "partial",
   "theorems": [
    "C37_slice",
    "C37_partial",
    "C37_overlap",
    "C37_refuted"
   ],
   "note": "SetSubVectorWithSlice: proved for every overlap. SetSubVector: proved when the places are disjoint or coincide; refuted for every other overlap (it copies a second time, from what it has just written), with the exact stored values."
  },
  {
   "property": "C38",
   "status": "proved",
   "theorems": [
    "C38_lu",
    "C38_cholesky",
    "C38_qr",
    "C38_rrqr",
    "C38_hessenberg",
    "C38_tridiagonal",
    "C38_bidiagonal",
    "C38_schur",
    "C38_eigen",
    "C38_svd",
    "C38_input",
    "C38_shared",
    "C38_shared_solver"
   ],
   "note": "Accessors: proved for all ten decompositions and transformers, in any arithmetic and after any sequence of accessor calls. Input left alone: heap model of the constructors of LU, Cholesky, QR, RRQR, Hessenberg, tridiagonal, bidiagonal and rectangular Cholesky, for the three kinds of matrix and every outcome; Schur, eigen and singular value constructors are in the value model only and read the matrix through Data() and the transformers. Also shown: an accessor returns its cache by reference, so a caller writing to the result changes what later calls return (C38_shared), but not what the solver uses."
  },
  {
   "property": "C39",
   "status": "partial",
   "theorems": [
    "C39_trace",
    "C39_trace_refused",
    "C39_frobenius",
    "C39_linf_columns",
    "C39_linf_refuted"
   ],
   "note": "The infinity norm claim is false: MatLInfNorm is the largest absolute column sum (proved), not row sum (C39_linf_refuted). Trace and Frobenius norm proved."
  },
  {
   "property": "C40",
   "status": "proved",
   "theorems": [
    "C40_submatrix",
    "C40_copy",
    "C40_copy_indices"
   ],
   "note": "Any arithmetic; any index lists; exactly the window is written."
  },
  {
   "property": "C41",
   "status": "partial",
   "theorems": [
    "C41_outer",
    "C41_projection_partial",
    "C41_projection_refuted"
   ],
   "note": "Outer product proved. Projection returns the right vector but overwrites its second argument (C41_projection_refuted)."
  },
  {
   "property": "C42",
   "status": "proved",
   "theorems": [
    "C42_symmetric",
    "C42_tridiagonal",
    "C42_terminates",
    "C42_tridiagonal_terminates",
    "C42_thirty",
    "C42_small_converges",
    "C42_float_sorted",
    "C42_float_tridiagonal_sorted"
   ],
   "note": "Orthogonality, order and a residual bound in exact arithmetic except for the convergence test, whose tolerance is a parameter (C42_symmetric, C42_tridiagonal); termination by a result or the error, the bound of thirty iterations, for every arithmetic; order on float64 when no eigenvalue is NaN. Orthogonality on float64 holds only up to rounding and is not claimed."
  },
  {
   "property": "C43",
   "status": "partial",
   "theorems": [
    "C43_factorisation_partial",
    "C43_terminates",
    "C43_bounded",
    "C43_error",
    "C43_accessors",
    "C43_zero_refuted",
    "C43_scale_refuted"
   ],
   "note": "Proved: outcome and turn bound in any arithmetic, accessors, exact Hessenberg shape of T. Over the reals P is orthogonal and A = P T PT up to a stated tolerance, with T quasi-triangular up to it. The exact equality is refuted for small-scale and zero matrices."
  },
  {
   "property": "C44",
   "status": "partial",
   "theorems": [
    "C44_product_partial",
    "C44_refuted",
    "C44_symmetric_refuted"
   ],
   "note": "False of the code: C44_refuted (rotation by 90 degrees) and C44_symmetric_refuted (diag(2^30, 2^-30)). C44_product_partial: it is the product of the real parts of the eigenvalues in any arithmetic."
  },
  {
   "property": "C45",
   "status": "proved",
   "theorems": [
    "C45_exact",
    "C45_float",
    "C45_doc_refuted"
   ],
   "note": "Order and sign: float64 (no NaN among the values) and exact arithmetic. Orthonormality: exact arithmetic; the square factor is orthogonal. The documented UT = inverse of U is refuted for tall matrices."
  },
  {
   "property": "C46",
   "status": "proved",
   "theorems": [
    "C46_walks",
    "C46_walks_bounded",
    "C46_walks_bad"
   ],
   "note": "All vectors and visitors."
  },
  {
   "property": "C47",
   "status": "proved",
   "theorems": [
    "C47_square_root"
   ],
   "note": "Exact arithmetic except for the tolerance of the convergence test; the square is V D V^T, which is A up to the bound in C42."
  },
  {
   "property": "C48",
   "status": "proved",
   "theorems": [
    "C48_solver",
    "C48_dimension",
    "C48_nonsymmetric_refuted"
   ],
   "note": "Exact arithmetic except for the tolerance of the convergence test; symmetric matrices only. The system solved is V D V^T x = b, which is A up to the bound in C42. Also shown: on matrices that are not symmetric the solver's answer does not solve the system (C48_nonsymmetric_refuted)."
  },
  {
   "property": "C49",
   "status": "partial",
   "theorems": [
    "C49_factorisation_partial",
    "C49_total",
    "C49_returns",
    "C49_turns",
    "C49_four_turns",
    "C49_exact_refuted",
    "C49_accessors"
   ],
   "note": "Exact arithmetic: orthonormal U, V; A = U S VT up to (p - 1) (2^-966 + 2^-51 |A|) in the Frobenius norm, p = min(r, c). C49_exact_refuted: the equality asked for is false, as the iteration drops relatively small entries. Every call returns, with an explicit bound on the turns of the main loop. Any arithmetic: never another panic, accessors consistent in any order. Not shown: that the loop ends on float64."
  },
  {
   "property": "C50",
   "status": "proved",
   "theorems": [
    "C50_norm",
    "C50_condition",
    "C50_each"
   ],
   "note": "Over the reals, up to the bound of C49."
  },
  {
   "property": "C51",
   "status": "proved",
   "theorems": [
    "C51_solver",
    "C51_least_squares"
   ],
   "note": "Over the reals, up to the bound of C49."
  },
  {
   "property": "C52",
   "status": "proved",
   "theorems": [
    "C52_rank",
    "C52_nonsingular",
    "C52_scale_refuted"
   ],
   "note": "In any arithmetic. That the rank does not depend on the scale, as documented, is refuted."
  },
  {
   "property": "C53",
   "status": "partial",
   "theorems": [
    "C53_covariance_partial",
    "C53_inverse",
    "C53_wide_refuted"
   ],
   "note": "The matrix of the statement for matrices with no more columns than rows, in any arithmetic; over the reals it is then the inverse of BT B. Refuted for wide matrices, where the result is r x r."
  },
  {
   "property": "C54",
   "status": "partial",
   "theorems": [
    "C54_partial",
    "C54_overlap",
    "C54_refuted"
   ],
   "note": "Proved when the places are disjoint or the argument starts at or after the receiver; refuted for arguments that start before the receiver and reach into it, with the exact stored values."
  },
  {
   "property": "C55",
   "status": "partial",
   "theorems": [
    "C55_terminates",
    "C55_error",
    "C55_accessors",
    "C55_complex",
    "C55_complex_real",
    "C55_roots",
    "C55_vectors_partial",
    "C55_scale_refuted",
    "C55_small_imaginary_refuted"
   ],
   "note": "Termination and outcomes, accessors: any arithmetic whose square roots are not negative (float64 is). Roots and residual: exact real arithmetic; A V = V D up to sc_tol + 1e-12 + 2^-53 sum|T| relative to each column and V invertible, repeated real eigenvalues included, for imaginary parts zero or above 1e-12, no two equal conjugate pairs and T in Schur form up to 1e-12. The absolute thresholds are refuted: C55_scale_refuted (a matrix with real eigenvalues 1e17, 2e17 is given complex ones), C55_small_imaginary_refuted (imaginary parts below 1e-12 give a column that is no eigenvector). Missing: equal conjugate pairs. No rounding error analysis."
  },
  {
   "property": "C56",
   "status": "partial",
   "theorems": [
    "C56_entries",
    "C56_vectors",
    "C56_array",
    "C56_block",
    "C56_diagonal_refuted",
    "C56_diagonal_partial"
   ],
   "note": "Proved for all the listed methods of vectors, dense and block matrices and for single entries of all matrices, in any arithmetic. Refuted for SetRow and SetColumn of diagonal matrices, which can store the diagonal entry before they meet a refused one; they change no more than that entry."
  },
  {
   "property": "C57",
   "status": "proved",
   "theorems": [
    "C57_operations",
    "C57_product",
    "C57_operate",
    "C57_premultiply",
    "C57_dot",
    "C57_trace",
    "C57_norms"
   ],
   "note": "Proved for IEEE binary64 (no fused multiply-add), for the three representations and any argument; the real-number side is linked to SpecFloat through Flocq's proofs. Uses the standard library's classical logic axiom."
  },
  {
   "property": "C58",
   "status": "proved",
   "theorems": [
    "C58_factors",
    "C58_no_overflow"
   ],
   "note": "Proved for IEEE binary64 without fused multiply-add."
  },
  {
   "property": "C59",
   "status": "proved",
   "theorems": [
    "C59_solve"
   ],
   "note": "Proved for IEEE binary64 without fused multiply-add. Finiteness of the solution is a hypothesis (it can overflow)."
  },
  {
   "property": "C60",
   "status": "proved",
   "theorems": [
    "C60_cholesky"
   ],
   "note": "IEEE binary64 (SpecFloat), no fused multiply-add; finiteness of L and of the returned solution are hypotheses (observable by the caller)."
  },
  {
   "property": "C61",
   "status": "partial",
   "theorems": [
    "C61_definite_partial",
    "C61_refuted"
   ],
   "note": "Proved when the returned factor is finite (C61_definite_partial). Without it the claim is false: an overflowing pivot becomes NaN and the test `x <= threshold` accepts it (C61_refuted, default thresholds)."
  },
  {
   "property": "C62",
   "status": "partial",
   "theorems": [
    "C62_messages_partial",
    "C62_refuted",
    "C62_number_text"
   ],
   "note": "Proved for every error that is not a number error (C62_messages_partial). For the number errors (index, dimension, bound, positive definite) and the iteration count it is false for all arguments (C62_refuted): mathIllegalNumberErrorf passes its arguments as one list, addMsg changes a copy, maxIterationSimpleErrorf drops the count."
  },
  {
   "property": "C63",
   "status": "partial",
   "theorems": [
    "C63_checks",
    "C63_shape",
    "C63_range",
    "C63_dims",
    "C63_status_partial",
    "C63_status_refuted",
    "C63_bound_refuted",
    "C63_bounds"
   ],
   "note": "The checks, ranges and shapes are proved. Status does not separate nonPositiveDefinite from numberIsTooSmall (C63_status_refuted) and IsBoundAllowed is wrong for the strict positivity error (C63_bound_refuted)."
  },
  {
   "property": "C64",
   "status": "partial",
   "theorems": [
    "C64_array_partial",
    "C64_block_partial",
    "C64_fresh",
    "C64_writers",
    "C64_overlap_refuted"
   ],
   "note": "Proved for all arguments apart from the matrix, for every shape, in any arithmetic, and for dense SetRow wherever the argument lies. Dense SetRow needs i + c places of capacity in row i, which the code asks for. Refuted when the argument of SetColumn is part of the matrix: the loop reads back what it wrote."
  },
  {
   "property": "C65",
   "status": "proved",
   "theorems": [
    "C65_backward",
    "C65_finite",
    "C65_size",
    "C65_scale_refuted"
   ],
   "note": "With R finite and its diagonal zero or within 2^-450..2^511 (C65_backward, C65_size); Q then is finite if no diagonal entry is zero (C65_finite), and is bounded whenever it is finite. Outside that range it is false: C65_scale_refuted, an overflow that leaves R finite."
  },
  {
   "property": "C66",
   "status": "proved",
   "theorems": [
    "C66_solve"
   ],
   "note": "SolveVector, SolveMatrix and Inverse, any shape; same range as C65."
  },
  {
   "property": "C67",
   "status": "proved",
   "theorems": [
    "C67_permuted",
    "C67_backward"
   ],
   "note": "C67_permuted holds for every arithmetic; C67_backward is C65 for the rearranged matrix, with the same conditions."
  },
  {
   "property": "C68",
   "status": "proved",
   "theorems": [
    "C68_solve"
   ],
   "note": "For systems whose computed solution is finite; Inverse for m = n (for other shapes see C31)."
  },
  {
   "property": "C69",
   "status": "partial",
   "theorems": [
    "C69_vector",
    "C69_array",
    "C69_block",
    "C69_diagonal",
    "C69_combine_partial",
    "C69_combine_overlap",
    "C69_combine_refuted"
   ],
   "note": "False for Combine when the argument starts before the receiver in the same array and reaches into it (C69_combine_refuted; C69_combine_overlap says what is stored); proved for everything else."
  },
  {
   "property": "C70",
   "status": "proved",
   "theorems": [
    "C70_bidiagonal",
    "C70_finite",
    "C70_size",
    "C70_finite_refuted"
   ],
   "note": "With every entry of B zero or within 2^-450..2^511 (C70_bidiagonal, C70_size); U and V are finite if no entry on the two diagonals is zero (C70_finite), and are bounded whenever they are finite. Without that, finite A and B do not make U finite: for [2^-600] U is -Inf (C70_finite_refuted)."
  },
  {
   "property": "C71",
   "status": "proved",
   "theorems": [
    "C71_lu",
    "C71_cholesky",
    "C71_eigen",
    "C71_distances",
    "C71_norms",
    "C71_cosine_refuted"
   ],
   "note": "Determinants compared with the exact determinant of a nearby matrix; the bounds are for finite results, with a condition under which the result is finite. C71_cosine_refuted: VecCosine of (1,1,1) with itself is above 1."
  },
  {
   "property": "C72",
   "status": "proved",
   "theorems": [
    "C72_hessenberg",
    "C72_size",
    "C72_finite_refuted"
   ],
   "note": "With H finite and its subdiagonal (last entry excepted) zero or within 2^-450..2^511 (C72_hessenberg, C72_size); P is then shown finite, for orders with 10 (n - 2) (n + 4) 2^-53 <= 1/16. C72_finite_refuted: a column with 2^-1074 below the diagonal is skipped by the one-ulp comparison with zero, and P is NaN."
  },
  {
   "property": "C73",
   "status": "proved",
   "theorems": [
    "C73_tridiagonal",
    "C73_size",
    "C73_finite_refuted"
   ],
   "note": "With T finite and the entries beside the diagonal zero or within 2^-450..2^500 (C73_tridiagonal, C73_size); Q is finite if none of them is zero, and is bounded whenever it is finite. C73_finite_refuted: with an entry 2^-600 beside the diagonal its square underflows, the reflection is skipped, and Q divides by zero."
  },
  {
   "property": "C74",
   "status": "proved",
   "theorems": [
    "C74_lu",
    "C74_cholesky",
    "C74_qr",
    "C74_rrqr",
    "C74_hessenberg",
    "C74_tridiagonal",
    "C74_bidiagonal",
    "C74_rectangular",
    "C74_entries_only"
   ],
   "note": "For the eight constructors of HeapDec.v, array, block and diagonal matrices, any arithmetic. Not covered: Schur, eigen and singular value decompositions, whose heap programs are not modelled (they are built on the tridiagonal, Hessenberg and bidiagonal transforms)."
  },
  {
   "property": "C75",
   "status": "proved",
   "theorems": [
    "C75_lu",
    "C75_cholesky",
    "C75_qr",
    "C75_solutions_separate",
    "C75_entries_only"
   ],
   "note": "LU, Cholesky and QR solvers on array, block and diagonal matrices and on ArrayRealVector or other vectors (these as lists of entries), any arithmetic. Not covered: the solvers of RRQR, eigen and singular value decompositions, whose heap programs are not modelled."
  },
  {
   "property": "C76",
   "status": "proved",
   "theorems": [
    "C76_shared",
    "C76_no_race",
    "C76_as_alone",
    "C76_ends",
    "C76_new",
    "C76_apart",
    "C76_arithmetic",
    "C76_block_arithmetic",
    "C76_vectors",
    "C76_shift_trace"
   ],
   "note": "Interleaving of single actions (read or write of one entry or one slice header, allocation, append to nil, copy) in one memory. By C76_no_race the programs have no data race, which is what the Go memory model asks for in order to guarantee that every execution is such an interleaving. pivot and permutation arrays of ints are values, not storage. Not covered: Power (C79); calls that write to shared objects, and the accessors that fill caches (L, U, P, Q, R, H, ... : see C77); eigen, singular value and Schur decompositions, whose heap programs are not modelled."
  },
  {
   "property": "C77",
   "status": "partial",
   "theorems": [
    "C77_filled",
    "C77_filled_keeps",
    "C77_filled_no_race",
    "C77_filled_others",
    "C77_first_L",
    "C77_first_U",
    "C77_first_P",
    "C77_LT_partial",
    "C77_L_partial",
    "C77_early_refuted",
    "C77_forever_refuted",
    "C77_field_race_refuted",
    "C77_array_race_refuted",
    "C77_same_refuted"
   ],
   "note": "C77_filled, C77_filled_keeps, C77_filled_no_race, C77_filled_others give the whole claim once the fields are filled, and for LU decompositions found singular, whose fields stay nil. C77_first_L, C77_first_U, C77_first_P: a first call of an LU accessor by one goroutine. For first calls by several it is false: C77_early_refuted, C77_forever_refuted (LU), C77_field_race_refuted, C77_array_race_refuted, C77_same_refuted. C77_LT_partial and C77_L_partial give what does hold for first calls of the Cholesky accessors: right entries in every interleaving, no race on arrays. A field is taken to be read and written in one piece, which Go does not promise for racing programs."
  },
  {
   "property": "C78",
   "status": "proved",
   "theorems": [
    "C78_entrywise",
    "C78_product",
    "C78_vectors",
    "C78_trace",
    "C78_mismatch",
    "C78_separate",
    "C78_separate_diagonal",
    "C78_entries_only",
    "C78_diagonal",
    "C78_diagonal_product",
    "C78_diagonal_vectors",
    "C78_expressions",
    "C78_block_entrywise",
    "C78_block_product",
    "C78_block_vectors",
    "C78_block_trace",
    "C78_block_mismatch",
    "C78_block_separate",
    "C78_diagonal_mixed",
    "C78_diagonal_scalar",
    "C78_expressions_any",
    "C78_expressions_panic"
   ],
   "note": "C78_expressions is the case of dense receivers, with a simpler meaning ([means]); C78_expressions_any is for receivers of any kind ([stands])."
  },
  {
   "property": "C79",
   "status": "proved",
   "theorems": [
    "C79_power",
    "C79_any_arithmetic",
    "C79_separate",
    "C79_refused"
   ],
   "note": "Extends C14 from values to memory."
  }
 ]
}
{"id": "C01", "title": "Block matrix behaves as a plain table", "statement": "A BlockRealMatrix of r rows and c columns is observably an r by c table: after any sequence of SetEntry, AddToEntry and MultiplyEntry calls, At(i,j) returns the value last stored at (i,j) combined with the later additions and multiplications to (i,j) only, no other position is affected, and an index outside the table panics without changing anything.", "quantifier": "all positive dimensions (in particular not multiples of the block size), all initial contents, all finite sequences of entry updates, all indices, any float64 arithmetic", "why_tests_cant": "the storage is cut in 52x52 blocks with shorter edge blocks; an indexing slip only shows at particular positions of particular sizes, and tests use a handful of sizes", "anchors": ["block_real_matrix.go: At, SetEntry, AddToEntry, MultiplyEntry, blockHeight, blockWidth, NewBlockRealMatrix"]}
{"id": "C02", "title": "Dense and block matrices are interchangeable", "statement": "An Array2DRowRealMatrix and a BlockRealMatrix holding the same entries stay equal entry by entry under the same sequence of entry, row, column and sub-matrix writes and reads; so it does not matter which one NewRealMatrixWithDimension returns.", "quantifier": "all dimensions, all contents, all finite sequences of operations accepted by both", "why_tests_cant": "it relates two implementations over unbounded histories", "anchors": ["array_2d_row_real_matrix.go", "block_real_matrix.go", "real_matrix.go: NewRealMatrixWithDimension"]}
{"id": "C03", "title": "Building from slices and reading back", "statement": "For a rectangular non-empty [][]float64 d, each of NewArray2DRowRealMatrixFromSlices(d,true), NewBlockRealMatrixFromSlices(d) and NewRealMatrixFromSlices(d) gives a matrix with the dimensions of d, At(i,j)=d[i][j] everywhere and Data() equal to d; ragged, empty or nil input is rejected (by error or panic) and never yields a matrix.", "quantifier": "all rectangular slices of any size; all ragged or empty slices", "why_tests_cant": "sizes are unbounded and the block layout depends on size modulo 52", "anchors": ["array_2d_row_real_matrix.go: NewArray2DRowRealMatrixFromSlices, copyIn, Data", "block_real_matrix.go: NewBlockRealMatrixFromSlices, toBlocksLayout, Data", "real_matrix.go: NewRealMatrixFromSlices"]}
{"id": "C04", "title": "Transpose swaps indices", "statement": "m.Transpose() has swapped dimensions and entry (i,j) equal to m.At(j,i), for each of the three implementations; transposing twice gives the original entries.", "quantifier": "all matrices of all sizes", "why_tests_cant": "sizes unbounded; block edges", "anchors": ["array_2d_row_real_matrix.go: Transpose", "block_real_matrix.go: Transpose", "diagonal_matrix.go: Transpose"]}
{"id": "C05", "title": "Entrywise arithmetic", "statement": "Add, Subtract, ScalarAdd and ScalarMultiply return (or leave) a matrix whose (i,j) entry is the float64 sum, difference, sum with the scalar or product with the scalar of the operands' (i,j) entries, whatever implementations the operands have, leave the operands of Add and Subtract unchanged, and panic on different dimensions.", "quantifier": "all sizes, all contents, all combinations of implementations of the argument", "why_tests_cant": "sizes unbounded; the fast paths differ by implementation", "anchors": ["array_2d_row_real_matrix.go: Add, Subtract, ScalarAdd, ScalarMultiply", "block_real_matrix.go: Add, Subtract, ScalarAdd, ScalarMultiply"]}
{"id": "C06", "title": "Matrix product", "statement": "a.Multiply(b) has a's row count and b's column count and, in exact arithmetic, entry (i,j) is the sum over k of a(i,k)*b(k,j), for dense, block and mixed operands; it panics exactly when a's column count differs from b's row count. For the dense implementation the float64 value is exactly the left-to-right accumulated sum.", "quantifier": "all dimensions, all contents, all combinations of implementations", "why_tests_cant": "the block version has unrolled loops over partial blocks", "anchors": ["array_2d_row_real_matrix.go: Multiply", "block_real_matrix.go: Multiply", "diagonal_matrix.go: Multiply"]}
{"id": "C07", "title": "Matrix-vector products agree with the matrix product", "statement": "Operate(v) is the vector of dot products of the rows with v, PreMultiply(v) the vector of dot products of the columns with v, in exact arithmetic, for the three implementations; both panic on a length mismatch.", "quantifier": "all dimensions, all contents, all vectors", "why_tests_cant": "unrolled loops, partial blocks, unbounded sizes", "anchors": ["array_2d_row_real_matrix.go: Operate, PreMultiply", "block_real_matrix.go: Operate, PreMultiply", "diagonal_matrix.go: Operate, PreMultiply"]}
{"id": "C08", "title": "Operations accept any RealVector", "statement": "OperateVector(x) and PreMultiplyVector(x) give the same result for every RealVector holding the same values, whether or not it is an *ArrayRealVector.", "quantifier": "all matrices, all vectors of matching length, all implementations of RealVector", "why_tests_cant": "tests only use the library's own vector type, the interface allows any other", "anchors": ["array_2d_row_real_matrix.go: OperateVector, PreMultiplyVector", "block_real_matrix.go: OperateVector, PreMultiplyVector"]}
{"id": "C09", "title": "Sub-matrix extraction", "statement": "SubMatrix(r0,r1,c0,c1) on in-range ordered bounds returns an (r1-r0+1) by (c1-c0+1) matrix with entry (i,j) equal to the source entry (r0+i,c0+j); out-of-range or reversed bounds panic.", "quantifier": "all sizes, all windows (including those crossing any number of block borders)", "why_tests_cant": "the block version has four cases per block depending on how the window straddles blocks", "anchors": ["block_real_matrix.go: SubMatrix, copyBlockPart", "array_2d_row_real_matrix.go: SubMatrix", "array_2d_row_real_matrix.go: checkSubMatrixIndex"]}
{"id": "C10", "title": "Sub-matrix writing", "statement": "SetSubMatrix(d,r,c) that fits in the matrix makes entry (r+i,c+j) equal to d[i][j] and leaves every entry outside the window as it was; if it does not fit it panics.", "quantifier": "all sizes, all positions, all rectangular d", "why_tests_cant": "window crossing block borders", "anchors": ["block_real_matrix.go: SetSubMatrix", "array_2d_row_real_matrix.go: SetSubMatrix"]}
{"id": "C11", "title": "Row and column access", "statement": "RowAt, ColumnAt, RowVectorAt, ColumnVectorAt, RowMatrixAt and ColumnMatrixAt return the entries of the given row or column in order; SetRow, SetColumn, SetRowVector, SetColumnVector, SetRowMatrix and SetColumnMatrix replace exactly that row or column, changing nothing else; a bad index or wrong length panics.", "quantifier": "all sizes, all indices, all contents", "why_tests_cant": "sizes unbounded, block edges; every row index must work and tests only try row 0", "anchors": ["array_2d_row_real_matrix.go", "block_real_matrix.go: RowAt, ColumnAt, SetRow, SetColumn, RowMatrixAt, SetRowMatrix"]}
{"id": "C12", "title": "Walks visit every entry once in the promised order", "statement": "WalkInRowOrder visits exactly the entries of the matrix (or of the window) once each, row by row; WalkInColumnOrder column by column; WalkInOptimizedOrder visits each entry exactly once in some order; every visit receives the position and its current value; the Start call receives the dimensions and window.", "quantifier": "all sizes, all windows, all visitors", "why_tests_cant": "visitor state is arbitrary, order is a sequence property", "anchors": ["array_2d_row_real_matrix.go: Walk*", "block_real_matrix.go: Walk*", "diagonal_matrix.go: Walk*"]}
{"id": "C13", "title": "Update walks store exactly what the visitor returns", "statement": "WalkInUpdateRowOrder, WalkInUpdateColumnOrder and WalkInUpdateOptimizedOrder (and the bounded forms) replace each visited entry by the value returned by the visitor for it and leave unvisited entries unchanged; the walk returns the visitor's End value.", "quantifier": "all sizes, windows and visitors", "why_tests_cant": "visitor state is arbitrary", "anchors": ["array_2d_row_real_matrix.go: WalkInUpdate*", "block_real_matrix.go: WalkInUpdate*"]}
{"id": "C14", "title": "Integer powers", "statement": "Power(m,p) for square m and p>=0 is the product of p copies of m (the identity for p=0) in exact arithmetic; it panics for negative p and for a non-square m.", "quantifier": "all square matrices, all p>=0", "why_tests_cant": "p and size unbounded; algorithm uses the binary representation of p-1", "anchors": ["real_matrix.go: Power"]}
{"id": "C15", "title": "Diagonal matrices stay diagonal", "statement": "Whatever operations are applied to a DiagonalMatrix, every off-diagonal At(i,j) is 0 and each diagonal entry is the last value stored; a write of a non-zero off the diagonal panics and changes nothing.", "quantifier": "all sizes, all sequences of operations", "why_tests_cant": "invariant over unbounded histories", "anchors": ["diagonal_matrix.go: At, SetEntry, AddToEntry, MultiplyEntry, ensureZero"]}
{"id": "C16", "title": "Diagonal scaling works for every scalar", "statement": "ScalarMultiply(d) on a DiagonalMatrix with finite entries multiplies every diagonal entry by d, for every finite d.", "quantifier": "all sizes, all finite d including negative ones", "why_tests_cant": "depends on bit-level treatment of negative zero", "anchors": ["diagonal_matrix.go: ScalarMultiply, ensureZero", "utils.go: equalsWithULP"]}
{"id": "C17", "title": "Diagonal product and inverse", "statement": "The product of a DiagonalMatrix with a dense matrix scales the rows, the product of two diagonal matrices multiplies the diagonals, and Inverse / InverseWithThreshold returns the matrix whose product with the original is the identity, panicking when a diagonal entry is within the threshold of zero.", "quantifier": "all sizes and contents, exact arithmetic", "why_tests_cant": "sizes unbounded", "anchors": ["diagonal_matrix.go: Multiply, MultiplyDiagonalMatrix, PreMultiplyMatrix, Inverse, InverseWithThreshold, IsSingular"]}
{"id": "C18", "title": "Float comparison helper", "statement": "The one-ulp float comparison used for zero tests treats two floats as equal exactly when neither is NaN and they are equal or adjacent, symmetrically, with +0 and -0 equal.", "quantifier": "all pairs of 64-bit patterns", "why_tests_cant": "2^128 pairs; the sign mask selects a mantissa bit", "anchors": ["utils.go: equalsWithULP, equals, compareTo"]}
{"id": "C19", "title": "Vector algebra is entrywise", "statement": "Add, Subtract, EBEMultiply, EBEDivide, Combine, MapAdd/Multiply/Divide/Subtract and Map act entry by entry, return vectors of the same dimension, and panic on dimension mismatch; the two-operand ones leave both operands unchanged.", "quantifier": "all dimensions, all contents, all implementations of the argument", "why_tests_cant": "dimension unbounded", "anchors": ["array_real_vector.go"]}
{"id": "C20", "title": "Appending and sub-vectors", "statement": "u.AppendVector(v) has dimension u+v with u's entries followed by v's; SubVector(i,n) returns entries i..i+n-1; SetSubVector(i,v) replaces exactly those entries; out-of-range arguments panic.", "quantifier": "all dimensions, indices and contents, all implementations of the argument", "why_tests_cant": "unbounded sizes", "anchors": ["array_real_vector.go: AppendVector, Append, SubVector, SetSubVector, NewArrayRealVectorFromTwoRealVector"]}
{"id": "C21", "title": "Norms, distances and cosine", "statement": "In exact arithmetic VecNorm, VecL1Norm, VecLInfNorm are norms (non-negative, zero only for zero vector, absolutely homogeneous, triangle inequality), the distances are the norms of the difference, |VecCosine| <= 1, and UnitVector/Unitize give norm 1 or panic on the zero vector.", "quantifier": "all dimensions and real entries", "why_tests_cant": "inequalities over all reals", "anchors": ["real_vector.go", "array_real_vector.go"]}
{"id": "C22", "title": "Minimum and maximum search", "statement": "MinIndex returns an index of a smallest non-NaN entry (the last one among equals) and -1 exactly when there is none; MaxIndex likewise for the largest.", "quantifier": "all vectors, including NaN and infinities", "why_tests_cant": "special values and ties in unbounded vectors", "anchors": ["real_vector.go: MinIndex, MaxIndex, MinValue, MaxValue"]}
{"id": "C23", "title": "Equality is an equivalence on NaN-free values", "statement": "Equals on vectors and matrices is reflexive, symmetric and transitive on values without NaN, is true exactly when dimensions and all entries agree, also across implementations.", "quantifier": "all pairs and triples", "why_tests_cant": "relational property over all contents and implementations", "anchors": ["array_real_vector.go: Equals", "array_2d_row_real_matrix.go: Equals", "block_real_matrix.go: Equals", "diagonal_matrix.go: Equals"]}
{"id": "C24", "title": "LU factorisation", "statement": "For a square matrix A whose LU decomposition reports non-singular, P*A = L*U in exact arithmetic, L is unit lower triangular with entries of absolute value at most 1, U upper triangular, P a permutation matrix matching Pivot(). The constructor rejects non-square matrices with an error and never panics on a square one.", "quantifier": "all square matrices of all sizes (the no-panic and permutation part: any float64 arithmetic including NaN)", "why_tests_cant": "all sizes and real entries; pivoting order is data dependent", "anchors": ["lu_decomposition.go: NewLUDecompositionWithThreshold, L, U, P, Pivot"]}
{"id": "C25", "title": "LU determinant", "statement": "Determinant() of a non-singular decomposition equals the mathematical determinant of A in exact arithmetic.", "quantifier": "all square matrices", "why_tests_cant": "needs sign of an arbitrary pivot permutation", "anchors": ["lu_decomposition.go: Determinant"]}
{"id": "C26", "title": "LU solver", "statement": "Solver().SolveVector(b) returns x with A*x=b, SolveMatrix(B) returns X with A*X=B, Inverse() returns the two-sided inverse, in exact arithmetic, and all of them panic when the decomposition is singular or the dimensions differ.", "quantifier": "all sizes, all right-hand sides", "why_tests_cant": "unbounded sizes and reals", "anchors": ["lu_decomposition.go: luDecompositionSolver"]}
{"id": "C27", "title": "Cholesky factorisation", "statement": "If NewCholeskyDecomposition succeeds on A, L*LT equals A whenever A is exactly symmetric, L is lower triangular with positive diagonal, Determinant() is det A; it returns an error on non-square, non-symmetric (beyond the relative threshold) or non positive definite input, and succeeds on every symmetric positive definite matrix whose pivots exceed the threshold.", "quantifier": "all sizes and contents", "why_tests_cant": "all sizes, positivity is not decidable by examples", "anchors": ["cholesky_decomposition.go"]}
{"id": "C28", "title": "Cholesky solver", "statement": "Solver().SolveVector/SolveMatrix/Inverse of a Cholesky decomposition solve A*X=B.", "quantifier": "all sizes, all right-hand sides", "why_tests_cant": "unbounded sizes and reals", "anchors": ["cholesky_decomposition.go: choleskyDecompositionSolver"]}
{"id": "C29", "title": "QR factorisation", "statement": "For any m by n matrix A, Q()*R() = A, Q() is orthogonal, R() upper triangular (trapezoidal), QT() is the transpose of Q(), in exact arithmetic.", "quantifier": "all shapes (tall, wide, square, rank deficient)", "why_tests_cant": "all shapes and reals", "anchors": ["qr_decomposition.go: NewQRDecomposition, Q, QT, R, performHouseholderReflection"]}
{"id": "C30", "title": "QR solver is least squares", "statement": "When the R diagonal is above the threshold, SolveVector(b) returns x minimising |A*x-b| (A*x=b for square A), SolveMatrix(B) gives the same columns as SolveVector on each column of B; it panics when singular or sizes differ.", "quantifier": "all m>=n shapes, all right-hand sides", "why_tests_cant": "block loops, unbounded sizes", "anchors": ["qr_decomposition.go: qrDecompositionSolver"]}
{"id": "C31", "title": "Rank revealing QR", "statement": "A*P = Q*R with P a permutation matrix and Q orthogonal; Rank(d) returns a value between 1 and min(m,n).", "quantifier": "all shapes", "why_tests_cant": "data dependent column pivoting", "anchors": ["rrqr_decomposition.go"]}
{"id": "C32", "title": "Rectangular Cholesky", "statement": "For a symmetric positive semidefinite A, root()*root()^T = A when the small threshold is not hit, root has Rank columns.", "quantifier": "all sizes", "why_tests_cant": "data dependent pivoting", "anchors": ["rectangular_cholesky_decomposition.go"]}
{"id": "C33", "title": "Tridiagonal transform", "statement": "For symmetric A, A = Q*T*QT with Q orthogonal, T symmetric tridiagonal; only the upper triangle of A is read.", "quantifier": "all sizes", "why_tests_cant": "unbounded sizes and reals", "anchors": ["tridiagonal_transformer.go"]}
{"id": "C34", "title": "Bidiagonal transform", "statement": "For any A, A = U*B*VT with U and V orthogonal, B upper (m>=n) or lower (m<n) bidiagonal.", "quantifier": "all shapes", "why_tests_cant": "two interleaved Householder sweeps, all shapes", "anchors": ["bidiagonal_transformer.go"]}
{"id": "C35", "title": "Hessenberg transform", "statement": "For square A, A = P*H*PT with P orthogonal and H zero below the first sub-diagonal.", "quantifier": "all sizes", "why_tests_cant": "unbounded sizes and reals", "anchors": ["hessenberg_transformer.go"]}
{"id": "C36", "title": "Copies are independent", "statement": "Copy(), Data(), SubMatrix, RowAt, ColumnAt, ToArray and the copying constructors return storage that no later write to either side can make visible on the other; the documented reference accessors (DataRef, copyArray=false) do share.", "quantifier": "all matrices and vectors, all later sequences of writes", "why_tests_cant": "aliasing over unbounded histories", "anchors": ["array_2d_row_real_matrix.go: Copy, Data, DataRef", "block_real_matrix.go: Copy, Data", "array_real_vector.go: Copy, ToArray, DataRef", "diagonal_matrix.go: Copy, DataRef"]}
{"id": "C37", "title": "Sub-vector write with overlapping storage", "statement": "SetSubVector(i,v) stores v's values as they were before the call, even if v shares storage with the receiver.", "quantifier": "all vectors sharing storage at any offset", "why_tests_cant": "aliasing", "anchors": ["array_real_vector.go: SetSubVector, SetSubVectorWithSlice"]}
{"id": "C38", "title": "Decompositions do not modify their input and repeat themselves", "statement": "Building a decomposition leaves the matrix unchanged; the accessors (L, U, P, Q, R, ...) return equal results at every call in any order.", "quantifier": "all matrices, all sequences of accessor calls", "why_tests_cant": "caching over unbounded call histories", "anchors": ["lu_decomposition.go", "qr_decomposition.go", "cholesky_decomposition.go"]}
{"id": "C39", "title": "Trace and norms of matrices", "statement": "Trace is the sum of the diagonal of a square matrix and panics otherwise; MatFrobeniusNorm is the square root of the sum of squares; MatLInfNorm is the maximum absolute row sum.", "quantifier": "all sizes, exact arithmetic", "why_tests_cant": "unbounded sizes", "anchors": ["real_matrix.go: MatLInfNorm, MatFrobeniusNorm", "array_2d_row_real_matrix.go: Trace"]}
{"id": "C40", "title": "Index-set sub-matrices and copies", "statement": "SubMatrix(m,rows,cols) has entry (i,j) equal to m(rows[i],cols[j]); CopySubMatrix writes exactly the window into the destination; empty or out-of-range index sets panic.", "quantifier": "all index lists including repetitions", "why_tests_cant": "unbounded", "anchors": ["real_matrix.go: SubMatrix, CopySubMatrix, CopySubMatrixFromIndices"]}
{"id": "C41", "title": "Outer product and projection", "statement": "OuterProduct(u,v) has entry (i,j)=u_i*v_j; Projection(u,v) is the multiple of v with u-Projection orthogonal to v, and leaves its arguments unchanged.", "quantifier": "all dimensions", "why_tests_cant": "unbounded, side effects", "anchors": ["real_matrix.go: OuterProduct", "real_vector.go: Projection"]}
{"id": "C42", "title": "Symmetric eigenvectors are orthonormal and eigenvalues sorted", "statement": "For a symmetric A whose decomposition is returned, V is orthogonal and the real eigenvalues are in descending order; an error is returned after at most 30 iterations on one eigenvalue.", "quantifier": "all symmetric matrices", "why_tests_cant": "data dependent iteration", "anchors": ["eigen_decomposition.go: findEigenVectors, NewEigenDecomposition"]}
{"id": "C43", "title": "Schur form", "statement": "When it returns, A = P*T*PT with P orthogonal; the iteration stops after at most 100 steps per eigenvalue, by a result or a panic.", "quantifier": "all square matrices", "why_tests_cant": "data dependent iteration", "anchors": ["schur_transformer.go"]}
{"id": "C44", "title": "Determinant from eigenvalues", "statement": "EigenDecomposition.Determinant() equals the determinant of A.", "quantifier": "all square matrices", "why_tests_cant": "complex conjugate eigenvalues occur only for some matrices", "anchors": ["eigen_decomposition.go: Determinant"]}
{"id": "C45", "title": "Singular values are sorted and non-negative", "statement": "SingularValues(), when none is NaN, are non-negative and in non-increasing order; U and V have orthonormal columns.", "quantifier": "all shapes, all executions that return", "why_tests_cant": "data dependent iteration", "anchors": ["singular_value_decomposition.go"]}
{"id": "C46", "title": "Vector walks", "statement": "WalkInDefaultOrder, WalkInOptimizedOrder and their bounded and updating forms call the visitor once for each index of the range in increasing order with the current value, after one Start call with the dimension and range, store exactly the returned values (updating forms), leave entries outside the range unchanged and return the End value; a bad range panics.", "quantifier": "all vectors, all ranges, all visitors with any internal state", "why_tests_cant": "Visitors are arbitrary stateful code; the claim ranges over all of them and all ranges.", "anchors": ["array_real_vector.go: WalkInDefaultOrder, WalkInDefaultOrderBounded, WalkInUpdateDefaultOrder, WalkInUpdateDefaultOrderBounded, WalkInOptimizedOrder"]}
{"id": "C47", "title": "Square root of a symmetric matrix", "statement": "EigenDecomposition.SquareRoot() of a symmetric matrix with positive eigenvalues is a symmetric positive semi-definite matrix whose square is V*D*VT; it panics when the matrix is not symmetric or an eigenvalue is not positive.", "quantifier": "all symmetric matrices of any dimension", "why_tests_cant": "an identity over all matrices and all eigenvalue signs", "anchors": ["eigen_decomposition.go: SquareRoot"]}
{"id": "C48", "title": "Eigen solver", "statement": "For a symmetric matrix, IsNonSingular() holds exactly when every eigenvalue exceeds 1e-12 times the largest one in magnitude; then SolveVector, SolveMatrix and Inverse solve V*D*VT X = B exactly; otherwise they panic, as they do on a dimension mismatch.", "quantifier": "all symmetric matrices, all right-hand sides", "why_tests_cant": "an identity over all matrices and right-hand sides", "anchors": ["eigen_decomposition.go: eigenDecompositionSolver IsNonSingular, SolveVector, SolveMatrix, Inverse"]}
{"id": "C49", "title": "Singular value factorisation", "statement": "NewSingularValueDecomposition returns for every matrix, and U*S*VT = A, where S is the diagonal matrix of SingularValues() and UT, VT are the transposes of U, V; the accessors give the same answers in any order.", "quantifier": "all shapes, all entries, all orders of calls", "why_tests_cant": "an iteration whose length depends on the data; an identity over all matrices", "anchors": ["singular_value_decomposition.go: NewSingularValueDecomposition, U, UT, S, V, VT, SingularValues"]}
{"id": "C50", "title": "Norm and condition number from the singular values", "statement": "Norm() is the maximum of |A u| over unit vectors u, ConditionNumber() its quotient by the minimum (for a matrix with no more columns than rows) and InverseConditionNumber() the inverse quotient, up to the factorisation error of C49.", "quantifier": "all matrices, all vectors u", "why_tests_cant": "a maximum over a continuum of vectors", "anchors": ["singular_value_decomposition.go: Norm, ConditionNumber, InverseConditionNumber"]}
{"id": "C51", "title": "Least squares by SVD", "statement": "Inverse() of the solver is a Moore-Penrose inverse of A (singular values up to the rank threshold being dropped); SolveVector(b) minimises |A x - b| and has least norm among the minimisers, SolveMatrix does so column by column, up to the factorisation error of C49.", "quantifier": "all matrices, all right-hand sides, all competing solutions", "why_tests_cant": "a minimum over a continuum of vectors", "anchors": ["singular_value_decomposition.go: Solver, svDecompositionSolver SolveVector, SolveMatrix, Inverse"]}
{"id": "C52", "title": "Numerical rank by SVD", "statement": "Rank() is the number of singular values above the threshold max(max(m,n)*s1*2^-52, sqrt(2^-53)), and IsNonSingular() holds exactly for a square matrix all of whose singular values are above it.", "quantifier": "all matrices", "why_tests_cant": "data dependent iteration; the documented threshold is scale free, the one used is not", "anchors": ["singular_value_decomposition.go: Rank, svDecompositionSolver IsNonSingular"]}
{"id": "C53", "title": "Covariance", "statement": "Covariance(min) is the n*n matrix V*J*VT for a matrix of n columns, J the diagonal of the inverse squares of the singular values that are at least min, and panics when none is.", "quantifier": "all shapes, all bounds", "why_tests_cant": "an identity over all matrices; shapes", "anchors": ["singular_value_decomposition.go: Covariance"]}
{"id": "C54", "title": "CopyFrom with overlapping storage", "statement": "CopyFrom(v) makes the receiver equal to v as it was before the call, even if v shares storage with the receiver.", "quantifier": "all vectors sharing storage at any offset", "why_tests_cant": "aliasing at every offset and length", "anchors": ["array_real_vector.go: CopyFrom"]}
{"id": "C55", "title": "Eigen decomposition of matrices that are not symmetric", "statement": "NewEigenDecomposition(A) of a square matrix that is not symmetric terminates; it returns an error only if A is (nearly) zero. The eigenvalues come from the diagonal blocks of the Schur form T: a 1x1 block is a real eigenvalue, a 2x2 block gives the two conjugate roots of its characteristic polynomial, in adjacent places. D() has the real parts on the diagonal and the imaginary parts beside it, V() is invertible when the eigenvalues differ, A*V = V*D up to a small relative error in every column, and VT, RealEigenvalueAt, ImagEigenvalue and EigenvectorAt agree with V and the eigenvalues. HasComplexEigenvalues tells whether an imaginary part exceeds 1e-12 in size, and Solver refuses exactly then. Scaling the matrix does not change which eigenvalues are real.", "quantifier": "all square matrices that fail the symmetry test, of every size; every sequence of accessor calls", "why_tests_cant": "an identity over all matrices and an iteration count that depends on the data; the thresholds are absolute", "anchors": ["eigen_decomposition.go: NewEigenDecomposition, transformToSchur, findEigenVectorsFromSchur, cdiv, V, D, VT, RealEigenvalueAt, ImagEigenvalue, EigenvectorAt", "schur_transformer.go"]}
{"id": "C56", "title": "Refused writes change nothing", "statement": "If a call that writes (SetEntry, AddToEntry, MultiplyEntry, SetRow, SetColumn, SetSubMatrix, SetSubVector, SetSubVectorWithSlice, CopyFrom, Combine) panics, no vector, matrix or slice has changed.", "quantifier": "all receivers, indices and arguments, of any shape and sharing storage in any way", "why_tests_cant": "every combination of index, shape and aliasing; tests of panics do not look at the memory left behind", "anchors": ["array_real_vector.go: SetEntry, AddToEntry, SetSubVector, SetSubVectorWithSlice, CopyFrom, Combine", "array_2d_row_real_matrix.go: SetEntry, AddToEntry, MultiplyEntry, SetRow, SetColumn, SetSubMatrix", "diagonal_matrix.go: SetEntry, AddToEntry, MultiplyEntry, SetRow, SetColumn", "block_real_matrix.go: SetEntry, AddToEntry, MultiplyEntry, SetRow, SetColumn, SetSubMatrix"]}
{"id": "C57", "title": "Rounding error of products, sums and norms", "statement": "On float64, the results of Multiply, Operate, PreMultiply, VecDotProduct, Trace and the vector norms are within the classical rounding bound of the exact value: for a sum of n products the error is at most ((1+2^-53)^n - 1) times the sum of the absolute products, plus n times the underflow unit. The results are finite whenever that bound keeps the sums below the largest finite number. VecLInfNorm is exact.", "quantifier": "all finite entries, all shapes, every pair of matrix representations", "why_tests_cant": "tests compare with a tolerance on a few matrices; the bound is about all float64 values, every blocking and every order of summation in the code", "anchors": ["array_2d_row_real_matrix.go: Multiply, Operate, PreMultiply, Trace", "block_real_matrix.go: Multiply, Operate, PreMultiply, Trace", "diagonal_matrix.go: Multiply, Operate, PreMultiply, Trace", "real_vector.go: VecDotProduct, VecNorm, VecL1Norm, VecLInfNorm"]}
{"id": "C58", "title": "Backward stability of the LU factors", "statement": "On float64, if the factors of a decomposition that is not reported singular are finite, L U equals the row-permuted input up to the classical componentwise bound ((1+2^-53)^n - 1) |L| |U| plus underflow, and no entry of L exceeds 1. The factors are finite whenever the threshold is positive and the entries leave room for n-1 doublings below the largest float64.", "quantifier": "all finite square matrices of every size and representation, all thresholds, after any accessor calls", "why_tests_cant": "a bound over all float64 matrices of all sizes; tests check a few matrices against a tolerance", "anchors": ["lu_decomposition.go: NewLUDecompositionWithThreshold, L, U, Pivot"]}
{"id": "C59", "title": "Residual of LU solutions", "statement": "On float64, a finite solution x that SolveVector, SolveMatrix or Inverse of the LU solver returns has a residual |b - A x| of at most g (3 + g) |L| |U| |x|, g = (1+2^-53)^n - 1, plus underflow, componentwise.", "quantifier": "all finite square matrices not reported singular, all finite right hand sides, of every size and representation", "why_tests_cant": "a bound over all float64 systems of all sizes", "anchors": ["lu_decomposition.go: SolveVector, SolveMatrix, Inverse"]}
{"id": "C60", "title": "Backward stability of Cholesky", "statement": "On float64, if the factor L of an accepted matrix is finite, L L^T equals the symmetric matrix given by the upper triangle of the input up to ((1+2^-53)^(n+1) - 1) |L| |L^T| plus underflow, and a finite solution x that SolveVector, SolveMatrix or Inverse returns has a residual of at most g (3 + g) |L| |L^T| |x|, g = (1+2^-53)^(n+1) - 1, plus underflow, componentwise.", "quantifier": "all finite square matrices of every size and representation, all thresholds, all finite right hand sides, after any accessor calls", "why_tests_cant": "a bound over all float64 matrices of all sizes; tests check a few matrices against a tolerance", "anchors": ["cholesky_decomposition.go: NewCholeskyDecomposition, L, SolveVector, SolveMatrix, Inverse"]}
{"id": "C61", "title": "Cholesky accepts only definite float64 matrices", "statement": "On float64, a finite symmetric matrix that the Cholesky constructor accepts is positive definite up to rounding: x^T A x is at least minus the rounding bound of the factorisation, |x|^T E |x|, for every real vector x.", "quantifier": "all finite symmetric matrices of every size and representation, all thresholds, all real vectors x", "why_tests_cant": "a statement over all matrices and all vectors x; it fails only when a pivot overflows to NaN, which tests of ordinary matrices do not reach", "anchors": ["cholesky_decomposition.go: NewCholeskyDecomposition, NewDefaultCholeskyDecomposition"]}
{"id": "C62", "title": "Error messages say what went wrong", "statement": "The text of an error, Error(), is the message of its kind with the offending values filled in: the refused index and range, the two shapes, the row and column of the asymmetry, the pivot that is not positive.", "quantifier": "all error constructors of the package and all argument values, for every rendering of float64", "why_tests_cant": "the tests check that an error occurs, not its text, and a text is right only if it is right for all values", "anchors": ["error.go: mathErrorf, mathIllegalNumberErrorf, addMsg, maxIterationErrorf and the constructors built on them"]}
{"id": "C63", "title": "Errors carry the refused values", "statement": "The index, shape and constructor checks return an error exactly for illegal arguments; its accessors give the refused value and the legal range or both shapes, its status tells the kind of error apart, and IsBoundAllowed tells whether the bound itself is legal.", "quantifier": "all dimensions and indices, all errors", "why_tests_cant": "a statement over all indices and all pairs of errors", "anchors": ["error.go: Status, Argument, Low, High, Min, IsBoundAllowed, WrongRowDimension", "array_2d_row_real_matrix.go: checkRowIndex, checkSubMatrixIndex", "array_real_vector.go: checkIndex, checkIndices"]}
{"id": "C64", "title": "Writers of a row, column or submatrix store exactly the argument", "statement": "SetRow, SetColumn and SetSubMatrix of dense and block matrices with legal arguments store in the addressed entries the values the argument had before the call; every other entry of the matrix and everything else in memory stays as it was, also when argument and matrix share storage. Copies and matrices built from slices share storage with nothing that existed before.", "quantifier": "all memories, shapes, indices, arguments and arithmetics", "why_tests_cant": "a statement over all memories and all ways argument, matrix and other slices can overlap", "anchors": ["array_2d_row_real_matrix.go: SetRow, SetColumn, SetSubMatrix, Copy, NewArray2DRowRealMatrixFromSlices", "block_real_matrix.go: SetRow, SetColumn, SetSubMatrix, Copy, NewBlockRealMatrixFromSlices"]}
{"id": "C65", "title": "Rounding error of the QR decomposition", "statement": "On float64, Q() R() is the decomposed matrix up to a relative error of about 11 p (m + 4) 2^-53 per column (p reflections of m-vectors) and underflow: an orthogonal matrix times R() is that close to the matrix, the columns of Q() are that close to it and orthonormal to that order, if both factors are finite and the diagonal of R() is zero or between 2^-450 and 2^511 in size. Q() is finite if no diagonal entry of R() is zero and 10 p (m + 4) 2^-53 is at most 1/16.", "quantifier": "all shapes with fewer than about 2^43 rows, all finite float64 entries, thresholds and accessor histories", "why_tests_cant": "a bound over all float64 inputs and shapes", "anchors": ["qr_decomposition.go: performHouseholderReflection, decompose, R, Q, QT"]}
{"id": "C66", "title": "Rounding error of the QR solver", "statement": "On float64, the QR solver of a matrix it reports nonsingular returns the exact least-squares solution (for m <= n, the exact solution) of a system whose matrix and right side differ from the given ones by a relative error per column of the order of C65 and underflow; the same for each column of SolveMatrix and Inverse.", "quantifier": "all shapes and finite float64 entries as in C65, all right sides, whenever the solution is finite", "why_tests_cant": "a bound over all float64 inputs and shapes", "anchors": ["qr_decomposition.go: qrDecompositionSolver.SolveVector, SolveMatrix, Inverse"]}
{"id": "C67", "title": "Rank-revealing QR is QR of the rearranged matrix", "statement": "In every arithmetic, float64 included, P() of the rank-revealing decomposition is the matrix of a permutation of the columns, and Q(), R(), H() and IsNonSingular() are bit for bit those of the plain QR decomposition of the matrix with its columns so rearranged, whatever type holds it; hence on float64 A P = Q R holds up to the rounding of C65.", "quantifier": "all shapes, entries (NaN and infinities included), thresholds, matrix types that can be transposed, accessor histories; for the bound the shapes and entries of C65", "why_tests_cant": "equality of two different loops on all inputs of every shape; a bound over all float64 inputs", "anchors": ["rrqr_decomposition.go: NewRRQRDecompositionWithThreshold, performHouseholderReflection, decompose, P"]}
{"id": "C68", "title": "Rounding error of the rank-revealing QR solver", "statement": "On float64, the rank-revealing solver of a matrix it reports nonsingular returns the exact least-squares solution (for m <= n, an exact solution) of a system whose matrix and right side differ from the given ones by a relative error per column of the order of C65 and underflow; multiplying by P to restore the order of the unknowns adds no error.", "quantifier": "all shapes and finite float64 entries as in C65, all right sides, whenever the solution is finite; Inverse for square matrices", "why_tests_cant": "a bound over all float64 inputs and shapes", "anchors": ["rrqr_decomposition.go: rrqrDecompositionSolver.SolveVector, SolveMatrix, Inverse"]}
{"id": "C69", "title": "In-place writers of entries and vectors", "statement": "SetEntry, AddToEntry, MultiplyEntry of vectors and of dense, block and diagonal matrices, and Set, the Map methods and Combine of vectors leave exactly the documented values in the places they address, computed from the values before the call, and change nothing else in memory, also when the vector given to Combine shares storage with the receiver.", "quantifier": "all memory contents, shapes, indices in range, values, functions and positions of the argument relative to the receiver", "why_tests_cant": "all layouts of two vectors in one array and all matrix sizes, including every block boundary", "anchors": ["array_real_vector.go: SetEntry, AddToEntry, Set, Map, Combine", "array_2d_row_real_matrix.go: SetEntry, AddToEntry, MultiplyEntry", "block_real_matrix.go: SetEntry, AddToEntry, MultiplyEntry", "diagonal_matrix.go: SetEntry, AddToEntry, MultiplyEntry"]}
{"id": "C70", "title": "Rounding error of the bidiagonal transform", "statement": "On float64, U() B() V()^T is the transformed matrix up to a relative error of about 11 (2 p - 1) (max(m, n) + 4) 2^-53 in the Frobenius norm (p the smaller dimension) and underflow: orthogonal matrices take B() that close to the matrix, the columns of U() and V() are close to theirs and orthonormal to that order, and the computed factors multiply to the matrix up to these errors, if the factors are finite and every entry of B() is zero or between 2^-450 and 2^511 in size. U() and V() are finite if no entry on the two diagonals of B() is zero and 10 p (max(m, n) + 4) 2^-53 is at most 1/16; otherwise they can be infinite.", "quantifier": "all shapes (tall, square and wide) with sides below about 2^43, all finite float64 entries and all accessor histories", "why_tests_cant": "a bound over all float64 inputs and shapes", "anchors": ["bidiagonal_transformer.go: transformToUpperBiDiagonal, transformToLowerBiDiagonal, U, B, V"]}
{"id": "C71", "title": "Rounding error of determinants, distances and matrix norms", "statement": "On float64, Determinant of the LU and Cholesky decompositions is, up to one or two roundings a factor and underflow, the exact determinant of a matrix within the backward error of the factorisation (C58, C59) of the one given; Determinant of the eigen decomposition is that close to the product of the real parts returned; VecDistance, VecL1Distance, VecLInfDistance, MatFrobeniusNorm and MatLInfNorm are within the classical rounding bound of the exact values; each is finite when the exact sizes leave room. VecCosine is not always within [-1, 1].", "quantifier": "all sizes, all finite float64 entries, all thresholds, all accessor histories, the three matrix representations", "why_tests_cant": "a bound over all float64 inputs and sizes", "anchors": ["lu_decomposition.go: Determinant", "cholesky_decomposition.go: Determinant", "eigen_decomposition.go: Determinant", "real_vector.go: VecDistance, VecL1Distance, VecLInfDistance, VecCosine", "real_matrix.go: MatFrobeniusNorm, MatLInfNorm"]}
{"id": "C72", "title": "Rounding error of the Hessenberg transform", "statement": "On float64, P() H() PT() is the transformed matrix up to a relative error of about 27 (n - 2) (n + 4) 2^-53 in the Frobenius norm and underflow: an orthogonal matrix takes H() that close to the matrix, P() is finite, its columns are close to those of that orthogonal matrix and orthonormal to that order, PT() is exactly its transpose, and the computed factors multiply to the matrix up to these errors, if H() is finite and its subdiagonal entries except the last are zero or between 2^-450 and 2^511 in size. Without the last condition P() can be NaN for a finite matrix and H().", "quantifier": "all orders n with the bound below one (n up to about 2^43; P() finite for n up to millions), all finite float64 entries and all accessor histories", "why_tests_cant": "a bound over all float64 inputs and orders", "anchors": ["hessenberg_transformer.go: transform, P, PT, H"]}
{"id": "C73", "title": "Rounding error of the tridiagonal transform", "statement": "On float64, Q() T() QT() is the symmetric matrix given by the upper triangle up to a relative error of about 66 (n - 1) (n + 4) 2^-53 in the Frobenius norm and underflow: T() is symmetric and tridiagonal, an orthogonal matrix takes it that close to the matrix, Q() is close to that orthogonal matrix column by column and orthonormal to that order, QT() is exactly its transpose, and the computed factors multiply to the matrix up to these errors, if T() and Q() are finite and the entries of T() beside the diagonal are zero or between 2^-450 and 2^500 in size. Q() is finite if no entry of T() beside the diagonal is zero and 10 (n - 1) (n + 4) 2^-53 is at most 1/16; otherwise it can be infinite for a finite symmetric matrix and T().", "quantifier": "all orders n with the bound below one (n up to about 2^43), all finite float64 entries and all accessor histories", "why_tests_cant": "a bound over all float64 inputs and orders", "anchors": ["tridiagonal_transformer.go: transform, Q, QT, T"]}
{"id": "C74", "title": "A decomposition depends only on the entries", "statement": "What the LU, Cholesky, QR, rank revealing QR, Hessenberg, tridiagonal, bidiagonal and rectangular Cholesky constructors build depends only on the dimensions and entries the matrix has at the call: not on whether it is an array, block or diagonal matrix, nor on how its rows lie in memory (shared, overlapping, parts of larger arrays). The tables they build in memory, writing through row headers, swapping rows by header and keeping other slices beside them, hold exactly what the list model of the constructor computes, and they return an error or panic exactly when it does, with the same value.", "quantifier": "all memories, all matrices of the three kinds with r rows and c columns in them, all storage layouts, all entries, thresholds and arithmetics (for QR and rank revealing QR of a diagonal matrix: all in which zero counts as zero off the diagonal, as on float64)", "why_tests_cant": "Tests build matrices in the usual way, with separate rows; the claim is about every layout of rows in memory, every size (above 52 rows or columns the block layout changes) and every entry, and about absence of aliasing between the tables the constructor itself makes.", "anchors": ["lu_decomposition.go:57-135", "cholesky_decomposition.go:69-120", "qr_decomposition.go:54-140", "rrqr_decomposition.go:45-95", "hessenberg_transformer.go:46-61", "hessenberg_transformer.go:173-228", "tridiagonal_transformer.go:47-61", "tridiagonal_transformer.go:183-251", "bidiagonal_transformer.go:13-29", "bidiagonal_transformer.go:189-323", "rectangular_cholesky_decomposition.go:34-129", "block_real_matrix.go:927-961", "real_matrix.go:327-345"]}
{"id": "C75", "title": "Solving with a decomposition held in memory", "statement": "The LU, Cholesky and QR solvers (SolveVector, SolveMatrix, Inverse) work on arrays of their own: they change neither the decomposition, nor the matrix it came from, nor the right-hand side, nor anything else, and what they return shares no storage with any of it, also when a later call panics. So one decomposition can be used for any number of right-hand sides, and all solutions obtained are still right at the end. They hold exactly the numbers that the list models of constructor and solver compute; they depend only on the entries of the matrix and of the right-hand sides, not on the kind of matrix or vector nor on how rows lie in memory - also if the right-hand side is part of the storage of the matrix itself; and errors and panics are the same.", "quantifier": "all memories; all matrices of the three kinds and all vectors in them, of all dimensions, fitting or not; all lists of right-hand sides; all storage layouts; all thresholds and arithmetics (for QR of a diagonal matrix: all in which zero counts as zero off the diagonal, as on float64)", "why_tests_cant": "Tests solve a few small systems with separately stored matrices and look only at the solution; the claim is about every layout, including right-hand sides inside the matrix, every number of uses of one decomposition, every size (the QR solver works in blocks of 52 columns with scratch arrays used again for each block), and about everything else in memory.", "anchors": ["lu_decomposition.go:253-353", "cholesky_decomposition.go:178-264", "qr_decomposition.go:308-447", "real_matrix.go:398-420"]}
{"id": "C76", "title": "Goroutines that share matrices and decompositions", "statement": "Goroutines may, at the same time, build decompositions (LU, Cholesky, QR, RRQR, Hessenberg, tridiagonal, bidiagonal, rectangular Cholesky) of shared matrices, solve with shared decompositions (LU, Cholesky, QR), add, subtract, multiply and scale shared dense, diagonal and block matrices and apply them to vectors, and read, copy, transpose and cut up shared matrices and vectors; each may go on working with its own results, and change them. However their actions on memory are interleaved, and whatever the others do: no array is ever about to be changed by one and touched by another (no data race); no shared object changes; each goroutine ends after a number of actions that depends on the shared memory and its own calls only; it ends with exactly the numbers, error or panic that it gets when it runs alone; and its results share no storage with the shared objects or with the results of the other goroutines. In particular a goroutine that computes a sum, a difference, a product or a multiple of shared matrices, adds a number to every entry, multiplies by a vector or takes the trace gets the right entries.", "quantifier": "all memories in which the shared objects exist; all numbers of goroutines; all finite lists of calls for each, with all arguments, fitting or not, shared or own; all interleavings, after any number of actions, ended or not; all arithmetics", "why_tests_cant": "A test runs some interleavings out of exponentially many, chosen by a scheduler it does not control; a race detector reports only races that happen in the run, so it never shows that there is none.", "anchors": ["lu_decomposition.go:46-135", "lu_decomposition.go:253-353", "cholesky_decomposition.go:178-264", "qr_decomposition.go:50-140", "qr_decomposition.go:308-447", "array_2d_row_real_matrix.go:87-91", "array_real_vector.go:427-434", "array_2d_row_real_matrix.go:93-264", "diagonal_matrix.go:63-175", "block_real_matrix.go:196-424", "block_real_matrix.go:973-1108"]}
{"id": "C77", "title": "Goroutines that call accessors which remember their result", "statement": "L, U and P of an LU decomposition and L and LT of a Cholesky decomposition may be called by several goroutines at the same time: no race, and every caller gets the complete matrix, the same for all. This holds when the accessor has been called before (the field is filled), and for an LU decomposition found singular (the field stays nil): then everyone gets what is in the field after two steps, nothing changes, and other goroutines working on the same objects are not disturbed. A first call of L, U or P by one goroutine gives, in a new matrix, the factor held in the table lu, keeps it in the field and changes nothing else. For first calls by several it is false. There are races on the field. LU stores the matrix in the field before filling it, so another caller can get a matrix that is not complete, and can be left with it for ever. Two first callers of Cholesky's LT can get different matrices; but each gets a complete matrix with the right entries, in every interleaving, and likewise for L when LT has been called before.", "quantifier": "all memories and fields; all numbers of callers, of any of the five accessors, together with any goroutines of C76; all interleavings; all arithmetics. The refuted parts by concrete interleavings on float64.", "why_tests_cant": "Whether the wrong matrix is seen depends on a few instructions falling between two others; a test cannot place them and passes almost always, and passing says nothing about the other interleavings.", "anchors": ["lu_decomposition.go:141-203", "cholesky_decomposition.go:125-144"]}
{"id": "C78", "title": "Arithmetic on matrices held in memory", "statement": "Add, Subtract, Multiply, ScalarAdd, ScalarMultiply, Operate, OperateVector, PreMultiply and PreMultiplyVector (with an ArrayRealVector) of a dense or a block matrix, and the operations of a diagonal matrix, never change an operand or anything else in memory, and their result shares no storage with anything that was there - also when the operands are the same object (A+A, A*A), share rows or overlap, and also when the call panics. The result has the entries of the sum, difference or product, the products added from left to right (with a block receiver: one partial sum per block, within a block in fours in Operate, PreMultiply and in Multiply by another block matrix); with a dense receiver it depends only on dimensions and entries of the operands, not on the kind of the right one nor on how rows are stored. Operands that do not fit cause a panic before anything is allocated. Trace of a block matrix leaves memory as it was. A diagonal receiver takes an operand of another kind, or a number, only if the entries outside the diagonal pass for zero, and panics otherwise. Therefore an expression of any depth with matrices of the three kinds, such as (A+B)*A^T-3A, evaluates to the matrix it stands for, of the kind that the receivers determine, with all its leaves unchanged.", "quantifier": "all memories and storage layouts; all matrices of the three kinds as right operand, of all dimensions, fitting or not; all vectors, inside the storage of the matrix or not; all expressions of any depth; all arithmetics", "why_tests_cant": "Tests use two separately stored operands and look at the result; aliasing, overlap and what happens to the operands afterwards are combinations that are not enumerable, and neither are the expressions.", "anchors": ["array_2d_row_real_matrix.go:93-264", "array_2d_row_real_matrix.go:436-540", "array_2d_row_real_matrix.go:833-856", "diagonal_matrix.go:63-175", "diagonal_matrix.go:254-305", "diagonal_matrix.go:465-501", "block_real_matrix.go:196-424", "block_real_matrix.go:452-463", "block_real_matrix.go:973-1108"]}
{"id": "C79", "title": "Integer powers of a matrix held in memory", "statement": "Power(m, p) of a square matrix of any of the three kinds returns the product of p copies of m (the identity for p = 0, a copy for p = 1), computed as m times the repeated squarings named by the binary digits of p-1, the greatest first. m and everything else in memory is unchanged, although the squarings multiply a matrix by itself and the copies and squarings are used several times; the result has the kind of m for p >= 1, and for p = 0 is dense up to 4096 entries and a block matrix beyond; it shares no storage with m or with anything that was there, also for p = 1, so writing to it never changes m. A negative exponent and a matrix that is not square cause a panic before anything is allocated or written.", "quantifier": "all memories and storage layouts, all matrices of the three kinds and all dimensions, all exponents; entries over the reals, and exactly which products in any arithmetic", "why_tests_cant": "Exponents, sizes, kinds and layouts are unbounded; a test compares a few powers and does not see that an operand is changed or shared by the result.", "anchors": ["real_matrix.go:486-551"]}

# Formal model of jtejido/linear in Rocq/Coq 8.16.1

## 1. What is modelled and how

The Go package is modelled function by function as total, computable Gallina
in `rocq/theories/`. Each definition cites the file and lines in `/repo`.

* **Scalars.** `float64` is a record `Ops` of operations (carrier, +, -, *, /,
  abs, sqrt, hypot, comparisons, NaN/Inf tests, the one-ulp equality). The record has
  *no laws*. Every model function takes an `Ops`. A theorem "for every `O : Ops`"
  therefore holds for IEEE-754 binary64 as executed, and for any other arithmetic.
  Three instances are used:
  - `ROps`: Coq's real numbers. Theorems about it are about exact arithmetic
    and say nothing about rounding. "In exact arithmetic" marks them.
  - `SFOps`: IEEE binary64 as the standard library's `SpecFloat` (round to
    nearest even, subnormals, signed zeros, infinities, one NaN). Used for the
    bit-level properties and for refutations that depend on special values.
  - `RTolOps tol`: exact real arithmetic, except that `x == y` holds when
    |x - y| <= tol |y|. The only float equality tests that matter for it are the
    convergence tests `e + delta == delta` of the symmetric eigen decomposition, which on
    float64 hold for |e| up to about 2^-53 delta. Theorems are for every tol >= 0
    and bound the error as a function of tol; tol = 0 is exact arithmetic.
* **Results.** A Go call returns a value, returns a non-nil error, or panics:
  `res A = Ok a | Err e | Panic e`. Runtime panics (index out of range, nil
  dereference, slice bounds) are `Panic ERuntime`. So "does not panic" is a statement.
* **Slices.** A `[]float64` is a list with checked access by `Z` index; negative
  and too large indices give `Panic ERuntime`. `[][]float64` is a list of lists.
  `nil` is an explicit `None` where the code distinguishes it.
  Capacity is modelled as equal to length (true for `make([]T,n)`).
* **Loops.** `for i := a; i < b; i++` is `for_ a b body st`; data dependent
  loops take fuel and return a distinguished error when it runs out.
* **Interfaces.** `RealVector`/`RealMatrix` values are sums over the library's
  types plus a lawful foreign implementation (used as read-only argument).
* **Aliasing.** The value model does not see sharing. Properties about
  sharing are stated on a separate heap model, `Heap.v`: a `[]float64` is array,
  offset, length and capacity; `[][]float64` an array of such headers. It covers the methods that
  copy, share or write storage of the four types. `HeapSim*.v` prove that on storage holding the
  value model's argument they return storage holding the value model's result.

## 2. Plan per property

| id | model | proof |
|----|-------|-------|
| C01 | Block layout, At/SetEntry/AddToEntry/MultiplyEntry | refinement to a table, induction over operation lists, any `Ops` |
| C02 | both implementations | simulation relation to the same table, induction over histories |
| C03 | constructors, Data | loop invariants, any `Ops` |
| C04, C05, C09-C11 | the methods of the three implementations | loop invariants, any `Ops` |
| C06, C07 | Multiply, Operate, PreMultiply | dense: exact fold for any `Ops`; block: over `R` |
| C08 | OperateVector/PreMultiplyVector with a foreign vector | expected false: refutation by nil dereference |
| C12, C13 | walks with an arbitrary visitor state machine | equality with a fold over an independent list of coordinates |
| C14 | Power | over `R`, induction on the binary representation |
| C15-C17 | DiagonalMatrix | invariant over histories; `SFOps` for signed zero; `R` for the product and inverse |
| C18 | equalsWithULP on 64-bit patterns | full characterisation; symmetric claim expected false |
| C19-C23 | ArrayRealVector, real_vector.go | loop invariants; `R` for norm laws |
| C24-C26 | LU | invariants of Doolittle with pivoting; `R`; determinant defined by expansion along the first column |
| C27, C28 | Cholesky | invariants over `R` |
| C29-C31 | QR, RRQR and solvers | Householder algebra over `R` |
| C32 | rectangular Cholesky | invariant over `R` |
| C33-C35 | tridiagonal, bidiagonal, Hessenberg | Householder algebra over `R` |
| C36 | heap model (`Heap.v`: arrays, slice headers, state kept on errors and panics) | every step of a copying method only adds or touches what it added; independence against all interleavings of actions; simulation of the value model for the contents |
| C56 | heap model | checks precede writes and no place disappears, so the loops of writes run to their end; false for diagonal SetRow and SetColumn |
| C55 | Eigen.v (non-symmetric branch), Schur.v | outcomes and accessors for every arithmetic; back substitution invariant over the columns of T, residual by orthogonality of P, over R; absolute thresholds refuted on float64 |
| C57 | `SFOps`; a float64 as the real number it stands for | the loops' sums as in C06/C07 for any arithmetic, then a standard rounding model (from Flocq's proofs about binary64) by induction over the sum |
| C58, C59 | LU.v on `SFOps` | the recurrences of C24 for any arithmetic; each subtraction and division read backwards (s = exact + error relative to the result), induction over the loops; growth bound for finiteness |
| C60 | Cholesky.v on `SFOps` | the recurrences of C27 for any arithmetic; the square root and the multiplication by the rounded inverse as relative errors, then as C58 and C59 |
| C61 | Cholesky.v on `SFOps` | L L^T is positive semidefinite and C60 bounds its distance from A; refuted without finiteness of L by an overflowing pivot, by computation |
| C65 | QR.v on `SFOps` | the recurrences of C29 for any arithmetic; each column's computed vector defines an exact reflection, and the computed column is its image up to a relative error of the column's length; the errors of p reflections compose because orthogonal maps keep lengths; Q cannot overflow while the lengths of its rows stay below 2; refuted outside the range of the diagonal by computation |
| C66 | QR.v on `SFOps` | the reflections of the right side as in C65, back substitution read backwards as in C59; both errors moved to A and b |
| C67 | QR.v for any `Ops`, and on `SFOps` | exchanging columns commutes with a reflection; induction over the columns: the state after k columns is that of the plain decomposition of the rearranged matrix; then C65 |
| C68 | QR.v on `SFOps` | C66 on the rearranged matrix; a product with a permutation matrix is exact (1 * x and additions of zeros), for finite results, in all three summation orders |
| C62 | ErrorGo.v (error.go and the part of fmt.Sprintf it uses) | a relation between pattern, words and text as specification; induction over the pattern; refuted for the number errors by the length of the text |
| C63 | ErrorGo.v | the checks with their error values agree with the checks of the value model; case analysis |
| C64 | heap model | invariant: the cells written so far hold their new value, all others the old one; refuted when the argument of SetColumn is part of the matrix |
| C69 | heap model | invariant: the cells written so far hold their new value, which may depend on earlier ones, all others the old one; Combine refuted when its argument starts before the receiver and reaches into it |
| C70 | Bidiag.v on `SFOps` | as C65, with reflections on both sides: every computed half step is an exact reflection of the whole matrix up to a relative error of its Frobenius norm, and orthogonal maps keep that norm; the wide case is the tall case of the transpose; U and V finite as in C65; U not finite for [2^-600] by computation |
| C71 | LU.v, Cholesky.v, Eigen.v, Vector.v, RealMatrixM.v on `SFOps` | a running bound for a product computed factor by factor (underflow added at every step); det (L U) is the product of the pivots (Det.v), with the pivot rows swapped back; sums as in C57, in the order each representation walks; cosine of (1,1,1) by computation |
| C72 | Hess.v on `SFOps` | as C70: each column is scaled by its sum before the reflection, so the reflection is computed with an error relative to the scaled column; the stored vector is close to the scaled one and gives a reflection close to it; left and right half steps on the whole matrix; P by the downward chain of C65, with its entries bounded so that it cannot overflow; P NaN for a subdiagonal 2^-1074 by computation |
| C73 | Tridiag.v on `SFOps` | as C70, with each reflection applied on both sides at once by the rank two update: the error of the vector z and of the update against the exact P Y P, block by block; rows of QT by the downward chain of C65, finite as there; Q infinite for [[1 e] [e 1]] with e = 2^-600 by computation |
| C74 | HeapDec.v against LU.v, Cholesky.v, QR.v, Hess.v, Tridiag.v, Bidiag.v, RectChol.v | `sim`: the heap program and the list program run in lock step, related by a table with rows in distinct arrays of its own and the slices beside it (`Str`; for rectangular Cholesky two such tables, `Two`); the input is read only through At/Data/Transpose, which depend on the entries (HeapSim4.v, HeapRef4.v) |
| C75 | HeapSolve.v (the solvers with the storage explicit) against LU.v, Cholesky.v, QR.v | `sim` as in C74, from memories in which the decomposition is only read (`Ext`: everything that was there is unchanged); arrays of the call in distinct places (`Own`, `TabR`; for QR on matrices two tables and a scratch array, `S3`); induction over the list of right-hand sides; separation as in C38 |
| C76 | HeapCo.v (a machine: one memory, programs that are sequences of actions, a scheduler), HeapCoCode.v (the code of Heap.v, HeapDec.v, HeapSolve.v, HeapArith.v, HeapBlkArith.v as such programs, and lists of calls) | run alone, the programs are those of Heap.v, HeapDec.v, HeapSolve.v, HeapArith.v, HeapBlkArith.v (`same`, HeapCoRun.v); every action leaves what was there alone (`careful`, HeapCoKeep.v); programs do not depend on the numbers of arrays (`prel`, HeapCoPar.v); then an invariant over all interleavings: each goroutine in the common memory and its run alone are related by a renaming of the arrays it made, and the renamings of different goroutines do not meet (`mate`, `peace`, HeapCoStep.v) |
| C77 | HeapCell.v (the machine of C76 with fields that hold nil or a matrix; the five accessors, which look at the field and fill it) | filled fields: every accessor only looks, and the rest is a run of C76 (`calm`, HeapCellFacts.v); a first call by one goroutine: its run at once (`crun`, HeapCellAlone.v), with an invariant for the matrix being filled; first calls of the Cholesky accessors: the arrays behave as in a run of C76 in which some goroutines make the matrix, and the field only ever holds what one of these has completed (`pub`); the refuted parts by interleavings found by reading the code |
| C78 | HeapArith.v (arithmetic of dense and diagonal matrices on the memory of Heap.v), HeapBlkArith.v (of block matrices), HeapExpr.v (the calls of the interface, by the kind of the receiver) | nothing else changes: the frame rules of C71 (`keeps`, HeapArithFacts.v); entries: an invariant for a table of which the first rows are filled (`build`, `part`, HeapArithMain.v), with operands read in a memory that has only grown; expressions: induction on the expression (HeapArithProps.v); block matrices: the memory program does what the list program of BlockM.v does (`goes`, HeapBlkArithMain.v), whose sums are those of C02; receivers of any kind: HeapExprFacts.v |
| C79 | HeapPower.v (Power on the memory of Heap.v; `results` and `nonZeroPositions`, which never leave the call, are lists) | which digits: `posns`, `ones` (HeapPowerFacts.v); the loops carry a tag per matrix, closed under Multiply (`power_tags`): the table itself in any arithmetic, the exponent over the reals (`mpow_add` of C14); nothing else changes: frame rules of C71 with a loop invariant (`keeps_up_inv`) |
| C37, C54 | heap model | loop invariant over two windows of one array; false for shifted overlaps |
| C38 | accessor call histories (value model); constructors on the heap (`HeapDec.v`) | invariant: a filled cache holds what the accessor of the fresh decomposition returns; constructors write only to storage they made |
| C39-C41 | free functions | loop invariants; the row-sum reading of MatLInfNorm expected false |
| C42 | symmetric eigen (implicit QL) | rotations preserve orthogonality; sort; fuel = the code's own bound 30 |
| C43 | Schur iteration | each step is an orthogonal similarity; bound 100 |
| C44 | Determinant of an eigen decomposition | expected false for complex eigenvalues |
| C45 | SVD | invariant of the iteration on returning executions; that every call returns in exact arithmetic is C49 |
| C46 | vector walks with an arbitrary visitor state machine | equality with a fold |
| C49-C53 | SVD accessors, norm, solver, rank, covariance | Householder and Givens algebra over `R`; perturbation bounds; termination from the convergence of Wilkinson's shift (a potential that each turn shrinks by a fifth); any arithmetic for totality |
| C47, C48 | SquareRoot and solver of the symmetric eigen decomposition | algebra over `RTolOps` |

## 3. Trusted base

* The Coq 8.16.1 kernel (and `vm_compute` where used).
* The axioms printed by `Print Assumptions` below each theorem in the property
  files; they are only axioms of the standard library (listed in section 5).
* Of other libraries only Flocq is used (its proofs about rounding, from C57 on). It adds no axioms of its own;
  its proofs use those of the standard library's reals and `Classical_Prop.classic`.
* The reading of Go into Gallina, described above and in each comment.
* For C76 and C77: goroutines as interleavings of single actions on one memory. The Go memory model promises this for
  programs without data races; C76_no_race and C77_filled_no_race show that the programs there have none. The other parts
  of C77 are about programs that do race: there the interleavings are only some of what Go allows, so what is refuted is
  false in Go too, and what is proved (C77_LT_partial, C77_L_partial) is proved for interleavings only.
* Modelled: the functions and methods of the non-test files of the package, each cited by file and lines at its
  definition. error.go with its messages is in `ErrorGo.v`; everywhere else an error or panic is only its kind (`code`).
* Not modelled: the texts of the standard library's own panics and the `%v` rendering of a float64 (a parameter in
  `ErrorGo.v`); the one-line wrappers that turn functions into visitors or mappings (functions are passed directly);
  goroutines, outside `HeapCo*.v` and `HeapCell.v`; memory exhaustion; overflow of `int` (indices are in `Z`); fused multiply-add (Go may fuse
  `x*y+z` on some architectures, not on amd64); visitors and functions that call back into the object they visit;
  what is left in memory after a panic, outside the heap model (`Heap.v`, `HeapBlk.v`, `HeapDec.v`, `HeapSolve.v`); the test files.

## 4. Files

In the order of `_CoqProject`. Model files contain definitions only; `*Spec` files the vocabulary of the statements;
`P_*` files the property theorems with their `Print Assumptions` and concrete cases; the others proofs.

* `Base.v`: Results, checked slices and loops
* `Scalar.v`: Scalars
* `BaseLemmas.v`: Proof rules for results, slices and loops (no model definitions here).
* `Wpe.v`: Loops that may stop with an error value
* `Vector.v`: Model of /repo/array_real_vector.go and /repo/real_vector.go.
* `VecSpec.v`: What a user can observe of a vector
* `VectorFacts.v`: Proofs about the vector model.
* `Matrix.v`: The three matrix types of /repo, entry access and the check functions.
* `Array2D.v`: Model of /repo/array_2d_row_real_matrix.go (entry access is in Matrix.v).
* `BlockM.v`: Model of /repo/block_real_matrix.go (entry access is in Matrix.v).
* `Diagonal.v`: Model of /repo/diagonal_matrix.go (entry access is in Matrix.v).
* `RealMatrixM.v`: Interface dispatch and model of the functions of /repo/real_matrix.go.
* `MatSpec.v`: What a user can observe of a matrix
* `MatFacts.v`: Entry access of the three matrix types in terms of tables.
* `Array2DFacts.v`: Proofs about the Array2DRowRealMatrix model.
* `BlockLoops.v`: Rules for the loops over the blocks of a BlockRealMatrix.
* `BlockFacts.v`: Proofs about the BlockRealMatrix model.
* `BlockFacts2.v`: Proofs about the BlockRealMatrix model
* `BlockFacts3.v`: Proofs about the BlockRealMatrix model
* `BlockSub.v`: Proofs about BlockRealMatrix.SubMatrix.
* `BlockMul.v`: Proofs about the products of BlockRealMatrix
* `DiagFacts.v`: Proofs about the DiagonalMatrix model.
* `WalkFacts.v`: Proofs about the walks of the three matrix types.
* `Float64.v`: The instance of [Ops] that Go executes
* `Float64Facts.v`: Proofs about the bit-level comparison of floats.
* `MatrixOps.v`: The facts about the three matrix types, stated for calls through the RealMatrix interface.
* `ExampleOps.v`: The scalars used in the concrete cases beside the theorems
* `VecProps.v`: Searches, walks and equality of vectors.
* `P_Vector.v`: Properties C19, C20, C22, C23, C46
* `HistSpec.v`: Histories of matrix operations, and their specification on plain tables.
* `MatHist.v`: Facts about histories of matrix operations and about the constructors.
* `MatProps.v`: Statements over the three implementations, put together for the property files.
* `P_Matrix.v`: Properties C01-C05, C08-C13, C23
* `DiagSpec.v`: Histories of operations on a DiagonalMatrix and their specification on a plain diagonal.
* `DiagFacts2.v`: More about the DiagonalMatrix model
* `DiagFacts3.v`: The DiagonalMatrix operations
* `Float64Facts2.v`: Adjacent floats.
* `DiagProps.v`: Proofs of the diagonal-matrix properties.
* `P_Float.v`: Property C18
* `P_Diag.v`: Properties C15-C17 and the diagonal parts of C03-C05, C07-C11.
* `RealOps.v`: Exact arithmetic
* `RSum.v`: Finite sums and matrices of real numbers
* `RealMat.v`: The library's sums and products in exact arithmetic.
* `RealMat2.v`: Identity, integer powers and index-set sub-matrices.
* `RealVec.v`: Norms, distances, cosine, unit vectors and projections in exact arithmetic.
* `ExampleReal.v`: Concrete real matrices and vectors for the cases beside the exact-arithmetic theorems.
* `RealMat3.v`: Matrix norms, sub-matrices by index sets, copies of windows, outer products.
* `P_Real.v`: Properties stated in exact arithmetic (the real numbers), for matrices and vectors
* `TabTac.v`: Shared lemmas and tactics for loops over two-dimensional slices.
* `Det.v`: Determinants of real tables by expansion along the first column, and their behaviour under row operations.
* `Tri.v`: Triangular systems and inverses of real tables.
* `LU.v`: Model of /repo/lu_decomposition.go.
* `LUSpec.v`: Vocabulary of the LU properties.
* `LUFacts.v`: Proofs about the LU decomposition, for arbitrary scalar operations.
* `LUFacts2.v`: Accessors and solver of the LU decomposition, for arbitrary scalar operations.
* `LUReal.v`: The LU decomposition in exact arithmetic.
* `LUProps.v`: The LU properties assembled.
* `Cholesky.v`: Model of /repo/cholesky_decomposition.go.
* `CholSpec.v`: Vocabulary of the Cholesky properties.
* `CholFacts.v`: The Cholesky decomposition, for arbitrary scalar operations.
* `CholReal.v`: The Cholesky decomposition in exact arithmetic.
* `CholProps.v`: The Cholesky properties assembled.
* `FSum.v`: Left-to-right sums over ranges, and loops that rewrite one row, one column or a vector, for arbitrary scalar operations.
* `QR.v`: Model of /repo/qr_decomposition.go and /repo/rrqr_decomposition.go.
* `QRSpec.v`: Vocabulary of the QR and rank-revealing QR properties.
* `QRFacts.v`: The QR decomposition, for arbitrary scalar operations
* `QRFacts2.v`: SolveMatrix and Inverse of the QR solver, for arbitrary scalar operations.
* `QRFacts3.v`: The rank-revealing QR decomposition, for arbitrary scalar operations.
* `House.v`: Householder reflections as real tables.
* `QRReal.v`: The QR decomposition in exact arithmetic.
* `QRReal2.v`: Q, R and the solutions of linear systems by QR, in exact arithmetic.
* `QRReal3.v`: The rank-revealing QR decomposition in exact arithmetic.
* `QRProps.v`: The QR properties assembled.
* `QRProps2.v`: The QR properties in exact arithmetic assembled.
* `RectChol.v`: Model of /repo/rectangular_cholesky_decomposition.go.
* `RectSpec.v`: Vocabulary of the rectangular Cholesky properties.
* `RectFacts.v`: The rectangular Cholesky decomposition, for arbitrary scalar operations.
* `RectReal.v`: The rectangular Cholesky decomposition in exact arithmetic.
* `RectProps.v`: The rectangular Cholesky theorems.
* `Hess.v`: Model of /repo/hessenberg_transformer.go.
* `Tridiag.v`: Model of /repo/tridiagonal_transformer.go.
* `Bidiag.v`: Model of /repo/bidiagonal_transformer.go.
* `HessSpec.v`: Vocabulary of the Hessenberg, tridiagonal and bidiagonal transforms.
* `HessFacts.v`: The Hessenberg transform, for arbitrary scalar operations
* `HessReal.v`: The Hessenberg transform in exact arithmetic.
* `TridiagFacts.v`: The tridiagonal transform, for arbitrary scalar operations
* `TridiagReal.v`: The tridiagonal transform in exact arithmetic.
* `BidiagFacts.v`: The bidiagonal transform, for arbitrary scalar operations
* `BidiagReal.v`: The bidiagonal transform in exact arithmetic.
* `TransProps.v`: The properties of the Hessenberg, tridiagonal and bidiagonal transforms assembled.
* `Schur.v`: Model of /repo/schur_transformer.go.
* `Eigen.v`: Model of /repo/eigen_decomposition.go.
* `EigenSpec.v`: Vocabulary of the eigen decomposition.
* `EigenFacts.v`: The symmetric eigen decomposition, for arbitrary scalar operations.
* `EigenFacts2.v`: The eigen decomposition, for arbitrary scalar operations
* `Frob.v`: The Frobenius norm of real tables, plane rotations, tridiagonal tables.
* `RTol.v`: Real arithmetic in which the test [x == y] accepts a relative error [tol].
* `EigenReal.v`: The symmetric eigenvalue iteration over the real numbers
* `EigenSort.v`: Selection sort of the eigenvalues
* `EigenReal2.v`: Symmetric eigen decomposition over the real numbers
* `EigenSolve.v`: Square root and solver of the eigen decomposition, in any arithmetic.
* `EigenSmall.v`: The iteration always ends with a result on matrices of dimension 1 and 2, over the real numbers.
* `FloatOrder.v`: The comparison of float64 values that are not NaN is a total preorder.
* `EigenProps.v`: The properties of the symmetric eigen decomposition assembled.
* `EigenProps2.v`: The eigen decomposition in every arithmetic and on float64.
* `SchurSpec.v`: Vocabulary of the Schur transform.
* `SchurSpecR.v`: Vocabulary of the Schur form over the real numbers.
* `SchurFacts.v`: The Schur transform, for arbitrary scalar operations
* `SchurFacts2.v`: The Schur transform, for arbitrary scalar operations
* `SchurReal.v`: The Schur transform in exact arithmetic
* `SchurReal2.v`: The Schur transform in exact arithmetic
* `SchurReal3.v`: The Schur transform in exact arithmetic
* `SchurReal4.v`: The Schur transform in exact arithmetic
* `SchurReal5.v`: The Schur transform in exact arithmetic
* `SchurReal6.v`: The Schur transform in exact arithmetic
* `SchurProps.v`: Proofs of the theorems of P_Schur.v.
* `SVD.v`: Model of /repo/singular_value_decomposition.go.
* `SVDSpec.v`: Vocabulary of the singular value decomposition.
* `SVDFacts.v`: The singular value decomposition, for arbitrary scalar operations
* `SVDFacts2.v`: The iteration of the singular value decomposition, for arbitrary scalar operations
* `SVDFacts3.v`: The singular value decomposition, for arbitrary scalar operations
* `SVDReal.v`: The singular value decomposition in exact arithmetic
* `SVDReal2.v`: The singular value decomposition in exact arithmetic
* `SVDReal3.v`: The singular value decomposition in exact arithmetic
* `SVDReal4.v`: The singular value decomposition in exact arithmetic
* `SVDReal5.v`: The singular value decomposition in exact arithmetic
* `SVDOrder.v`: The order of the singular values, for scalar operations whose comparison is total on the values in question.
* `SVDReal6.v`: The singular value decomposition over the reals
* `SVDFacts4.v`: The singular value decomposition, for arbitrary scalar operations
* `SVDSpecR.v`: Vocabulary of the singular value decomposition over the real numbers.
* `SVDPinv.v`: Real tables in singular value form
* `SVDTerm.v`: Termination of the singular value iteration in exact arithmetic when the smaller dimension is at most two.
* `SVDProps.v`: The statements about the singular value decomposition, assembled.
* `SVDPropsR.v`: The statements about the singular value decomposition over the reals.
* `SVDEx.v`: A matrix over the reals for the concrete cases beside the theorems about the singular value decomposition.
* `SVDConv.v`: Wilkinson's global convergence of the shifted QR step, for the chase of the singular value iteration in exact arithmetic.
* `SVDConv2.v`: The chase of the singular value iteration in exact arithmetic
* `SVDConv3.v`: The singular value iteration ends, in exact arithmetic.
* `SVDDrop.v`: A real matrix whose singular value factorisation is not exact
* `ExampleDec.v`: Observations of decompositions of float64 matrices, for the concrete cases beside the theorems.
* `ExampleTol.v`: A real symmetric matrix, for the concrete cases beside the theorems on the eigen decomposition.
* `Heap.v`: The part of the code where sharing of storage matters, with the storage made explicit.
* `HeapSpec.v`: What "sharing storage" and "independent" mean on the heap of Heap.v, said without reference to the code.
* `HeapFacts.v`: Facts about the heap model
* `HeapIndep.v`: A result in new storage is independent of everything that existed, and the methods that write are actions of a program holding the object.
* `HeapSim.v`: The heap model computes the same values as the model in which slices are values (Vector.v, Array2D.v, Diagonal.v, BlockM.v).
* `HeapSim2.v`: Each copying function of Heap.v returns the table or slice that the value model computes.
* `HeapSim3.v`: Each copying function of Heap.v returns the table or slice that the value model computes (continued).
* `HeapSim4.v`: Each copying function of Heap.v returns the table or slice that the value model computes
* `HeapMain.v`: Contents of the results on the heap
* `HeapVec.v`: Vectors on the heap
* `HeapProps.v`: Lemmas behind P_Heap.v.
* `P_LU.v`: The LU decomposition
* `P_Chol.v`: The Cholesky decomposition
* `P_QR.v`: The QR decompositions
* `P_Rect.v`: The rectangular Cholesky decomposition
* `P_Trans.v`: The tridiagonal, bidiagonal and Hessenberg transforms
* `P_Eigen.v`: The eigen decomposition of symmetric matrices
* `P_Schur.v`: The Schur transform
* `P_SVD.v`: The singular value decomposition
* `P_Heap.v`: Storage
* `AccSpec.v`: Vocabulary of the properties about repeated accessor calls.
* `AccFacts.v`: 
* `HeapDec.v`: Constructors of decompositions with the storage explicit
* `HeapDecFacts.v`: The constructors of HeapDec.v write only to storage they made.
* `P_Acc.v`: C38
* `EigenGenSpec.v`: Vocabulary of the eigen decomposition of matrices that are not symmetric.
* `EigenGen.v`: The eigen decomposition of matrices that are not symmetric, for arbitrary scalar operations.
* `EigenGenR.v`: The back substitution of the eigen decomposition in exact arithmetic.
* `EigenGenP.v`: The eigen decomposition of matrices that are not symmetric, in every arithmetic.
* `EigenGenRP.v`: The eigen decomposition of matrices that are not symmetric, in exact arithmetic
* `EigenGenEx.v`: A two by two case of the eigen decomposition of matrices that are not symmetric
* `EigenCplx.v`: HasComplexEigenvalues and Solver of the eigen decomposition.
* `P_EigenGen.v`: The eigen decomposition of matrices that are not symmetric
* `HeapAtomSpec.v`: Vocabulary of refused writes.
* `HeapAtom.v`: Refused writes leave the heap as it was.
* `HeapBlk.v`: Writes of many entries of a BlockRealMatrix on the heap of Heap.v.
* `HeapAtomBlk.v`: Refused writes of block matrices leave the heap as it was.
* `P_Atom.v`: Refused writes
* `HeapPutSpec.v`: Vocabulary of writes of many entries of a matrix on the heap.
* `HeapPut.v`: What writes of many entries of a matrix leave in memory.
* `HeapPutBlk.v`: What writes of many entries of a block matrix leave in memory; new matrices have rows of their own.
* `P_Put.v`: What the writers of a row, a column or a submatrix leave in memory
* `HeapUpdSpec.v`: Vocabulary of in-place operations of vectors on the heap.
* `HeapUpd.v`: What the writers of single entries and the in-place operations of vectors leave in memory.
* `P_Upd.v`: What the writers of single entries and the in-place operations of vectors leave in memory
* `RndSpec.v`: Float64 results measured against the exact values
* `FloatR.v`: The operations of [SFOps] against the reals, through Flocq.
* `RndSum.v`: Rounding errors of the library's sums, in whatever order they add.
* `RndMat.v`: Rounding errors of the products, sums and norms of the API in float64.
* `RndEx.v`: The concrete case beside C57.
* `P_Round.v`: Property C57
* `RndTri.v`: Backward rounding errors of the substitution loops s -= a*b; s /= u.
* `RndLU.v`: Backward rounding errors of the LU decomposition and its solver.
* `RndLUEx.v`: The concrete case beside C58 and C59.
* `P_RoundLU.v`: Properties C58 and C59
* `RndChol.v`: Backward rounding errors of the Cholesky decomposition and its solver.
* `RndCholEx.v`: The concrete case beside C60.
* `P_RoundChol.v`: Property C60
* `RndHouse.v`: Householder reflections computed with rounding
* `RndRefl.v`: Householder reflections computed in float64
* `RndApply.v`: Applying a computed reflection to a vector in float64, in the three forms the QR code uses.
* `RndQRSpec.v`: Vocabulary of the rounding theorems on the QR decomposition (C65, C66).
* `RndQR.v`: The QR decomposition in float64
* `RndQR2.v`: The rounding theorems on the QR decomposition, on the Go types.
* `RndQREx.v`: The concrete cases beside C65 and C66.
* `P_RoundQR.v`: Properties C65 and C66
* `RRPerm.v`: The rank-revealing QR decomposition is the QR decomposition of the matrix with its columns rearranged, in any arithmetic.
* `RndRR.v`: The rounding theorems on the rank-revealing QR decomposition.
* `RndRR2.v`: The rounding theorems on the rank-revealing QR decomposition, on the Go types.
* `RndRREx.v`: The concrete case beside C67 and C68
* `P_RoundRR.v`: Properties C67 and C68
* `ErrorGo.v`: error.go
* `ErrSpec.v`: What an error message should say, independently of package fmt.
* `ErrFacts.v`: Proofs about error.go.
* `P_Error.v`: Properties C62 and C63
* `RndFrob.v`: The Frobenius norm, and chains of nearly orthogonal steps on both sides of a matrix.
* `RndBidiag.v`: One reflection of the bidiagonal transform in float64.
* `RndBidiagU.v`: The orthogonal factors of the bidiagonal transform in float64
* `RndBidiag2.v`: The bidiagonal transform in float64, tables with at least as many rows as columns.
* `RndBidiagSpec.v`: Vocabulary of the rounding theorems on the bidiagonal transform (C70).
* `RndBidiag3.v`: The rounding theorems on the bidiagonal transform
* `RndBidiagEx.v`: The concrete cases beside C70.
* `P_RoundBidiag.v`: The rounding errors of the bidiagonal transform
* `RndDetSpec.v`: The bounds C71 uses
* `RndDet.v`: Rounding errors of determinants
* `RndNorm.v`: Rounding errors of the distances and the matrix norms in float64.
* `RndDetEx.v`: The concrete cases beside C71.
* `P_RoundDet.v`: Property C71
* `RndHess.v`: One reflection of the Hessenberg transform in float64
* `RndHess2.v`: The reflection vector of a scaled column in float64.
* `RndHess3.v`: A column of the Hessenberg transform, divided by its scale, in float64.
* `RndHess4.v`: The Hessenberg transform in float64, step by step.
* `RndHessSpec.v`: Vocabulary of the rounding theorems on the Hessenberg transform (C72).
* `RndHess5.v`: The rounding theorems on the Hessenberg transform
* `RndHessEx.v`: The concrete cases beside C72.
* `P_RoundHess.v`: The rounding errors of the Hessenberg transform
* `RndFin.v`: A computed reflection applied to a vector of moderate size stays finite.
* `RndFin2.v`: When the orthogonal factors of the QR decomposition and of the bidiagonal transform are finite
* `RndFin2Ex.v`: The concrete cases beside C65_finite and C70_finite.
* `RndTd.v`: One step of the tridiagonal transform in floating point
* `RndTd2.v`: One step of the tridiagonal transform in float64.
* `RndTd3.v`: One step of the tridiagonal transform in float64
* `RndTd4.v`: The tridiagonal transform in float64
* `RndTd5.v`: The orthogonal factor of the tridiagonal transform in float64.
* `RndTdSpec.v`: Vocabulary of the rounding theorems on the tridiagonal transform (C73).
* `RndTd6.v`: The tridiagonal transform in float64
* `RndTdEx.v`: The concrete cases beside C73.
* `P_RoundTridiag.v`: The rounding errors of the tridiagonal transform
* `HeapRefSpec.v`: A computation on the heap and a computation on values.
* `HeapRef.v`: Computations on the heap against computations on values, and tables with rows and diagonals of their own
* `HeapRef2.v`: The LU and Cholesky constructors on the heap and on values.
* `HeapRef3.v`: The Hessenberg, tridiagonal and bidiagonal transforms on the heap and on values.
* `HeapRef4.v`: Transpose on the heap, and the QR decompositions on the heap and on values.
* `HeapRef5.v`: The rectangular Cholesky decomposition on the heap and on values.
* `HeapRef6.v`: The decompositions of two matrices with the same entries.
* `P_HeapRef.v`: C74
* `HeapSolve.v`: Solvers with the storage explicit
* `HeapSolveFacts.v`: The solvers of HeapSolve.v write only to storage they made.
* `HeapRef7.v`: The solvers of HeapSolve.v and those of LU.v, Cholesky.v and QR.v, on vectors
* `HeapRef8.v`: The solvers of HeapSolve.v and those of LU.v, Cholesky.v and QR.v, on matrices.
* `HeapRef9.v`: The matrix solver of HeapSolve.v for QR and that of QR.v, and the inverses.
* `HeapSolveSpec.v`: Calling a function on each member of a list, in order.
* `HeapRef10.v`: Building a decomposition and solving with it, in memory and on values.
* `HeapArith.v`: Arithmetic of Array2DRowRealMatrix and DiagonalMatrix with the storage explicit
* `HeapArithSpec.v`: Expressions over matrices held in memory, and what they mean.
* `HeapArithFacts.v`: The arithmetic of HeapArith.v
* `HeapArithMain.v`: The contents of the results of the arithmetic of HeapArith.v.
* `HeapArithProps.v`: Diagonal matrices, expressions, and the statements about HeapArith.v.
* `P_HeapArith.v`: C78
* `HeapBlkArith.v`: Arithmetic of BlockRealMatrix with the storage explicit
* `HeapBlkArithSpec.v`: The order in which the products of a BlockRealMatrix are added.
* `HeapBlkArithFacts.v`: The arithmetic of HeapBlkArith.v returns what the value model computes, and writes nothing that was there.
* `HeapBlkArithMain.v`: Products of a BlockRealMatrix in memory
* `HeapBlkArithProps.v`: The statements about HeapBlkArith.v.
* `P_HeapBlkArith.v`: C78 continued
* `HeapExpr.v`: The arithmetic of the RealMatrix interface on matrices held in memory
* `HeapExprSpec.v`: Expressions over matrices of the three kinds held in memory, and what they mean.
* `HeapExprFacts.v`: Expressions with receivers of any kind, and diagonal matrices with operands of another kind.
* `P_HeapExpr.v`: C78 continued
* `HeapPower.v`: Power of a matrix held in memory.
* `HeapPowerSpec.v`: The powers of a table by repeated squaring.
* `HeapPowerFacts.v`: Power on memory
* `P_HeapPower.v`: C79 Integer powers of a matrix held in memory.
* `P_HeapSolve.v`: C75
* `HeapCo.v`: Several calls at the same time.
* `HeapCoCode.v`: The programs of Heap.v, HeapDec.v and HeapSolve.v that build decompositions and solve systems, and those of HeapArith.v and HeapBlkArith.v, written once more as sequences of actions (HeapCo.v), so that goroutines can take turns in the middle of them.
* `HeapCoSpec.v`: The vocabulary of the theorems about goroutines.
* `HeapCoFacts.v`: Programs of HeapCo.v run alone
* `HeapCoRun.v`: Run alone, the programs of HeapCoCode.v are those of Heap.v, HeapDec.v and HeapSolve.v, and those of HeapArith.v and HeapBlkArith.v.
* `HeapCoKeep.v`: The programs of HeapCoCode.v write only to storage they made.
* `HeapCoRel.v`: A program run alone and the same program run in a memory where others allocate too
* `HeapCoStep.v`: One action of a program, alone and in the common memory; and goroutines.
* `HeapCoPar.v`: The programs of HeapCoCode.v do the same whatever numbers the arrays have.
* `HeapCoMain.v`: The calls of HeapCoCode.v made at the same time.
* `HeapCoArith.v`: Sums, differences and products that goroutines compute at the same time.
* `P_HeapCo.v`: C76
* `HeapCell.v`: Goroutines that share decompositions whose accessors remember their result.
* `HeapCellSpec.v`: The vocabulary of the theorems about cells.
* `HeapCellFacts.v`: Goroutines with cells are goroutines without, as far as the arrays go.
* `HeapCellAlone.v`: One goroutine calls an accessor of an LU decomposition for the first time.
* `P_HeapCell.v`: C77

## 5. Axioms

`Print Assumptions` of every property theorem, grouped by its answer. All axioms are of the standard library
(the construction of the real numbers and functional extensionality, used by its theory of the reals; classical logic where listed).

* Closed under the global context: `C19_entrywise_binary`, `C19_entrywise_map`, `C19_mismatch`, `C19_entries`, `C20_append_partial`, `C20_append_foreign_refuted`, `C20_subvector`, `C20_set_subvector`, `C22_MinIndex`, `C22_MaxIndex`, `C23_vector_equals`, `C23_vector_equivalence`, `C23_vector_nan`, `C46_walks`, `C46_walks_bounded`, `C46_walks_bad`, `C01_block_table`, `C01_new_matrices`, `C02_interchangeable`, `C02_same_reads`, `C02_histories`, `C03_from_slices`, `C03_rejected`, `C03_nil_rejected`, `C04_transpose`, `C05_entrywise`, `C05_mismatch`, `C08_any_vector_refuted`, `C09_submatrix`, `C10_set_submatrix`, `C11_rows`, `C11_columns`, `C11_row_and_column_matrices`, `C11_set_rows_partial`, `C11_set_columns`, `C11_set_row_block`, `C11_set_row_dense_refuted`, `C11_set_row_dense_partial`, `C11_bad_arguments`, `C12_orders`, `C12_walks`, `C12_walks_bounded`, `C12_bad_window`, `C13_update_walks`, `C13_update_walks_bounded`, `C13_map_window`, `C23_matrix_equals`, `C23_matrix_reflexive`, `C23_matrix_symmetric`, `C23_matrix_transitive`, `C18_sound_partial`, `C18_reflexive`, `C18_exact`, `C18_symmetry_refuted`, `C18_zeros_refuted`, `C18_adjacent_refuted`, `C15_entry_histories`, `C15_histories`, `C15_new`, `C16_scaling_partial`, `C16_scaling_refuted`, `C17_products`, `C17_inverse`, `C04_diagonal`, `C05_diagonal`, `C05_diagonal_other`, `C05_diagonal_scalar`, `C09_diagonal`, `C10_diagonal`, `C10_diagonal_fit_refuted`, `C11_diagonal_rows`, `C11_diagonal_set`, `C11_diagonal_matrices_refuted`, `C07_diagonal`, `C08_diagonal_foreign`, `C08_diagonal_refuted`, `C06_dense_order`, `C06_mismatch`, `C07_mismatch`, `C14_refused`, `C39_trace_refused`, `C40_submatrix`, `C40_copy`, `C40_copy_indices`, `C41_outer`, `C41_projection_refuted`, `C24_any_arithmetic`, `C24_not_square`, `C26_panics`, `C26_no_panic`, `C27_not_square`, `C27_outcome`, `C27_any_arithmetic`, `C28_any_arithmetic`, `C29_total`, `C29_any_arithmetic`, `C30_any_arithmetic`, `C31_total`, `C31_any_arithmetic`, `C31_rank_range`, `C31_panics`, `C32_any_arithmetic`, `C33_total`, `C33_error`, `C33_upper_triangle`, `C34_total`, `C34_any_arithmetic`, `C35_total`, `C35_error`, `C35_any_arithmetic`, `C35_float_refuted`, `C42_terminates`, `C42_tridiagonal_terminates`, `C42_thirty`, `C44_product_partial`, `C44_refuted`, `C44_symmetric_refuted`, `C43_terminates`, `C43_bounded`, `C43_error`, `C43_accessors`, `C43_zero_refuted`, `C43_scale_refuted`, `C45_float`, `C45_doc_refuted`, `C49_total`, `C49_accessors`, `C52_rank`, `C52_nonsingular`, `C52_scale_refuted`, `C53_covariance_partial`, `C53_wide_refuted`, `C36_array`, `C36_block`, `C36_block_from_slices`, `C36_diagonal`, `C36_vector`, `C36_any_outcome`, `C36_writers`, `C36_histories`, `C36_reads`, `C36_shares_array`, `C36_shares_vector`, `C36_shares_diagonal`, `C36_shares_block`, `C37_slice`, `C37_partial`, `C37_overlap`, `C37_refuted`, `C54_partial`, `C54_overlap`, `C54_refuted`, `C38_lu`, `C38_cholesky`, `C38_qr`, `C38_rrqr`, `C38_hessenberg`, `C38_tridiagonal`, `C38_bidiagonal`, `C38_schur`, `C38_eigen`, `C38_svd`, `C38_input`, `C38_shared`, `C38_shared_solver`, `C55_terminates`, `C55_accessors`, `C55_complex`, `C55_scale_refuted`, `C55_small_imaginary_refuted`, `C48_nonsymmetric_refuted`, `C56_entries`, `C56_vectors`, `C56_array`, `C56_block`, `C56_diagonal_refuted`, `C56_diagonal_partial`, `C64_array_partial`, `C64_block_partial`, `C64_fresh`, `C64_writers`, `C64_overlap_refuted`, `C69_vector`, `C69_array`, `C69_block`, `C69_diagonal`, `C69_combine_partial`, `C69_combine_overlap`, `C69_combine_refuted`, `C67_permuted`, `C62_messages_partial`, `C62_refuted`, `C62_number_text`, `C63_checks`, `C63_shape`, `C63_range`, `C63_dims`, `C63_status_partial`, `C63_status_refuted`, `C63_bound_refuted`, `C63_bounds`, `C74_lu`, `C74_cholesky`, `C74_qr`, `C74_rrqr`, `C74_hessenberg`, `C74_tridiagonal`, `C74_bidiagonal`, `C74_rectangular`, `C74_entries_only`, `C78_entrywise`, `C78_product`, `C78_vectors`, `C78_trace`, `C78_mismatch`, `C78_separate`, `C78_separate_diagonal`, `C78_entries_only`, `C78_diagonal`, `C78_diagonal_product`, `C78_diagonal_vectors`, `C78_expressions`, `C78_block_entrywise`, `C78_block_product`, `C78_block_vectors`, `C78_block_trace`, `C78_block_mismatch`, `C78_block_separate`, `C78_diagonal_mixed`, `C78_diagonal_scalar`, `C78_expressions_any`, `C78_expressions_panic`, `C79_any_arithmetic`, `C79_separate`, `C79_refused`, `C75_lu`, `C75_cholesky`, `C75_qr`, `C75_solutions_separate`, `C75_entries_only`, `C76_shared`, `C76_no_race`, `C76_as_alone`, `C76_ends`, `C76_new`, `C76_apart`, `C76_arithmetic`, `C76_block_arithmetic`, `C76_vectors`, `C76_shift_trace`, `C77_filled`, `C77_filled_keeps`, `C77_filled_no_race`, `C77_filled_others`, `C77_first_L`, `C77_first_U`, `C77_first_P`, `C77_LT_partial`, `C77_L_partial`, `C77_early_refuted`, `C77_forever_refuted`, `C77_field_race_refuted`, `C77_array_race_refuted`, `C77_same_refuted`.
* `ClassicalDedekindReals.sig_forall_dec`, `FunctionalExtensionality.functional_extensionality_dep`: `C42_float_sorted`, `C42_float_tridiagonal_sorted`, `C65_size`, `C70_size`, `C71_cosine_refuted`, `C72_size`, `C73_size`.
* `ClassicalDedekindReals.sig_forall_dec`, `ClassicalDedekindReals.sig_not_dec`, `FunctionalExtensionality.functional_extensionality_dep`: `C06_product`, `C07_operate`, `C07_premultiply`, `C14_power`, `C17_inverse_identity`, `C21_norms`, `C21_values`, `C21_distances`, `C21_cosine`, `C21_unitize`, `C21_unit_vector`, `C39_trace`, `C39_frobenius`, `C39_linf_columns`, `C39_linf_refuted`, `C41_projection_partial`, `C24_factorisation`, `C24_singular_means`, `C24_accepts`, `C25_determinant`, `C25_zero`, `C26_solve_vector`, `C26_solve_matrix`, `C26_inverse`, `C27_factorisation`, `C27_upper_triangle`, `C27_accepts`, `C27_accepts_definite`, `C27_definite`, `C28_solve_vector`, `C28_solve_matrix`, `C28_inverse`, `C29_factorisation`, `C29_reflectors`, `C30_solve_vector`, `C30_solve_matrix`, `C30_inverse`, `C30_full_rank`, `C31_factorisation`, `C31_rank`, `C31_rank_unique`, `C31_rank_drop`, `C31_solve_vector`, `C31_solve_matrix`, `C31_inverse`, `C32_factorisation`, `C32_defined`, `C32_symmetric`, `C32_error`, `C33_factorisation`, `C34_factorisation`, `C35_factorisation`, `C42_symmetric`, `C42_tridiagonal`, `C42_small_converges`, `C47_square_root`, `C48_solver`, `C48_dimension`, `C43_factorisation_partial`, `C45_exact`, `C49_factorisation_partial`, `C49_returns`, `C49_turns`, `C49_four_turns`, `C49_exact_refuted`, `C50_norm`, `C50_condition`, `C50_each`, `C51_solver`, `C51_least_squares`, `C53_inverse`, `C55_error`, `C55_complex_real`, `C55_roots`, `C55_vectors_partial`, `C79_power`.
* `ClassicalDedekindReals.sig_forall_dec`, `ClassicalDedekindReals.sig_not_dec`, `Classical_Prop.classic`, `FunctionalExtensionality.functional_extensionality_dep`: `C57_operations`, `C57_product`, `C57_operate`, `C57_premultiply`, `C57_dot`, `C57_trace`, `C57_norms`, `C58_factors`, `C58_no_overflow`, `C59_solve`, `C60_cholesky`, `C61_definite_partial`, `C61_refuted`, `C65_backward`, `C65_finite`, `C65_scale_refuted`, `C66_solve`, `C67_backward`, `C68_solve`, `C70_bidiagonal`, `C70_finite`, `C70_finite_refuted`, `C71_lu`, `C71_cholesky`, `C71_eigen`, `C71_distances`, `C71_norms`, `C72_hessenberg`, `C72_finite_refuted`, `C73_tridiagonal`, `C73_finite_refuted`.

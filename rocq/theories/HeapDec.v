(** Constructors of decompositions with the storage explicit: what they read
    from the matrix and where they write.  The numbers are computed as in
    LU.v, Cholesky.v, QR.v and Hess.v; here the rows are windows into arrays,
    and a variable such as luRow is a second name for a row. *)
From Coq Require Import ZArith QArith List Lia Bool.
From Verif Require Import Base Scalar Vector Matrix Heap.
Import ListNotations.
Open Scope Z_scope.

Section HeapDec.
Context {O : Ops}.

(** [for i := hi; i >= lo; i-- { body }] *)
Definition mdown {T} (hi lo : Z) (body : Z -> T -> M T) (s : T) : M T :=
  mfor 0 (hi - lo + 1) (fun k => body (hi - k)) s.
(** A loop the body can leave: the flag says whether it did. *)
Fixpoint mup_brk {T} (n : nat) (i : Z) (body : Z -> T -> M (bool * T)) (s : T) : M (bool * T) :=
  match n with
  | 0%nat => ret (false, s)
  | Datatypes.S n' => mbind (body i s) (fun bs => if fst bs then ret bs else mup_brk n' (i + 1) body (snd bs))
  end.
Definition mfor_brk {T} (lo hi : Z) (body : Z -> T -> M (bool * T)) (s : T) : M (bool * T) :=
  mup_brk (Z.to_nat (hi - lo)) lo body s.
(** A computation on values that are not shared ([]int). *)
Definition pure {A} (r : res A) : M A := fun h => (r, h).

(** ** The three kinds of matrix *)
Inductive HMat := HA (a : slice) | HD (d : slice) | HB (b : HBlk).
Definition hm_rows (x : HMat) : Z := match x with HA a => h2_rows a | HD d => sl_len d | HB b => hb_rows b end.
Definition hm_cols (x : HMat) : M Z := match x with HA a => h2_cols a | HD d => ret (sl_len d) | HB b => ret (hb_columns b) end.
Definition hm_Data (x : HMat) : M slice := match x with HA a => h2_Data a | HD d => hd_Data d | HB b => hb_Data b end.
(** IsSquare: real_matrix.go:482-484. *)
Definition hm_IsSquare (x : HMat) : M bool := let! c := hm_cols x in ret (c =? hm_rows x).
(** Transpose of a DiagonalMatrix: diagonal_matrix.go:641-664, with the walk
    666-676 written out. *)
Definition hd_Transpose (d : slice) : M slice :=
  let n := sl_len d in
  let! copy := makeF n in
  let! _ := mfor 0 n (fun i (_ : unit) => mfor 0 n (fun j (_ : unit) =>
    let! x := hd_At d i j in hd_SetEntry copy j i x) tt) tt in
  ret copy.
(** Transpose of a BlockRealMatrix: block_real_matrix.go:927-961. *)
Definition hb_Transpose (b : HBlk) : M HBlk :=
  let nRows := hb_rows b in
  let nCols := hb_columns b in
  let! blocks := hb_create nCols nRows in
  let! _ := mfor 0 (hb_blockColumns b) (fun iBlock blockIndex =>
    mfor 0 (hb_blockRows b) (fun jBlock blockIndex =>
      let pStart := iBlock * BLOCK_SIZE in
      let pEnd := Z.min (pStart + BLOCK_SIZE) (hb_columns b) in
      let qStart := jBlock * BLOCK_SIZE in
      let qEnd := Z.min (qStart + BLOCK_SIZE) (hb_rows b) in
      let! _ := mfor pStart pEnd (fun p k =>
        let lInc := pEnd - pStart in
        let! (k, _) := mfor qStart qEnd (fun q '(k, l) =>
          let! x := rd2 (hb_blocks b) (jBlock * hb_blockColumns b + iBlock) l in
          let! _ := wr2 blocks blockIndex k x in
          ret (k + 1, l + lInc)) (k, p - pStart) in
        ret k) 0 in
      ret (blockIndex + 1)) blockIndex) 0 in
  ret (mkHBlk blocks nCols nRows (hb_nblk nCols) (hb_nblk nRows)).
Definition hm_Transpose (x : HMat) : M HMat :=
  match x with
  | HA a => let! t := h2_Transpose a in ret (HA t)
  | HD d => let! t := hd_Transpose d in ret (HD t)
  | HB b => let! t := hb_Transpose b in ret (HB t)
  end.

(** ** lu_decomposition.go *)
Record HLU := mkHLU { hlu_lu : slice; hlu_pivot : list Z; hlu_even : bool; hlu_singular : bool }.
(** lu_decomposition.go:77-82 and 91-96: luRow is the row [row]. *)
Definition hlu_reduce (lu : slice) (row col n : Z) : M F :=
  let! luRow := rdS lu row in
  let! sum := rdF luRow col in
  let! sum := mfor 0 n (fun i sum =>
    let! x := rdF luRow i in
    let! y := rd2 lu i col in
    ret (sum - x * y)%f) sum in
  let! _ := wrF luRow col sum in
  ret sum.
(** lu_decomposition.go:76-83. *)
Definition hlu_upper (col : Z) (lu : slice) : M unit :=
  mfor 0 col (fun row (_ : unit) => let! _ := hlu_reduce lu row col row in ret tt) tt.
(** lu_decomposition.go:86-103. *)
Definition hlu_lower (m col : Z) (lu : slice) : M (Z * option F) :=
  mfor col m (fun row '(max, largest) =>
    let! sum := hlu_reduce lu row col col in
    if match largest with None => negb (fisnan (fabs sum)) | Some l => fgt (fabs sum) l end
    then ret (row, Some (fabs sum)) else ret (max, largest)) (col, None).
(** lu_decomposition.go:113-124: luMax and luCol are two rows. *)
Definition hlu_swap (m max col : Z) (lu : slice) (pivot : list Z) : M (list Z) :=
  let! luMax := rdS lu max in
  let! luCol := rdS lu col in
  let! _ := mfor 0 m (fun i (_ : unit) =>
    let! tmp := rdF luMax i in
    let! x := rdF luCol i in
    let! _ := wrF luMax i x in
    wrF luCol i tmp) tt in
  pure (let* temp := zget pivot max in
        let* y := zget pivot col in
        let* pivot := zset pivot max y in
        zset pivot col temp).
(** lu_decomposition.go:128-131. *)
Definition hlu_divide (m col : Z) (lu : slice) : M unit :=
  let! luDiag := rd2 lu col col in
  mfor (col + 1) m (fun row (_ : unit) => let! x := rd2 lu row col in wr2 lu row col (x / luDiag)%f) tt.
(** lu_decomposition.go:73-132. *)
Definition hlu_column (m : Z) (threshold : F) (lu : slice) (col : Z) '((pivot, even) : list Z * bool) : M (bool * (list Z * bool)) :=
  let! _ := hlu_upper col lu in
  let! (max, _) := hlu_lower m col lu in
  let! x := rd2 lu max col in
  if flt (fabs x) threshold then ret (true, (pivot, even)) else
  let! (pivot, even) :=
    (if negb (max =? col) then
       let! pivot := hlu_swap m max col lu pivot in ret (pivot, negb even)
     else ret (pivot, even)) in
  let! _ := hlu_divide m col lu in
  ret (false, (pivot, even)).
(** NewLUDecompositionWithThreshold: lu_decomposition.go:57-135. *)
Definition h_NewLU (x : HMat) (threshold : F) : M HLU :=
  let! sq := hm_IsSquare x in
  if negb sq then merr ENonSquare else
  let! m := hm_cols x in
  let! lu := hm_Data x in
  let! pivot := pure (let* pivot := make 0 m in for_ 0 m (fun row pivot => zset pivot row row) pivot) in
  let! (singular, (pivot, even)) := mfor_brk 0 m (hlu_column m threshold lu) (pivot, true) in
  ret (mkHLU lu pivot even singular).

(** ** cholesky_decomposition.go *)
(** cholesky_decomposition.go:80-94. *)
Definition hch_check (order : Z) (rel : F) (lT : slice) : M unit :=
  mfor 0 order (fun i (_ : unit) =>
    let! lI := rdS lT i in
    mfor (i + 1) order (fun j (_ : unit) =>
      let! lJ := rdS lT j in
      let! lIJ := rdF lI j in
      let! lJI := rdF lJ i in
      let maxDelta := (rel * fmax (fabs lIJ) (fabs lJI))%f in
      if fgt (fabs (lIJ - lJI)%f) maxDelta then merr (ENonSymmetric i j) else
      wrF lJ i fzero) tt) tt.
(** cholesky_decomposition.go:97-116. *)
Definition hch_step (order : Z) (pos : F) (lT : slice) (i : Z) (_ : unit) : M unit :=
  let! ltI := rdS lT i in
  let! x := rdF ltI i in
  if fle x pos then merr ENonPosDef else
  let! _ := modF ltI i fsqrt in
  let! y := rdF ltI i in
  let inverse := (fone / y)%f in
  mdown (order - 1) (i + 1) (fun q (_ : unit) =>
    let! _ := modF ltI q (fun a => (a * inverse)%f) in
    let! ltQ := rdS lT q in
    mfor q order (fun p (_ : unit) =>
      let! b := rdF ltQ p in
      let! u := rdF ltI q in
      let! v := rdF ltI p in
      wrF ltQ p (b - u * v)%f) tt) tt.
(** NewCholeskyDecomposition: cholesky_decomposition.go:69-120; the result is
    lTData. *)
Definition h_NewCholesky (x : HMat) (rel pos : F) : M slice :=
  let! sq := hm_IsSquare x in
  if negb sq then merr ENonSquare else
  let order := hm_rows x in
  let! lT := hm_Data x in
  let! _ := hch_check order rel lT in
  let! _ := mfor 0 order (hch_step order pos lT) tt in
  ret lT.

(** ** qr_decomposition.go *)
Record HQR := mkHQR { hqr_qrt : slice; hqr_rDiag : slice }.
(** performHouseholderReflection: qr_decomposition.go:79-140. *)
Definition hqr_reflect (qrt rDiag : slice) (minor : Z) (_ : unit) : M unit :=
  let! qrtMinor := rdS qrt minor in
  let! xNormSqr := mfor minor (sl_len qrtMinor) (fun row acc => let! c := rdF qrtMinor row in ret (acc + c * c)%f) fzero in
  let a := fsqrt xNormSqr in
  let! d := rdF qrtMinor minor in
  let a := if fgt d fzero then (a * fneg fone)%f else a in
  let! _ := wrF rDiag minor a in
  if feq a fzero then ret tt else
  let! _ := modF qrtMinor minor (fun d => (d - a)%f) in
  mfor (minor + 1) (sl_len qrt) (fun col (_ : unit) =>
    let! qrtCol := rdS qrt col in
    let! alpha := mfor minor (sl_len qrtCol) (fun row alpha =>
      let! x := rdF qrtCol row in
      let! v := rdF qrtMinor row in
      ret (alpha - x * v)%f) fzero in
    let! v0 := rdF qrtMinor minor in
    let alpha := (alpha / (a * v0))%f in
    mfor minor (sl_len qrtCol) (fun row (_ : unit) =>
      let! x := rdF qrtCol row in
      let! v := rdF qrtMinor row in
      wrF qrtCol row (x - alpha * v)%f) tt) tt.
(** NewQRDecompositionWithThreshold, decompose: qr_decomposition.go:54-75. *)
Definition h_NewQR (x : HMat) : M HQR :=
  let m := hm_rows x in
  let! n := hm_cols x in
  let! t := hm_Transpose x in
  let! qrt := hm_Data t in
  let! rDiag := makeF (Z.min m n) in
  let! row0 := rdS qrt 0 in
  let! _ := mfor 0 (Z.min (sl_len qrt) (sl_len row0)) (hqr_reflect qrt rDiag) tt in
  ret (mkHQR qrt rDiag).

(** ** hessenberg_transformer.go *)
Record HHs := mkHHs { hhs_hv : slice; hhs_ort : slice }.
(** One turn of transform: hessenberg_transformer.go:178-225. *)
Definition hhs_step (n : Z) (hv ort : slice) (m : Z) (_ : unit) : M unit :=
  let high := n - 1 in
  let! scale := mfor m (high + 1) (fun i scale => let! x := rd2 hv i (m - 1) in ret (scale + fabs x)%f) fzero in
  if fulp1 scale fzero then ret tt else
  let! h := mdown high m (fun i h =>
    let! x := rd2 hv i (m - 1) in
    let! _ := wrF ort i (x / scale)%f in
    let! a := rdF ort i in
    let! b := rdF ort i in
    ret (h + a * b)%f) fzero in
  let g := fsqrt h in
  let! om := rdF ort m in
  let g := if fgt om fzero then (g * fneg fone)%f else g in
  let! om := rdF ort m in
  let h := (h - om * g)%f in
  let! _ := modF ort m (fun om => (om - g)%f) in
  let! _ := mfor m n (fun j (_ : unit) =>
    let! f := mdown high m (fun i f =>
      let! o := rdF ort i in
      let! x := rd2 hv i j in ret (f + o * x)%f) fzero in
    let f := (f / h)%f in
    mfor m (high + 1) (fun i (_ : unit) =>
      let! o := rdF ort i in
      let! x := rd2 hv i j in wr2 hv i j (x - f * o)%f) tt) tt in
  let! _ := mfor 0 (high + 1) (fun i (_ : unit) =>
    let! f := mdown high m (fun j f =>
      let! o := rdF ort j in
      let! x := rd2 hv i j in ret (f + o * x)%f) fzero in
    let f := (f / h)%f in
    mfor m (high + 1) (fun j (_ : unit) =>
      let! o := rdF ort j in
      let! x := rd2 hv i j in wr2 hv i j (x - f * o)%f) tt) tt in
  let! _ := modF ort m (fun om => (scale * om)%f) in
  wr2 hv m (m - 1) (scale * g)%f.
(** NewHessenbergTransformer: hessenberg_transformer.go:46-61, 173-228. *)
Definition h_NewHessenberg (x : HMat) : M HHs :=
  let! sq := hm_IsSquare x in
  if negb sq then merr ENonSquare else
  let m := hm_rows x in
  let! hv := hm_Data x in
  let! ort := makeF m in
  let n := sl_len hv in
  let! _ := mfor 1 (n - 1) (hhs_step n hv ort) tt in
  ret (mkHHs hv ort).

(** ** rrqr_decomposition.go *)
(** performHouseholderReflection: rrqr_decomposition.go:74-95; the rows are
    swapped by swapping the headers. *)
Definition hrr_reflect (qrt rDiag : slice) (minor : Z) (p : list Z) : M (list Z) :=
  let! (_, ix) := mfor minor (sl_len qrt) (fun i '(mx, ix) =>
    let! row := rdS qrt i in
    let! l2 := mfor minor (sl_len row) (fun j acc =>
      let! x := rd2 qrt i j in
      let! x' := rd2 qrt i j in
      ret (acc + x * x')%f) fzero in
    ret (if fgt l2 mx then (l2, i) else (mx, ix))) (fzero, minor) in
  let! p := (if negb (ix =? minor) then
      let! a := rdS qrt ix in
      let! b := rdS qrt minor in
      let! _ := wrS qrt minor a in
      let! _ := wrS qrt ix b in
      pure (let* x := zget p ix in
            let* y := zget p minor in
            let* p := zset p minor x in
            zset p ix y)
    else ret p) in
  let! _ := hqr_reflect qrt rDiag minor tt in
  ret p.
(** NewRRQRDecompositionWithThreshold, decompose: rrqr_decomposition.go:45-69. *)
Record HRR := mkHRR { hrr_qrt : slice; hrr_rDiag : slice; hrr_p : list Z }.
Definition h_NewRRQR (x : HMat) : M HRR :=
  let m := hm_rows x in
  let! n := hm_cols x in
  let! t := hm_Transpose x in
  let! qrt := hm_Data t in
  let! rDiag := makeF (Z.min m n) in
  let! p := pure (let* p := make 0 (sl_len qrt) in for_ 0 (sl_len qrt) (fun i p => zset p i i) p) in
  let! row0 := rdS qrt 0 in
  let! p := mfor 0 (Z.min (sl_len qrt) (sl_len row0)) (hrr_reflect qrt rDiag) p in
  ret (mkHRR qrt rDiag p).

(** ** tridiagonal_transformer.go *)
Record HTd := mkHTd { htd_hv : slice; htd_main : slice; htd_sec : slice }.
(** One turn of transform: tridiagonal_transformer.go:189-248; hK and hI are
    rows of the matrix. *)
Definition htd_step (m : Z) (hv mn sec z : slice) (k : Z) (_ : unit) : M unit :=
  let! hK := rdS hv k in
  let! x := rdF hK k in
  let! _ := wrF mn k x in
  let! xNormSqr := mfor (k + 1) m (fun j acc => let! c := rdF hK j in ret (acc + c * c)%f) fzero in
  let a := fsqrt xNormSqr in
  let! x := rdF hK (k + 1) in
  let a := if fgt x fzero then (a * fneg fone)%f else a in
  let! _ := wrF sec k a in
  if feq a fzero then ret tt else
  let! _ := modF hK (k + 1) (fun x => (x - a)%f) in
  let! x := rdF hK (k + 1) in
  let beta := (fneg fone / (a * x))%f in
  let! _ := mfor (k + 1) m (fun i (_ : unit) => wrF z i fzero) tt in
  let! _ := mfor (k + 1) m (fun i (_ : unit) =>
    let! hI := rdS hv i in
    let! hKI := rdF hK i in
    let! hII := rdF hI i in
    let! zI := mfor (i + 1) m (fun j zI =>
      let! hIJ := rdF hI j in
      let! hKJ := rdF hK j in
      let! _ := modF z j (fun zj => (zj + hIJ * hKI)%f) in
      ret (zI + hIJ * hKJ)%f) (hII * hKI)%f in
    modF z i (fun zi => (beta * (zi + zI))%f)) tt in
  let! gamma := mfor (k + 1) m (fun i g => let! zi := rdF z i in let! v := rdF hK i in ret (g + zi * v)%f) fzero in
  let gamma := (gamma * (beta / flit 2))%f in
  let! _ := mfor (k + 1) m (fun i (_ : unit) => let! v := rdF hK i in modF z i (fun zi => (zi - gamma * v)%f)) tt in
  mfor (k + 1) m (fun i (_ : unit) =>
    let! hI := rdS hv i in
    mfor i m (fun j (_ : unit) =>
      let! vi := rdF hK i in
      let! zj := rdF z j in
      let! zi := rdF z i in
      let! vj := rdF hK j in
      modF hI j (fun x => (x - (vi * zj + zi * vj))%f)) tt) tt.
(** NewTriDiagonalTransformer, transform: tridiagonal_transformer.go:47-61, 183-251. *)
Definition h_NewTriDiagonal (x : HMat) : M HTd :=
  let! sq := hm_IsSquare x in
  if negb sq then merr ENonSquare else
  let m := hm_rows x in
  let! hv := hm_Data x in
  let! mn := makeF m in
  let! sec := makeF (m - 1) in
  let m := sl_len hv in
  let! z := makeF m in
  let! _ := mfor 0 (m - 1) (htd_step m hv mn sec z) tt in
  let! y := rd2 hv (m - 1) (m - 1) in
  let! _ := wrF mn (m - 1) y in
  ret (mkHTd hv mn sec).

(** ** bidiagonal_transformer.go *)
(** The two-way choice of the sign: bidiagonal_transformer.go:201-206 and the
    like. *)
Definition hbd_norm (x xNormSqr : F) : F := if fgt x fzero then fneg (fsqrt xNormSqr) else fsqrt xNormSqr.
(** A column [k] from row [lo] is a Householder vector, applied to the columns
    [from] to [n]: bidiagonal_transformer.go:211-222 and 307-318.  [v0] gives
    the first entry of the vector at line 217 or 313. *)
Definition hbd_columns (hv : slice) (k lo m from n : Z) (a : F) (v0 : M F) : M unit :=
  mfor from n (fun j (_ : unit) =>
    let! alpha := mfor lo m (fun i alpha =>
      let! hI := rdS hv i in
      let! x := rdF hI j in
      let! v := rdF hI k in
      ret (alpha - x * v)%f) fzero in
    let! v := v0 in
    let alpha := (alpha / (a * v))%f in
    mfor lo m (fun i (_ : unit) =>
      let! hI := rdS hv i in
      let! v := rdF hI k in
      modF hI j (fun x => (x - alpha * v)%f)) tt) tt.
(** The row [hK] from column [lo] is one, applied to the rows [from] to [m]:
    bidiagonal_transformer.go:241-251 and 277-288. *)
Definition hbd_rows (hv hK : slice) (lo n from m : Z) (a : F) (v0 : M F) : M unit :=
  mfor from m (fun i (_ : unit) =>
    let! hI := rdS hv i in
    let! alpha := mfor lo n (fun j alpha =>
      let! x := rdF hI j in
      let! v := rdF hK j in
      ret (alpha - x * v)%f) fzero in
    let! v := v0 in
    let alpha := (alpha / (a * v))%f in
    mfor lo n (fun j (_ : unit) =>
      let! v := rdF hK j in
      modF hI j (fun x => (x - alpha * v)%f)) tt) tt.
(** One turn of transformToUpperBiDiagonal: bidiagonal_transformer.go:192-253. *)
Definition hbd_upper (hv mn sec : slice) (m n k : Z) (_ : unit) : M unit :=
  let! xNormSqr := mfor k m (fun i acc => let! c := rd2 hv i k in ret (acc + c * c)%f) fzero in
  let! hK := rdS hv k in
  let! x := rdF hK k in
  let a := hbd_norm x xNormSqr in
  let! _ := wrF mn k a in
  let! _ := (if feq a fzero then ret tt else
    let! _ := modF hK k (fun x => (x - a)%f) in
    hbd_columns hv k k m (k + 1) n a (rd2 hv k k)) in
  if k <? n - 1 then
    let! xNormSqr := mfor (k + 1) n (fun j acc => let! c := rdF hK j in ret (acc + c * c)%f) fzero in
    let! x := rdF hK (k + 1) in
    let b := hbd_norm x xNormSqr in
    let! _ := wrF sec k b in
    if feq b fzero then ret tt else
    let! _ := modF hK (k + 1) (fun x => (x - b)%f) in
    hbd_rows hv hK (k + 1) n (k + 1) m b (rdF hK (k + 1))
  else ret tt.
(** One turn of transformToLowerBiDiagonal: bidiagonal_transformer.go:259-321. *)
Definition hbd_lower (hv mn sec : slice) (m n k : Z) (_ : unit) : M unit :=
  let! hK := rdS hv k in
  let! xNormSqr := mfor k n (fun j acc => let! c := rdF hK j in ret (acc + c * c)%f) fzero in
  let! x := rdF hK k in
  let a := hbd_norm x xNormSqr in
  let! _ := wrF mn k a in
  let! _ := (if feq a fzero then ret tt else
    let! _ := modF hK k (fun x => (x - a)%f) in
    hbd_rows hv hK k n (k + 1) m a (rd2 hv k k)) in
  if k <? m - 1 then
    let! hKp1 := rdS hv (k + 1) in
    let! xNormSqr := mfor (k + 1) m (fun i acc => let! c := rd2 hv i k in ret (acc + c * c)%f) fzero in
    let! x := rdF hKp1 k in
    let b := hbd_norm x xNormSqr in
    let! _ := wrF sec k b in
    if feq b fzero then ret tt else
    let! _ := modF hKp1 k (fun x => (x - b)%f) in
    hbd_columns hv k (k + 1) m (k + 1) n b (rdF hKp1 k)
  else ret tt.
(** NewBiDiagonalTransformer: bidiagonal_transformer.go:13-29, 188-323. *)
Definition h_NewBiDiagonal (x : HMat) : M HTd :=
  let m := hm_rows x in
  let! n := hm_cols x in
  let p := Z.min m n in
  let! hv := hm_Data x in
  let! mn := makeF p in
  let! sec := makeF (p - 1) in
  let! row0 := rdS hv 0 in
  let m' := sl_len hv in
  let n' := sl_len row0 in
  let! _ := (if n <=? m then mfor 0 n' (hbd_upper hv mn sec m' n') tt
             else mfor 0 m' (hbd_lower hv mn sec m' n') tt) in
  ret (mkHTd hv mn sec).

(** ** rectangular_cholesky_decomposition.go *)
(** SetEntry and NewRealMatrixWithDimension on the three kinds of matrix:
    real_matrix.go:327-333. *)
Definition hm_SetEntry (x : HMat) (i j : Z) (v : F) : M unit :=
  match x with HA a => h2_SetEntry a i j v | HD d => hd_SetEntry d i j v | HB b => hb_SetEntry b i j v end.
Definition h_NewRealMatrixWithDimension (r c : Z) : M HMat :=
  if r * c <=? 4096 then let! a := h2_New r c in ret (HA a) else let! b := hb_New r c in ret (HB b).
(** One turn of the loop: rectangular_cholesky_decomposition.go:47-107. *)
Definition hrc_turn (order : Z) (small : F) (b c : slice) (r : Z) (s : list Z * Z) : M (bool * (list Z * Z)) :=
  let '(index, _) := s in
  let! swapR := mfor (r + 1) order (fun i swapR =>
    let! ii := pure (zget index i) in
    let! isr := pure (zget index swapR) in
    let! x := rd2 c ii ii in
    let! y := rd2 c isr isr in
    ret (if fgt x y then i else swapR)) r in
  let! index := (if negb (swapR =? r) then
      let! index := pure (let* tmpIndex := zget index r in
                          let* x := zget index swapR in
                          let* index := zset index r x in
                          zset index swapR tmpIndex) in
      let! tmpRow := rdS b r in
      let! y := rdS b swapR in
      let! _ := wrS b r y in
      let! _ := wrS b swapR tmpRow in
      ret index
    else ret index) in
  let! ir := pure (zget index r) in
  let! p := rd2 c ir ir in
  if fle p small then
    if r =? 0 then merr ENonPosDef else
    let! _ := mfor r order (fun i (_ : unit) =>
      let! ii := pure (zget index i) in
      let! x := rd2 c ii ii in
      if flt x (- small)%f then merr ENonPosDef else ret tt) tt in
    ret (true, (index, r))
  else
    let sqrt := fsqrt p in
    let! _ := wr2 b r r sqrt in
    let inverse := (fone / sqrt)%f in
    let! p := rd2 c ir ir in
    let inverse2 := (fone / p)%f in
    let! _ := mfor (r + 1) order (fun i (_ : unit) =>
      let! ii := pure (zget index i) in
      let! x := rd2 c ii ir in
      let e := (inverse * x)%f in
      let! _ := wr2 b i r e in
      let! y := rd2 c ii ii in
      let! x1 := rd2 c ii ir in
      let! x2 := rd2 c ii ir in
      let! _ := wr2 c ii ii (y - x1 * x2 * inverse2)%f in
      mfor (r + 1) i (fun j (_ : unit) =>
        let! ij := pure (zget index j) in
        let! z := rd2 c ii ij in
        let! bj := rd2 b j r in
        let f := (z - e * bj)%f in
        let! _ := wr2 c ii ij f in
        wr2 c ij ii f) tt) tt in
    ret (false, (index, r + 1)).
(** NewRectangularCholeskyDecompositionWithThreshold:
    rectangular_cholesky_decomposition.go:34-125; the result is the root. *)
Definition h_NewRectChol (x : HMat) (small : F) : M HMat :=
  let order := hm_rows x in
  let! c := hm_Data x in
  let! b := h_make2 order order in
  let! index := pure (let* index := make 0 order in for_ 0 order (fun i index => zset index i i) index) in
  let! bs := mfor_brk 0 (Z.max 1 order) (hrc_turn order small b c) (index, 0) in
  let '(index, r) := snd bs in
  let! root := h_NewRealMatrixWithDimension order r in
  let! _ := mfor 0 order (fun i (_ : unit) =>
    mfor 0 r (fun j (_ : unit) =>
      let! ii := pure (zget index i) in
      let! v := rd2 b i j in
      hm_SetEntry root ii j v) tt) tt in
  ret root.

(** ** A caching accessor *)
(** NewRealMatrixFromSlices: real_matrix.go:335-345. *)
Definition h_NewRealMatrixFromSlices (data : slice) : M HMat :=
  if isnil data then merr EInvalidArgument else
  let! row0 := rdS data 0 in
  if isnil row0 then merr EInvalidArgument else
  if sl_len data * sl_len row0 <=? 4096 then let! a := h2_FromSlices data true in ret (HA a)
  else let! b := hb_FromSlices data in ret (HB b).
(** CholeskyDecomposition with its cache; LT: cholesky_decomposition.go:135-144. *)
Record HCh := mkHCh { hch_lT : slice; hch_cachedLT : option HMat }.
Definition h_LT (d : HCh) : M (HMat * HCh) :=
  match hch_cachedLT d with
  | Some m => ret (m, d)
  | None => let! m := mpan (h_NewRealMatrixFromSlices (hch_lT d)) in ret (m, mkHCh (hch_lT d) (Some m))
  end.
End HeapDec.

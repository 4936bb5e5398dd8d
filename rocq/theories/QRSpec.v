(** Vocabulary of the QR and rank-revealing QR properties. *)
From Coq Require Import ZArith List Lia Bool Reals.
From Verif Require Import Base Scalar Vector Matrix MatSpec DiagSpec RealMatrixM QR RealOps RSum.
Open Scope Z_scope.

(** [d'] is [d] after any sequence of calls to the caching accessors. *)
Inductive qr_calls {O : Ops} : QRD -> QRD -> Prop :=
| qc_none d : qr_calls d d
| qc_Q d d1 d2 m : qr_Q d = Ok (m, d1) -> qr_calls d1 d2 -> qr_calls d d2
| qc_QT d d1 d2 m : qr_QT d = Ok (m, d1) -> qr_calls d1 d2 -> qr_calls d d2
| qc_R d d1 d2 m : qr_R d = Ok (m, d1) -> qr_calls d1 d2 -> qr_calls d d2
| qc_H d d1 d2 m : qr_H d = Ok (m, d1) -> qr_calls d1 d2 -> qr_calls d d2.
(** The same for the rank-revealing decomposition. *)
Inductive rr_calls {O : Ops} : RRQRD -> RRQRD -> Prop :=
| rc_none d : rr_calls d d
| rc_Q d d1 d2 m : rr_lift qr_Q d = Ok (m, d1) -> rr_calls d1 d2 -> rr_calls d d2
| rc_QT d d1 d2 m : rr_lift qr_QT d = Ok (m, d1) -> rr_calls d1 d2 -> rr_calls d d2
| rc_R d d1 d2 m : rr_lift qr_R d = Ok (m, d1) -> rr_calls d1 d2 -> rr_calls d d2
| rc_H d d1 d2 m : rr_lift qr_H d = Ok (m, d1) -> rr_calls d1 d2 -> rr_calls d d2
| rc_P d d1 d2 m : rr_P d = Ok (m, d1) -> rr_calls d1 d2 -> rr_calls d d2
| rc_Rank d d1 d2 drop k : rr_Rank d drop = Ok (k, d1) -> rr_calls d1 d2 -> rr_calls d d2.

(** [d] is a decomposition of [m] (either constructor; NewQRDecomposition has
    threshold 0) followed by accessor calls. *)
Definition qr_of {O : Ops} (m : RealMatrix) (thr : F) (d : QRD) : Prop :=
  exists d0, (NewQRDecompositionWithThreshold m thr = Ok d0 \/ (thr = fzero /\ NewQRDecomposition m = Ok d0)) /\ qr_calls d0 d.
Definition rr_of {O : Ops} (m : RealMatrix) (thr : F) (d : RRQRD) : Prop :=
  exists d0, (NewRRQRDecompositionWithThreshold m thr = Ok d0 \/ (thr = fzero /\ NewRRQRDecomposition m = Ok d0)) /\ rr_calls d0 d.

(** Transpose works on every matrix of the library except, in an arithmetic
    whose zero does not count as zero, on a diagonal one. *)
Definition transposable {O : Ops} (m : RealMatrix) : Prop := general m \/ (library m /\ zero_like fzero).

(** A w = 0 only for w = 0. *)
Definition independent (m n : Z) (A : Z -> Z -> R) : Prop :=
  forall w, (forall i, 0 <= i < m -> mvec n A w i = 0%R) -> forall j, 0 <= j < n -> w j = 0%R.
(** [r] is the rank of [A]: [r] independent columns span all of them. *)
Definition has_rank (m n : Z) (A : Z -> Z -> R) (r : Z) : Prop :=
  0 <= r /\ exists s, (forall t, 0 <= t < r -> 0 <= s t < n) /\ independent m r (fun i t => A i (s t)) /\
    forall j, 0 <= j < n -> exists w, forall i, 0 <= i < m -> A i j = mvec r (fun i t => A i (s t)) w i.
(** |A x - b|^2 *)
Definition residual2 (m n : Z) (A : Z -> Z -> R) (x b : Z -> R) : R :=
  Rs 0 m (fun i => (mvec n A x i - b i) * (mvec n A x i - b i))%R.
(** I - h h^T / h_k, for the column h = H(.,k) *)
Definition reflector (H : Z -> Z -> R) (k i j : Z) : R := (idm i j - H i k * H j k / H k k)%R.
(** The norm of the trailing block of [R]. *)
Definition trailing (m n : Z) (T : Z -> Z -> R) (k : Z) : R := sqrt (Rs k m (fun i => Rs k n (fun j => T i j * T i j)))%R.

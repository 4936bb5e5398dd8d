(** Vocabulary of the singular value decomposition. *)
From Coq Require Import ZArith QArith.
From Verif Require Import Base Scalar Vector VecSpec Matrix MatSpec RealMatrixM SVD.
Open Scope Z_scope.

(** [d'] is [d] after any sequence of calls to the caching methods. *)
Inductive sv_calls {O : Ops} : SvD -> SvD -> Prop :=
| svc_none d : sv_calls d d
| svc_UT d d1 d2 m : sv_UT d = Ok (m, d1) -> sv_calls d1 d2 -> sv_calls d d2
| svc_VT d d1 d2 m : sv_VT d = Ok (m, d1) -> sv_calls d1 d2 -> sv_calls d d2
| svc_S d d1 d2 m : sv_S d = Ok (m, d1) -> sv_calls d1 d2 -> sv_calls d d2
| svc_Covariance d d1 d2 min m : sv_Covariance d min = Ok (m, d1) -> sv_calls d1 d2 -> sv_calls d d2
| svc_Solver d d1 d2 m : sv_Solver d = Ok (m, d1) -> sv_calls d1 d2 -> sv_calls d d2.
(** [d] is a decomposition of [x], by a constructor call that returned after some
    number of turns, followed by method calls. *)
Definition svd_of {O : Ops} (x : RealMatrix) (d : SvD) : Prop :=
  exists fuel d0, NewSingularValueDecomposition fuel x = Ok d0 /\ sv_calls d0 d.
(** What the accessors of a decomposition of an r x c matrix return: U is r x p,
    V is c x p, S is p x p with the p singular values on its diagonal, where p =
    min(r, c); UT and VT are the transposes. *)
Definition svd_tables {O : Ops} (r c : Z) (d : SvD) (U : Z -> Z -> F) (S : Z -> F) (V : Z -> Z -> F) : Prop :=
  let p := Z.min r c in
  MatIs (sv_U d) r p U /\ MatIs (sv_V d) c p V /\ VecIs (VArr (sv_SingularValues d)) p S /\
  (exists m d', sv_UT d = Ok (m, d') /\ MatIs m p r (fun i j => U j i)) /\
  (exists m d', sv_VT d = Ok (m, d') /\ MatIs m p c (fun i j => V j i)) /\
  (exists m d', sv_S d = Ok (m, d') /\ MatIs m p p (fun i j => if i =? j then S i else fzero)).
(** The threshold between the singular values taken as positive and as zero,
    for a matrix whose larger dimension is [m] and largest singular value [s1]:
    max(m s1 2^-52, sqrt(2^-53)). *)
Definition svd_threshold {O : Ops} (m : Z) (s1 : F) : F :=
  fmax (fmul (fmul (flit (inject_Z m)) s1) (flit (1 # 4503599627370496))) (fsqrt (flit (1 # 9007199254740992))).

(** Specification vocabulary for matrices: symmetric positive definite and
    positive semi-definite matrices. *)
From mathcomp Require Import all_ssreflect all_algebra.
Set Implicit Arguments.
Unset Strict Implicit.
Unset Printing Implicit Defensive.
Import GRing.Theory Num.Theory.
Local Open Scope ring_scope.

Section PD.
Variable R : rcfType.

(** The quadratic form v A v^T. *)
Definition qf n (A : 'M[R]_n) (v : 'rV[R]_n) : R := (v *m A *m v^T) 0 0.

Definition psd n (A : 'M[R]_n) : Prop := A^T = A /\ forall v, 0 <= qf A v.
Definition posdef n (A : 'M[R]_n) : Prop := A^T = A /\ forall v, v != 0 -> 0 < qf A v.

(** What a singular value decomposition promises: A = W diag(s) V with W and V
    orthogonal and s non-negative and in decreasing order ([np.linalg.svd]
    returns s and V). *)
Definition is_svd n (A : 'M[R]_n) (sv : 'rV[R]_n) (V : 'M[R]_n) : Prop :=
  [/\ V *m V^T = 1%:M,
      exists W : 'M[R]_n, W *m W^T = 1%:M /\ A = W *m diag_mx sv *m V,
      forall i, 0 <= sv 0 i &
      forall i j : 'I_n, (i <= j)%N -> sv 0 j <= sv 0 i].
Definition svd_contract (svd : forall n, 'M[R]_n -> option ('rV[R]_n * 'M[R]_n)) : Prop :=
  forall n (A : 'M[R]_n) sv V, svd n A = Some (sv, V) -> is_svd A sv V.
End PD.

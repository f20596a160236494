(** Linear algebra used by the Kalman filter: [numpy.linalg.cholesky] and
    moirae/estimators/online/filters/kalman/utils.py, over an arbitrary real
    closed field (floating point numbers are modelled by exact ones). *)
From mathcomp Require Import all_ssreflect all_algebra.
From Verif Require Import Res.
Set Implicit Arguments.
Unset Strict Implicit.
Unset Printing Implicit Defensive.
Import GRing.Theory Num.Theory.
Local Open Scope ring_scope.

Section Cholesky.
Variable R : rcfType.

(** [np.linalg.cholesky]: the column-by-column factorisation of LAPACK.  Only the
    lower triangle is read; a pivot that is not positive raises (None). *)
Fixpoint cholesky (n : nat) : 'M[R]_n -> option 'M[R]_n :=
  match n return 'M[R]_n -> option 'M[R]_n with
  | 0 => fun A => Some A
  | n'.+1 => fun A : 'M[R]_(1 + n') =>
    let a := A 0 0 in
    if 0 < a then
      let s := Num.sqrt a in
      let l : 'cV[R]_n' := s^-1 *: dlsubmx A in
      match cholesky (drsubmx A - l *m l^T) with
      | Some L => Some (block_mx s%:M 0 l L)
      | None => None
      end
    else None
  end.

(** [np.allclose(X, Y)] with the default tolerances 1e-5 (relative to Y) and 1e-8. *)
Definition allclose (m n : nat) (X Y : 'M[R]_(m, n)) : bool :=
  [forall i, forall j, `|X i j - Y i j| <= 10%:R ^- 8 + 10%:R ^- 5 * `|Y i j|].

(** [np.linalg.svd] returns (U, S, Vh); only S (a vector) and Vh are used here.
    What it returns is a parameter; [None] stands for non-convergence. *)
Variable svd : forall n, 'M[R]_n -> option ('rV[R]_n * 'M[R]_n).

(** kalman/utils.py lines 27-41, [enforce_positive_semi_defiteness].  [S_diagonal]
    is a vector, so the products give a vector, and adding a vector to a matrix
    adds it to every row; transposing a vector does nothing. *)
Definition enforce_psd (n : nat) (Sig : 'M[R]_n) : res 'M[R]_n :=
  match svd Sig with
  | None => Err LinAlgError
  | Some (sv, Vh) =>
    let h : 'rV[R]_n := (Vh^T *m (sv *m Vh)^T)^T in
    Ok (4%:R^-1 *: \matrix_(i, j) (Sig i j + Sig j i + h 0 j + h 0 j))
  end.

(** kalman/utils.py lines 5-24, [ensure_positive_semi_definite]. *)
Definition ensure_psd (n : nat) (Sig : 'M[R]_n) : res 'M[R]_n :=
  if allclose Sig Sig^T then
    match cholesky Sig with
    | Some _ => Ok Sig
    | None => enforce_psd Sig
    end
  else enforce_psd Sig.

(** [np.linalg.inv] raises for singular matrices. *)
Definition np_inv (n : nat) (A : 'M[R]_n) : res 'M[R]_n :=
  if A \in unitmx then Ok (invmx A) else Err LinAlgError.

(** kalman/utils.py lines 44-53, [calculate_gain_matrix]. *)
Definition calculate_gain_matrix (n p : nat) (cov_xy : 'M[R]_(n, p)) (cov_y : 'M[R]_p) : res 'M[R]_(n, p) :=
  let! i := np_inv cov_y in
  Ok (cov_xy *m i).
End Cholesky.

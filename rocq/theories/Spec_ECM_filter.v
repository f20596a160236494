(** The unscented Kalman filters (UKF.v) of the equations of one cell (Spec_ECM_equations.v),
    without arrays, wrappers or estimators. *)
From Coq Require Import Reals List.
From mathcomp Require Import all_ssreflect all_algebra.
From Verif Require Import Res Distributions Wrappers Estimators Cholesky UKF JointUKF Spec_DualUKF RealField ECM Spec_ECM Spec_ECM_objects Spec_ECM_equations.
Set Implicit Arguments.
Unset Strict Implicit.
Unset Printing Implicit Defensive.
Local Open Scope ring_scope.

(** The model that maps each vector of a batch with the given functions. *)
Definition equations (n k : nat) (g h : list R -> list R) : model reals (list reals) unit n k :=
  Model (fun _ _ _ b (X : 'M[reals]_(b, n)) => Ok (\matrix_i vec_of (R := reals) n (g (list_of (matrix.row i X)))))
        (fun _ _ b (X : 'M[reals]_(b, n)) => Ok (\matrix_i vec_of (R := reals) k (h (list_of (matrix.row i X))))).

Section Filters.
Variable svd : forall n, 'M[reals]_n -> option ('rV[reals]_n * 'M[reals]_n).
Variables (mode : behavior) (capacitor : bool).
(** The circuit with the given parameters. *)
Variable circuit : list R -> cell.

(** One filter for the transient state ([nt] numbers) and the parameters: estimates and
    predicted voltages of a run, after the input [p]. *)
Fixpoint joint_filter (nt n k : nat) (f : ukf reals (list reals) n k) (p : cinput) (l : list (cinput * R)) : list (res (rv reals * rv reals)) :=
  match l with
  | [::] => [::]
  | (u, v) :: rest =>
    match step svd (equations n k (joint_next mode capacitor circuit nt p u) (joint_voltage capacitor circuit nt u))
            f nil (input_values u) (vec_of (R := reals) k [:: v]) with
    | Ok (f', y) => Ok (gaussian_of (hidden f'), gaussian_of y) :: joint_filter nt f' u rest
    | Err e => [:: Err e]
    end
  end.

(** Two filters: the one of the transient state takes the mean of the other for the parameters
    of the circuit, that of the parameters takes the mean of the other for the transient state
    before the step. *)
Fixpoint dual_filter (n m k k' : nat) (f : ukf reals (list reals) n k) (g : ukf reals (list reals) m k') (p : cinput)
  (l : list (cinput * R)) : list (res (rv reals * rv reals)) :=
  match l with
  | [::] => [::]
  | (u, v) :: rest =>
    let theta := list_of (mean (hidden g)) in
    let x := list_of (mean (hidden f)) in
    match step svd (equations n k (transient_next mode capacitor (circuit theta) p u) (transient_voltage capacitor (circuit theta) u))
            f nil (input_values u) (vec_of (R := reals) k [:: v]),
          step svd (equations m k' health_next (health_voltage mode capacitor circuit x p u))
            g nil (input_values u) (vec_of (R := reals) k' [:: v]) with
    | Ok (f', y), Ok (g', _) => Ok (gaussian_of (joined (hidden f') (hidden g')), gaussian_of y) :: dual_filter f' g' u rest
    | Err e, _ => [:: Err e]
    | _, Err e => [:: Err e]
    end
  end.
End Filters.

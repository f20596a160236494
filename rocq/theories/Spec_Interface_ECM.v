(** What running an estimator around the equivalent circuit model over a dataset should give. *)
From Coq Require Import Reals String List.
From mathcomp Require Import all_ssreflect all_algebra.
From Verif Require Import Res Arr Container Interface Spec_Interface Spec_ECM Spec_ECM_objects UKF RealField.
Set Implicit Arguments.
Unset Strict Implicit.
Unset Printing Implicit Defensive.
Local Open Scope ring_scope.

Section Spec.
Variable is_finite : R -> bool.
(** The temperature assumed if none is known. *)
Variable room : R.

(** The time, current, temperature and voltage in a row of a table. *)
Definition reading (columns : list string) (row : list R) (uv : cinput * R) : Prop :=
  let (u, v) := uv in
  [/\ reads R columns row "test_time"%string (ut u), reads R columns row "current"%string (ui u), reads R columns row "voltage"%string v &
      exists T, uT u = Some T /\
        ((reads R columns row "temperature"%string T /\ is_finite T = true) \/
         (T = room /\ (~ List.In "temperature"%string columns \/
                       exists x, reads R columns row "temperature"%string x /\ is_finite x = false)))].

(** A table with such values in each row; [l] are those of all rows but the first. *)
Definition logged (f : frame R) (l : list (cinput * R)) : Prop :=
  exists first rows first_values,
    [/\ f_rows R f = first :: rows, List.Forall (fun row => List.length row = List.length (f_columns R f)) (f_rows R f),
        reading (f_columns R f) first first_values & List.Forall2 (reading (f_columns R f)) rows l].
End Spec.

(** The line of the table of results for estimates of n state variables and of the voltage:
    means and variances. *)
Definition estimate_line (n : nat) (o : gaussian reals n * gaussian reals 1) : list R :=
  [seq mean o.1 0 i | i <- enum 'I_n] ++ [seq covariance o.1 i i | i <- enum 'I_n] ++ [:: mean o.2 0 0; covariance o.2 0 0].
(** The names of its columns, for the given names of the state variables. *)
Definition estimate_columns (names : list string) : list string :=
  names ++ [seq String.append s "_std"%string | s <- names] ++ [:: "terminal_voltage"; "terminal_voltage_std"]%string.

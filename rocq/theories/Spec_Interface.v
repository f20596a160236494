(** What running an estimator over a dataset should do. *)
From Coq Require Import String List Arith Bool.
Import ListNotations.
From Verif Require Import Res Arr NdArray Container Distributions Spec_Distributions Estimators HDF5 Spec_HDF5 Interface.
Local Open Scope string_scope.
Local Open Scope list_scope.

Section Spec.
Variable A : Type.
Variable zero nan : A.
Variable is_nan is_finite : A -> bool.
Variable cycle_of : A -> res nat.
Variable room : A.

(** The value of a row in the (first) column of that name. *)
Definition reads (columns : list string) (row : list A) (name : string) (x : A) : Prop :=
  exists i, nth_error columns i = Some name /\ nth_error row i = Some x /\
            forall j, j < i -> nth_error columns j <> Some name.

Section Estimates.
Variable E : Type.
Variable O : online A E.

(** Stepping an estimator along rows, each converted to inputs and a measurement: the
    estimator at the end, and the estimates of the state and the outputs. *)
Inductive estimates (columns : list string) : E -> list (list A) -> E -> list (rv A * rv A) -> Prop :=
| no_rows : forall e, estimates columns e [] e []
| next_row : forall e row rows u y e1 est e' l,
    row_to_inputs A is_finite columns row room = Ok (u, y) ->
    o_step O e u y = (e1, Ok est) ->
    estimates columns e1 rows e' l ->
    estimates columns e (row :: rows) e' (est :: l).
End Estimates.

(** Estimates of n state variables and m outputs. *)
Definition sized (n m : nat) (est : rv A * rv A) : Prop :=
  List.length (mean_of A (fst est)) = n /\ acols (cov_of A zero (fst est)) = n /\ anrows (cov_of A zero (fst est)) = n /\
  List.length (mean_of A (snd est)) = m /\ acols (cov_of A zero (snd est)) = m /\ anrows (cov_of A zero (snd est)) = m.

(** Variances: the diagonal of the covariance. *)
Definition variances (n : nat) (x : rv A) : list A := map (fun i => at_ zero (cov_of A zero x) i i) (seq 0 n).

(** The line of the table for one estimate. *)
Definition line (n m : nat) (est : rv A * rv A) : list A :=
  mean_of A (fst est) ++ variances n (fst est) ++ mean_of A (snd est) ++ variances m (snd est).

(** The steps to be stored: the estimates with the times and cycle numbers of their rows. *)
Inductive stamped (columns : list string) : list (list A) -> list (rv A * rv A) -> list (step A) -> Prop :=
| none_stamped : stamped columns [] [] []
| one_stamped : forall row rows est ests steps t c n,
    reads columns row "test_time" t -> reads columns row "cycle_number" c -> cycle_of c = Ok n ->
    stamped columns rows ests steps ->
    stamped columns (row :: rows) (est :: ests) (Step t n (fst est) (snd est) :: steps).
End Spec.

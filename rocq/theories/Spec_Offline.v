(** What offline estimation should compute. *)
From Coq Require Import String List Arith Bool Reals.
Import ListNotations.
From Verif Require Import Res Arr Container Health Simulator Spec_Simulator Interface Spec_Interface Offline.
Local Open Scope string_scope.
Local Open Scope list_scope.

Section Spec.
Variable is_finite : R -> bool.

(** A row of the dataset gives inputs u and holds the voltage v. *)
Definition observed (columns : list string) (row : list R) (uv : container R * R) : Prop :=
  (exists y, row_to_inputs R is_finite columns row 25%R = Ok (fst uv, y)) /\
  reads R columns row "voltage" (snd uv).

(** An output of one member holds a single value. *)
Definition single (y : container R) (v : R) : Prop :=
  exists p, to_numpy y = Ok p /\ anrows p = 1 /\ acols p = 1 /\ entry 0 0 p = Some v.

(** The voltages that follow from health a and state t, for a first input and the
    later ones; the health does not degrade. *)
Definition predicted (M : cmodel) (a : hv R) (t : container R) (first : container R)
  (later : list (container R)) (vs : list R) : Prop :=
  exists a1 y trajectory_,
    cm_voltage M first t a = (a1, Ok y) /\
    trajectory M no_degradation a1 t first later trajectory_ /\
    Forall2 single (y :: map out_of trajectory_) vs.

(** The mean of the squared differences of two sequences of the same length. *)
Definition mean_square_difference (xs ys : list R) : R :=
  (fold_right Rplus 0 (map (fun xy => (fst xy - snd xy) ^ 2) (combine xs ys)) / INR (List.length ys))%R.

(** Columns n .. of a batch of parameter vectors, and its columns before n. *)
Definition state_part (n : nat) (x : arr R) : arr R := mkArr (Nat.min n (acols x)) (map (firstn n) (arows x)).
Definition health_part (n : nat) (x : arr R) : arr R := mkArr (acols x - n) (map (skipn n) (arows x)).

(** The voltages [obs] of all rows of the dataset, of which there is at least one, and
    the voltages [vs] simulated along them by the model from the guesses with the
    parameters replaced by those of x. *)
Definition compared (l : loss) (x : arr R) (obs vs : list R) : Prop :=
  exists raw rows a first later,
    l_data l = Some raw /\ f_rows R raw = rows /\
    update_parameters (l_asoh l) (V2 (health_part (clen (l_state l)) x)) (updatable_names (l_asoh l)) = (a, Ok tt) /\
    Forall2 (observed (f_columns R raw)) rows (first :: later) /\
    predicted (l_model l) a (make_copy (l_state l) (V2 (state_part (clen (l_state l)) x))) (fst first) (map fst later) vs /\
    obs = map snd (first :: later).

(** An optimal vector among those on which a function is defined. *)
Definition minimises (f : list R -> res R) (x : list R) : Prop :=
  exists v, f x = Ok v /\ forall y w, f y = Ok w -> (v <= w)%R.
End Spec.

(** Vocabulary for fitting circuits to simulated data. *)
From Coq Require Import Reals String List.
Import ListNotations.
From Verif Require Import Res Arr Container Health NdR Interp Simulator ECM Spec_ECM Properties_Batdata.
Local Open Scope string_scope.
Local Open Scope list_scope.

(** Time, current and temperature of a row, as inputs of the equations. *)
Definition numbers (x : R * R * option R) : cinput :=
  let '(time, current, temperature) := x in {| ut := time; ui := current; uT := temperature |}.
(** The transient state of one cell with the values s, and its measurement. *)
Definition state_with (s : cstate) : container R :=
  [("soc", one R (xsoc s)); ("q0", match xq s with Some q => one R q | None => None end);
   ("i_rc", Some (mkArr (List.length (xi s)) [xi s])); ("hyst", one R (xh s))].
Definition terminal (v : R) : container R := [("terminal_voltage", one R v)].
(** The voltages of a circuit from the state s at the first input on. *)
Definition circuit_voltages (mode : behavior) (c : cell) (s : cstate) (first : cinput) (later : list cinput) : list R :=
  voltage c first s :: map (fun us => voltage c (fst us) (snd us)) (combine later (Spec_ECM.run mode c first s later)).
(** Rows with a finite temperature. *)
Definition with_temperature (is_finite : R -> bool) (x : R * R * option R) : Prop :=
  exists T, snd x = Some T /\ is_finite T = true.
(** Rows with finite temperatures, or without temperatures. *)
Definition tempered (is_finite : R -> bool) (l : list (R * R * option R)) : Prop :=
  Forall (with_temperature is_finite) l \/ Forall (fun x => snd x = None) l.
(** The row as it is read from exported data: a missing temperature is taken to be 25 degrees. *)
Definition known (x : R * R * option R) : R * R * option R :=
  let '(time, current, temperature) := x in (time, current, Some (match temperature with Some T => T | None => 25%R end)).

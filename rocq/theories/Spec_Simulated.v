(** Vocabulary for estimates from simulated data. *)
From Coq Require Import Reals String List.
Import ListNotations.
From Verif Require Import Res Arr Container Health Interp Simulator Interface Batdata Properties_Batdata ECM Spec_ECM Spec_Fit ECM_objects.
Local Open Scope list_scope.

(** [data] are exported, as the only cell, from a simulation of the equivalent circuit model
    with health [a] that starts in state [s] at the first input and is evolved along the later
    ones.  Exporting needs a stored history ([keep_history=True]). *)
Definition exported (nan : R) (spline : nat -> list R -> res (list R -> R -> R)) (X : settings) (mode : behavior) (a : hv R) (s : cstate)
    (first : R * R * option R) (later : list (R * R * option R)) (data : frame R) : Prop :=
  exists sim sim' outputs extra_columns described,
    init (ecm_cell spline X mode) a (state_with s) (given R first) true = Ok sim /\
    evolve (ecm_cell spline X mode) no_degradation sim (map (given R) later) = (sim', Ok outputs) /\
    to_batdata R nan sim' extra_columns = Ok [(data, described)].
(** Later inputs with the voltages of the circuit at them: the first input of a simulation is
    that of the initial state, and its voltage is not one to learn from.  Missing temperatures
    are taken to be 25 degrees, although they were not in the simulation. *)
Definition simulated (mode : behavior) (c : cell) (s : cstate) (first : R * R * option R) (later : list (R * R * option R)) : list (cinput * R) :=
  combine (map (fun x => numbers (known x)) later) (tl (circuit_voltages mode c s (numbers first) (map numbers later))).

(** Vocabulary for the equivalent circuit model inside the estimators: the values of one
    cell as the lists of numbers that the filters work on. *)
From Coq Require Import Reals String List Arith.
Import ListNotations.
From Verif Require Import Res Arr Container Spec_Container Health Spec_Health NdR Interp Simulator ECM Spec_ECM Wrappers Spec_Wrappers ECM_objects.
Local Open Scope string_scope.
Local Open Scope list_scope.
Local Open Scope nat_scope.

Definition optional {A} (o : option A) : list A := match o with None => [] | Some x => [x] end.

(** State of charge, charge of the series capacitor (if any), RC currents, hysteresis. *)
Definition values (s : cstate) : list R := xsoc s :: optional (xq s) ++ xi s ++ [xh s].
(** Time, current and temperature (if any). *)
Definition input_values (u : cinput) : list R := ut u :: ui u :: optional (uT u).

(** The fields of the transient state of a cell with or without series capacitor and
    with n RC elements, and those of the inputs with or without temperature. *)
Definition width_if (present : bool) : option nat := if present then Some 1 else None.
Definition state_layout (capacitor : bool) (n : nat) : list (string * option nat) :=
  [("soc", Some 1); ("q0", width_if capacitor); ("i_rc", Some n); ("hyst", Some 1)].
Definition input_layout (temp : bool) : list (string * option nat) :=
  [("time", Some 1); ("current", Some 1); ("temperature", width_if temp)].

Definition is_some {A} (o : option A) : bool := match o with None => false | Some _ => true end.
(** The state, and the input, of such a cell. *)
Definition state_fits (capacitor : bool) (n : nat) (s : cstate) : Prop :=
  is_some (xq s) = capacitor /\ List.length (xi s) = n.
Definition input_fits (temp : bool) (u : cinput) : Prop := is_some (uT u) = temp.

Definition one_row {A} (l : list A) : arr A := mkArr (List.length l) [l].

(** * The circuit a health variable describes, by the places of its parameters *)
Definition array_at (h : hv R) (r : ref) (k : string) (x : t2) : Prop := exists m, param h r k (V2 m) /\ x = t2_of m.
(** A quantity given at states of charge: its values, its grid if it has one, and the
    style of interpolation. *)
Definition grid_at (h : hv R) (r : ref) (g : option (list R)) : Prop :=
  exists n, deref h r = Some n /\ hv_interp n = true /\
    get_field n "soc_pinpoints" = Some (match g with None => FOther | Some l => FVal (V1 l) end).
Definition curve_at (X : settings) (h : hv R) (r : ref) (s : sih) : Prop :=
  array_at h r "base_values" (sv s) /\ grid_at h r (spin s) /\ sstyle s = style_of X r.
Definition resistance_at (X : settings) (h : hv R) (r : ref) (x : resistance) : Prop :=
  curve_at X h r (res_sih x) /\ array_at h r "temperature_dependence_factor" (res_fac x) /\ res_tref x = tref_of X r.

Record circuit_of (X : settings) (h : hv R) (e : ecm_asoh) : Prop := CircuitOf {
  co_capacity : array_at h [SAttr "q_t"] "base_values" (q_base (q_t e));
  co_efficiency : array_at h [] "ce" (ce e);
  co_ocv : curve_at X h [SAttr "ocv"; SAttr "ocv_ref"] (ocv_ref (oc e));
  co_reference : array_at h [SAttr "ocv"; SAttr "ocv_ref"] "reference_temperature" (ocv_tref (oc e));
  co_entropic : curve_at X h [SAttr "ocv"; SAttr "ocv_ent"] (ocv_ent (oc e));
  co_r0 : resistance_at X h [SAttr "r0"] (r0 e);
  co_c0 : match c0 e with
          | Some c => curve_at X h [SAttr "c0"] c
          | None => get_field h "c0" = Some FOther
          end;
  co_count : exists l, get_field h "rc_elements" = Some (FTuple l) /\ List.length l = List.length (rcs e);
  co_elements : forall i c, nth_error (rcs e) i = Some c ->
    resistance_at X h [SIdx "rc_elements" i; SAttr "r"] (rc_r c) /\ curve_at X h [SIdx "rc_elements" i; SAttr "c"] (rc_c c);
  co_hysteresis : curve_at X h [SAttr "h0"] (hys_sih (h0 e));
  co_gamma : array_at h [SAttr "h0"] "gamma" (hys_gamma (h0 e)) }.

Section Wrapped.
Variable spline : nat -> list R -> res (list R -> R -> R).
Variable X : settings.

(** A wrapper around the equivalent circuit model of one cell, whose health parameters
    do not degrade. *)
Record wraps_ecm (mode : behavior) (capacitor temp : bool) (w : wrapper R) (cell : ecm_asoh) : Prop := WrapsECM {
  we_ready : ready R w;
  we_model : Wrappers.cell_of R w = ecm_cell spline X mode;
  we_degradation : deg_model R w = no_degradation;
  we_transients : layout R (w_transients R w) = state_layout capacitor (List.length (rcs cell));
  we_inputs : layout R (w_inputs R w) = input_layout temp;
  we_health : circuit_of X (w_asoh R w) cell;
  we_one_cell : asoh_ok 1 cell }.

(** The controls of the filter stand for the input. *)
Definition control_of (temp : bool) (w : wrapper R) (c : arr R) (u : cinput) : Prop :=
  input_fits temp u /\ op_samples R (control_conversion R w) c = Ok (one_row (input_values u)).

(** The cell whose selected health parameters are the given numbers, all others being
    those of the wrapper. *)
Definition cell_with (w : wrapper R) (theta : list R) (c : cell) : Prop :=
  exists h e, snd (hv_make_copy (w_asoh R w) (V2 (one_row theta)) (asoh_inputs R w)) = Ok h /\
              circuit_of X h e /\ c = Spec_ECM.cell_of spline e 0.

(** The transient state of the wrapper is that of one cell. *)
Definition holds_state (w : wrapper R) (s : cstate) : Prop :=
  has_batch (w_transients R w) 1 /\ to_numpy (w_transients R w) = Ok (one_row (values s)).
End Wrapped.

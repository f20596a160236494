(** Which selections of health parameters of the equivalent circuit model can be estimated. *)
From Coq Require Import Reals String List Arith.
Import ListNotations.
From Verif Require Import Res Arr Names Health NdR Interp ECM Spec_ECM Wrappers Spec_Wrappers.
Local Open Scope string_scope.
Local Open Scope list_scope.
Local Open Scope nat_scope.

Definition selected (w : wrapper R) (name : string) : Prop := In name (asoh_inputs R w).
(** The name of a parameter of RC element i. *)
Definition rc_name (i : nat) (part : string) : string := ("rc_elements." ++ nat_str i ++ "." ++ part)%string.
(** The parameter has a value for each of several states of charge. *)
Definition several (s : sih) : Prop := c2 (sv s) <> 1.

(** With or without temperatures among the inputs. *)
Record estimable (temp : bool) (w : wrapper R) (e : ecm_asoh) : Prop := Estimable {
  (* what belongs to a quantity given at several states of charge is selected only with
     the values of that quantity *)
  es_ocv : several (ocv_ref (oc e)) ->
    selected w "ocv.ocv_ref.reference_temperature" -> selected w "ocv.ocv_ref.base_values";
  es_r0 : several (res_sih (r0 e)) ->
    selected w "r0.temperature_dependence_factor" -> selected w "r0.base_values";
  es_h0 : several (hys_sih (h0 e)) -> selected w "h0.gamma" -> selected w "h0.base_values";
  es_rc : forall i c, nth_error (rcs e) i = Some c -> several (res_sih (rc_r c)) ->
    selected w (rc_name i "r.temperature_dependence_factor") -> selected w (rc_name i "r.base_values");
  (* the resistances of all RC elements are selected, or none; likewise for what
     determines the time constants *)
  es_resistances : forall i j, i < List.length (rcs e) -> j < List.length (rcs e) ->
    selected w (rc_name i "r.base_values") -> selected w (rc_name j "r.base_values");
  es_times : forall i j, i < List.length (rcs e) -> j < List.length (rcs e) ->
    selected w (rc_name i "c.base_values") ->
    selected w (rc_name j "r.base_values") \/ selected w (rc_name j "c.base_values");
  (* with temperatures: no temperature factor, and the entropic part of the open circuit
     voltage only with its reference part *)
  es_factor : temp = true -> ~ selected w "r0.temperature_dependence_factor" /\
    forall i, i < List.length (rcs e) -> ~ selected w (rc_name i "r.temperature_dependence_factor");
  es_entropic : temp = true -> selected w "ocv.ocv_ent.base_values" -> selected w "ocv.ocv_ref.base_values" }.

(** The declarations of the classes of moirae/models, and the equivalent circuit of
    ECM.v as such objects. *)
From Coq Require Import String List Arith Bool.
Import ListNotations.
From Verif Require Import Res Arr NdArray Container Health Json.
Local Open Scope string_scope.

Section Classes.
  Context {A : Type}.
  (** The number n/d, for the defaults. *)
  Variable frac : nat -> nat -> A.

  Definition field_decl : Type := (string * (ftypeF (cls A) * option (value A)))%type.
  Definition no_check (_ : obj A) : bool := true.
  (** The default of a scalar, after its validator ([validate_default=True]). *)
  Definition one (n d : nat) : option (value A) := Some (VArr (mkNd [1; 1] [frac n d])).

  (** ecm/utils.py lines 14-19, [SOCInterpolatedHealth]; the subclasses declare
      [base_values] again, with or without a default. *)
  Definition styles : list string :=
    ["linear"; "nearest"; "nearest-up"; "zero"; "slinear"; "quadratic"; "cubic"; "previous"; "next"].
  Definition interpolated_fields (dflt : option (value A)) : list field_decl :=
    [("base_values", (TList, dflt));
     ("soc_pinpoints", (TGrid, Some VNone));
     ("interpolation_style", (TText styles, Some (VText "linear")))].

  (** ecm/components.py lines 11-14. *)
  Definition MaxTheoreticalCapacity : cls A :=
    Cls "MaxTheoreticalCapacity" Health [("base_values", (TScalar, None))] no_check.
  (** Lines 38-50. *)
  Definition Resistance : cls A :=
    Cls "Resistance" Interpolated
      (interpolated_fields None ++
       [("reference_temperature", (TFloat, Some (VNum (frac 25 1))));
        ("temperature_dependence_factor", (TScalar, one 0 1))])%list no_check.
  (** Lines 72-77. *)
  Definition Capacitance : cls A := Cls "Capacitance" Interpolated (interpolated_fields None) no_check.
  (** Lines 80-85. *)
  Definition RCComponent : cls A :=
    Cls "RCComponent" Health [("r", (TSub Resistance, None)); ("c", (TSub Capacitance, None))] no_check.
  (** Lines 106-111. *)
  Definition ReferenceOCV : cls A :=
    Cls "ReferenceOCV" Interpolated
      (interpolated_fields None ++ [("reference_temperature", (TScalar, one 25 1))])%list no_check.
  (** Lines 115-119, and an object made without arguments. *)
  Definition EntropicOCV : cls A := Cls "EntropicOCV" Interpolated (interpolated_fields (one 0 1)) no_check.
  Definition no_entropy : obj A :=
    Obj "EntropicOCV" Interpolated []
      [("base_values", VArr (mkNd [1; 1] [frac 0 1])); ("soc_pinpoints", VNone); ("interpolation_style", VText "linear")].
  (** Lines 122-127. *)
  Definition OpenCircuitVoltage : cls A :=
    Cls "OpenCircuitVoltage" Health
      [("ocv_ref", (TSub ReferenceOCV, None)); ("ocv_ent", (TSub EntropicOCV, Some (VSub no_entropy)))] no_check.
  (** Lines 153-159, and the default of [ECMASOH.h0]. *)
  Definition HysteresisParameters : cls A :=
    Cls "HysteresisParameters" Interpolated
      (interpolated_fields None ++ [("gamma", (TNonneg, one 0 1))])%list no_check.
  Definition no_hysteresis : obj A :=
    Obj "HysteresisParameters" Interpolated []
      [("base_values", VArr (mkNd [1; 1] [frac 0 1])); ("soc_pinpoints", VNone); ("interpolation_style", VText "linear");
       ("gamma", VArr (mkNd [1; 1] [frac 0 1]))].
  (** ecm/advancedSOH.py lines 20-29. *)
  Definition ECMASOH : cls A :=
    Cls "ECMASOH" Health
      [("q_t", (TSub MaxTheoreticalCapacity, None));
       ("ce", (TScalar, one 1 1));
       ("ocv", (TSub OpenCircuitVoltage, None));
       ("r0", (TSub Resistance, None));
       ("c0", (TOptSub Capacitance, Some VNone));
       ("rc_elements", (TTuple 0 RCComponent, Some (VTuple [])));
       ("h0", (TSub HysteresisParameters, Some (VSub no_hysteresis)))] no_check.

  (** ecm/transient.py lines 11-17. *)
  Definition ECMTransientVector : cls A :=
    Cls "ECMTransientVector" Plain
      [("soc", (TScalar, one 0 1)); ("q0", (TOptScalar, Some VNone));
       ("i_rc", (TList, Some (VArr (mkNd [1; 0] [])))); ("hyst", (TScalar, one 0 1))] no_check.
  (** ecm/ins_outs.py lines 8-12 and base.py lines 551-556. *)
  Definition ECMInput : cls A :=
    Cls "ECMInput" Plain
      [("time", (TScalar, one 0 1)); ("current", (TScalar, one 0 1)); ("temperature", (TOptScalar, Some VNone))] no_check.

  (** thevenin/components.py lines 12-25 and 39-54: the abstract classes have no field
      of their own. *)
  Definition SOCDependentVariable : cls A := Cls "SOCDependentVariable" Health [] no_check.
  Definition SOCTempDependentVariable : cls A := Cls "SOCTempDependentVariable" Health [] no_check.
  (** Lines 28-32, an object of class [SOCPolynomialVariable]. *)
  Definition soc_polynomial (upd : list string) (coeffs : nd A) : obj A :=
    Obj "SOCPolynomialVariable" Health upd [("coeffs", VArr coeffs)].
  (** Lines 57-70, an object of class [SOCTempPolynomialVariable]. *)
  Definition soc_temp_polynomial (upd : list string) (t_ref soc_coeffs t_coeffs : nd A) : obj A :=
    Obj "SOCTempPolynomialVariable" Health upd
      [("t_ref", VArr t_ref); ("soc_coeffs", VArr soc_coeffs); ("t_coeffs", VArr t_coeffs)].

  (** thevenin/state.py lines 43-48, [_check_rc_elements]. *)
  Definition check_rc_elements (o : obj A) : bool :=
    match assoc "r" (obj_fields o), assoc "c" (obj_fields o) with
    | Some (VTuple r), Some (VTuple c) => Nat.eqb (List.length r) (S (List.length c))
    | _, _ => false
    end.
  (** thevenin/state.py lines 13-37. *)
  Definition TheveninASOH : cls A :=
    Cls "TheveninASOH" Health
      [("capacity", (TScalar, one 1 1)); ("mass", (TScalar, one 1 10)); ("c_p", (TScalar, one 1150 1));
       ("h_thermal", (TScalar, one 12 1)); ("a_therm", (TScalar, one 1 1));
       ("ocv", (TSub SOCDependentVariable, Some (VSub (soc_polynomial [] (mkNd [1; 1] [frac 35 10])))));
       ("r", (TTuple 1 SOCTempDependentVariable,
              Some (VTuple [soc_temp_polynomial [] (mkNd [1; 1] [frac 298 1]) (mkNd [1; 1] [frac 1 10]) (mkNd [1; 1] [frac 0 1])])));
       ("c", (TTuple 0 SOCTempDependentVariable, Some (VTuple [])))] check_rc_elements.
  (** thevenin/state.py lines 51-59. *)
  Definition TheveninTransient : cls A :=
    Cls "TheveninTransient" Plain
      [("soc", (TScalar, one 0 1)); ("temp", (TScalar, one 298 1)); ("eta", (TList, Some (VArr (mkNd [1; 0] []))))] no_check.
End Classes.

(** * The circuits of ECM.v *)
From Coq Require Import Reals.
From Verif Require Import NdR Interp ECM.

Definition fracR (n d : nat) : R := (INR n / INR d)%R.
Definition nonnegR (x : R) : bool := if Rle_dec 0 x then true else false.

(** A 2-D array with its entries in row-major order. *)
Definition t2_nd (x : t2) : nd R :=
  mkNd [r2 x; c2 x] (flat_map (fun i => map (a2 x i) (seq 0 (c2 x))) (seq 0 (r2 x))).

(** The names of the interpolation styles of Interp.v: by their place among the names. *)
Definition style_name (s : option nat) : string :=
  match s with None => "linear" | Some k => nth k styles "linear" end.

Section Objects.
  (** The [updatable] set of the sub-object at each path. *)
  Variable u : string -> list string.

  Definition sih_fields (s : sih) : list (string * value R) :=
    [("base_values", VArr (t2_nd (sv s)));
     ("soc_pinpoints", match spin s with None => VNone | Some g => VArr (mkNd [List.length g] g) end);
     ("interpolation_style", VText (style_name (sstyle s)))].
  Definition capacity_obj (p : string) (q : capacity) : obj R :=
    Obj "MaxTheoreticalCapacity" Health (u p) [("base_values", VArr (t2_nd (q_base q)))].
  Definition resistance_obj (p : string) (r : resistance) : obj R :=
    Obj "Resistance" Interpolated (u p)
      (sih_fields (res_sih r) ++
       [("reference_temperature", match res_tref r with None => VNone | Some t => VNum t end);
        ("temperature_dependence_factor", VArr (t2_nd (res_fac r)))])%list.
  Definition capacitance_obj (p : string) (c : sih) : obj R := Obj "Capacitance" Interpolated (u p) (sih_fields c).
  Definition rc_obj (p : string) (c : rc) : obj R :=
    Obj "RCComponent" Health (u p)
      [("r", VSub (resistance_obj (p ++ ".r") (rc_r c))); ("c", VSub (capacitance_obj (p ++ ".c") (rc_c c)))].
  Definition ocv_obj (o : ocv) : obj R :=
    Obj "OpenCircuitVoltage" Health (u "ocv")
      [("ocv_ref", VSub (Obj "ReferenceOCV" Interpolated (u "ocv.ocv_ref")
          (sih_fields (ocv_ref o) ++ [("reference_temperature", VArr (t2_nd (ocv_tref o)))])%list));
       ("ocv_ent", VSub (Obj "EntropicOCV" Interpolated (u "ocv.ocv_ent") (sih_fields (ocv_ent o))))].
  Definition hysteresis_obj (h : hysteresis) : obj R :=
    Obj "HysteresisParameters" Interpolated (u "h0")
      (sih_fields (hys_sih h) ++ [("gamma", VArr (t2_nd (hys_gamma h)))])%list.
  Fixpoint rc_objs (i : nat) (l : list rc) : list (obj R) :=
    match l with
    | [] => []
    | c :: t => rc_obj ("rc_elements." ++ Names.nat_str i) c :: rc_objs (S i) t
    end.
  Definition asoh_obj (a : ecm_asoh) : obj R :=
    Obj "ECMASOH" Health (u "")
      [("q_t", VSub (capacity_obj "q_t" (q_t a)));
       ("ce", VArr (t2_nd (ce a)));
       ("ocv", VSub (ocv_obj (oc a)));
       ("r0", VSub (resistance_obj "r0" (r0 a)));
       ("c0", match c0 a with None => VNone | Some c => VSub (capacitance_obj "c0" c) end);
       ("rc_elements", VTuple (rc_objs 0 (rcs a)));
       ("h0", VSub (hysteresis_obj (h0 a)))].
End Objects.

Definition state_obj (s : ecm_state) : obj R :=
  Obj "ECMTransientVector" Plain []
    [("soc", VArr (t2_nd (soc s))); ("q0", match q0 s with None => VNone | Some q => VArr (t2_nd q) end);
     ("i_rc", VArr (t2_nd (i_rc s))); ("hyst", VArr (t2_nd (hyst s)))].

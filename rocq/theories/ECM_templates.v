(** Health variables of equivalent circuits made from a few numbers:
    [ECMASOH.provide_template] (moirae/models/ecm/advancedSOH.py lines 56-131) and
    [realistic_fake_ocv] (moirae/models/ecm/utils.py lines 91-107). *)
From Coq Require Import Reals String List Arith Bool.
Import ListNotations.
From Verif Require Import Res Arr Names NdArray Container Health NdR Interp ECM ECM_objects.
Local Open Scope string_scope.

(** ecm/utils.py lines 91-107.  Outside of (-1/18, 19/18), where NumPy gives nan or infinities,
    the number here is arbitrary. *)
Definition realistic_fake_ocv (s : R) : R :=
  (let m := 9 / 10 * s + 5 / 100 in ln (m / (1 - m)) * (1 / 10) + 35 / 10)%R.

(** models/base.py lines 47-57: the arrays made of the values given for a [ListParameter] and
    a [ScalarParameter]. *)
Definition param_as (dim : nat) (x : arg R) : res (arr R) :=
  let! y := enforce_dimensions (arg_nd x) dim in
  of_opt ValueError (nd_arr y).

(** ecm/utils.py lines 11-22: the fields of every SOC-dependent quantity, without pinpoints,
    and those that a class adds.  No attribute is updatable (models/base.py line 66). *)
Definition new_curve (x : arg R) (more : list (string * field R)) : res (hv R) :=
  let! v := param_as 1 x in
  Ok (HV true [] (("base_values", FVal (V2 v)) :: ("soc_pinpoints", FOther) :: ("interpolation_style", FOther) :: more)).
Definition new_scalar (x : R) : res (field R) := let! v := param_as 0 (ANum x) in Ok (FVal (V2 v)).

(** components.py lines 38-50 with the factor that all templates have. *)
Definition new_resistance (x : arg R) : res (hv R) :=
  let! g := new_scalar (25 / 10000)%R in
  new_curve x [("reference_temperature", FOther); ("temperature_dependence_factor", g)].
Definition new_rc (r c : arg R) : res (hv R) :=
  let! r := new_resistance r in
  let! c := new_curve c [] in
  Ok (HV false [] [("r", FSub r); ("c", FSub c)]).

(** The style 'cubic', by its place among the names in ecm/utils.py lines 17-18. *)
Definition cubic : nat := 6.

(** advancedSOH.py lines 56-131.  The attributes that are no arrays are returned as [settings]
    (interpolation style of the default open circuit voltage; the reference temperature 25 of
    all resistances, components.py line 46).  That the elements made from the default share
    their resistance and their capacitance is treated in TemplateHeap.v; here they are equal. *)
Definition asoh_template (has_C0 : bool) (num_RC : nat) (qt CE : R) (OCV : option (arg R)) (R0 : arg R)
  (C0 : option (arg R)) (H0 : arg R) (RC : option (list (arg R * arg R))) : res (hv R * settings) :=
  let! q := new_scalar qt in
  let qt_value := (3600 * qt)%R in
  let! r0 := new_resistance R0 in
  let! ent := new_curve (ANum (5 / 1000)%R) [] in
  let! tref := new_scalar 25%R in
  let! ref := new_curve (match OCV with
                         | None => AVec (map realistic_fake_ocv (linspace 0 1 20))
                         | Some x => x
                         end) [("reference_temperature", tref)] in
  let! gamma := new_scalar (9 / 10)%R in
  let! h0 := new_curve H0 [("gamma", gamma)] in
  let! c0 := if has_C0 then
               let! c := new_curve (match C0 with
                                    | None => AMat (mkArr 1 [[(qt_value / (1 / 100))%R]])
                                    | Some x => x
                                    end) [] in Ok (FSub c)
             else Ok FOther in
  let! rcs := if Nat.eqb num_RC 0 then Ok []
              else match RC with
                   | None => let! x := new_rc (ANum (1 / 100)%R) (ANum 2500%R) in Ok (repeat x num_RC)
                   | Some l => if negb (Nat.eqb (List.length l) num_RC) then Err ValueError
                               else mapM (fun rc => new_rc (fst rc) (snd rc)) l
                   end in
  let! ce := new_scalar CE in
  Ok (HV false [] [("q_t", FSub (HV false [] [("base_values", q)])); ("ce", ce);
                   ("ocv", FSub (HV false [] [("ocv_ref", FSub ref); ("ocv_ent", FSub ent)]));
                   ("r0", FSub r0); ("c0", c0); ("rc_elements", FTuple rcs); ("h0", FSub h0)],
      {| style_of := fun r => match r with
                              | [SAttr a; SAttr b] =>
                                if (String.eqb a "ocv" && String.eqb b "ocv_ref")%bool
                                then match OCV with None => Some cubic | Some _ => None end else None
                              | _ => None
                              end;
         tref_of := fun _ => Some 25%R |}).

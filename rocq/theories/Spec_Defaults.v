(** A short description of a circuit, and the circuit it stands for. *)
From Coq Require Import Reals String List.
Import ListNotations.
From Verif Require Import Json NdR Interp ECM.
Local Open Scope string_scope.
Local Open Scope R_scope.

(** The text gives the capacity, the open circuit voltages, the series resistances and the
    resistances and capacitances of the RC elements, all as numbers or flat lists of
    numbers, and nothing else. *)
Definition numbers (l : list R) : json R := JArr (map JNum l).
Definition curve_text (l : list R) : json R := JObj [("base_values", numbers l)].
Definition short_text (q : R) (v r : list R) (rc : list (list R * list R)) : json R :=
  JObj [("q_t", JObj [("base_values", JNum q)]);
        ("ocv", JObj [("ocv_ref", curve_text v)]);
        ("r0", curve_text r);
        ("rc_elements", JArr (map (fun x => JObj [("r", curve_text (fst x)); ("c", curve_text (snd x))]) rc))].

(** The rest is as documented: linear interpolation between equidistant states of charge,
    coulombic efficiency 1, reference temperatures of 25 °C, no dependence on the
    temperature, no series capacitor, no hysteresis. *)
Definition one_number (x : R) : t2 := {| r2 := 1; c2 := 1; a2 := fun _ _ => x |}.
Definition curve (l : list R) : sih := {| sv := {| r2 := 1; c2 := List.length l; a2 := fun _ j => nth j l 0 |}; spin := None; sstyle := None |}.
Definition plain_resistance (l : list R) : resistance := {| res_sih := curve l; res_tref := Some 25; res_fac := one_number 0 |}.
Definition documented (q : R) (v r : list R) (rc : list (list R * list R)) : ecm_asoh :=
  {| q_t := {| q_base := one_number q |}; ce := one_number 1;
     oc := {| ocv_ref := curve v; ocv_tref := one_number 25; ocv_ent := curve [0] |};
     r0 := plain_resistance r; c0 := None;
     rcs := map (fun x => {| rc_r := plain_resistance (fst x); rc_c := curve (snd x) |}) rc;
     h0 := {| hys_sih := curve [0]; hys_gamma := one_number 0 |} |}.

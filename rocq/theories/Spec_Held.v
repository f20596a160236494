(** Currents that are held, and other ways of writing the same simulation. *)
From Coq Require Import Reals List Arith Permutation.
Import ListNotations.
From Verif Require Import NdR Interp ECM Spec_ECM.
Open Scope R_scope.

(** Inputs with the current I and the temperature T. *)
Definition holding (I : R) (T : option R) (u : cinput) : Prop := ui u = I /\ uT u = T.
(** The cell after the current I has been held for the time D: the charge is proportional to
    the time, the RC currents have approached I, and the hysteresis its level. *)
Definition held (c : cell) (I : R) (T : option R) (D : R) (s : cstate) : cstate :=
  {| xsoc := xsoc s + efficiency c I * (I * D) / Qs c;
     xq := option_map (fun q => q + I * D) (xq s);
     xi := map (fun x => rc_relax (fst (snd x) (xsoc s) T * snd (snd x) (xsoc s)) D I (fst x)) (combine (xi s) (RC_ c));
     xh := approach (asymptote c (xsoc s) I) (efficiency c I * G_ c / Qs c * (Rabs I * D)) (xh s) |}.

(** A quantity that does not depend on the state of charge. *)
Definition flat (s : sih) : Prop := c2 (sv s) = 1%nat.
(** The RC elements and the hysteresis do not; open circuit voltage, series resistance and
    series capacitance may. *)
Definition flat_dynamics (a : ecm_asoh) : Prop :=
  Forall (fun e => flat (res_sih (rc_r e)) /\ flat (rc_c e)) (rcs a) /\ flat (hys_sih (h0 a)).

(** The clock shows D more. *)
Definition later_by (D : R) (u : ecm_input) : ecm_input :=
  {| time := T2 (r2 (time u)) (c2 (time u)) (fun i j => a2 (time u) i j + D); current := current u; temperature := temperature u |}.

(** Two cells that differ in the order of their RC elements: element i of the second one is
    element [order i] of the first one, and so are their currents in member b. *)
Definition elements_reordered (order : list nat) (a a' : ecm_asoh) : Prop :=
  q_t a' = q_t a /\ ce a' = ce a /\ oc a' = oc a /\ r0 a' = r0 a /\ c0 a' = c0 a /\ h0 a' = h0 a /\
  Permutation order (seq 0 (length (rcs a))) /\ map Some (rcs a') = map (nth_error (rcs a)) order.
Definition currents_reordered (order : list nat) (b : nat) (s s' : ecm_state) : Prop :=
  num (soc s') b = num (soc s) b /\ option_map (fun q => num q b) (q0 s') = option_map (fun q => num q b) (q0 s) /\
  num (hyst s') b = num (hyst s) b /\
  forall i j, nth_error order i = Some j -> row (i_rc s') b i = row (i_rc s) b j.

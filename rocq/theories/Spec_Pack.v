(** Cells in parallel and in series, written as one cell. *)
From Coq Require Import Reals List Arith.
Import ListNotations.
From Verif Require Import NdR Interp ECM Spec_ECM.
Open Scope R_scope.

(** All numbers of an array times k; all values of an interpolated parameter. *)
Definition times (k : R) (x : t2) : t2 := T2 (r2 x) (c2 x) (fun i j => k * a2 x i j).
Definition values_times (k : R) (s : sih) : sih := {| sv := times k (sv s); spin := spin s; sstyle := sstyle s |}.
Definition ohms_times (k : R) (r : resistance) : resistance :=
  {| res_sih := values_times k (res_sih r); res_tref := res_tref r; res_fac := res_fac r |}.

(** n strings in parallel of m cells in series each: n times the charge, m times the voltages,
    so m/n times the resistances and n/m times the capacitances.  (n and m may be any positive
    numbers: the same definition changes the units of current and voltage.) *)
Definition pack (n m : R) (a : ecm_asoh) : ecm_asoh :=
  {| q_t := {| q_base := times n (q_base (q_t a)) |}; ce := ce a;
     oc := {| ocv_ref := values_times m (ocv_ref (oc a)); ocv_tref := ocv_tref (oc a); ocv_ent := values_times m (ocv_ent (oc a)) |};
     r0 := ohms_times (m / n) (r0 a); c0 := option_map (values_times (n / m)) (c0 a);
     rcs := map (fun e => {| rc_r := ohms_times (m / n) (rc_r e); rc_c := values_times (n / m) (rc_c e) |}) (rcs a);
     h0 := {| hys_sih := values_times m (hys_sih (h0 a)); hys_gamma := hys_gamma (h0 a) |} |}.
Definition pack_state (n m : R) (s : ecm_state) : ecm_state :=
  {| soc := soc s; q0 := option_map (times n) (q0 s); i_rc := times n (i_rc s); hyst := times m (hyst s) |}.
Definition pack_input (n : R) (u : ecm_input) : ecm_input :=
  {| time := time u; current := times n (current u); temperature := temperature u |}.

(** Parameters that are single values or interpolated linearly. *)
Definition piecewise_linear (s : sih) : Prop := c2 (sv s) = 1%nat \/ sstyle s = None.
Definition all_piecewise_linear (a : ecm_asoh) : Prop :=
  piecewise_linear (ocv_ref (oc a)) /\ piecewise_linear (ocv_ent (oc a)) /\ piecewise_linear (res_sih (r0 a)) /\
  opt piecewise_linear (c0 a) /\ Forall (fun e => piecewise_linear (res_sih (rc_r e)) /\ piecewise_linear (rc_c e)) (rcs a) /\
  piecewise_linear (hys_sih (h0 a)).
(** A current that counts as zero neither in the cell nor in the pack, or is zero. *)
Definition noticed (n : R) (u : cinput) : Prop := ui u = 0 \/ (/ 100000000 < Rabs (ui u) /\ / 100000000 < Rabs (n * ui u)).

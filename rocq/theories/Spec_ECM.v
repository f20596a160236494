(** What one cell does: the equivalent circuit of a single cell with real-valued
    state, written without arrays, and how a member of a batch is read as such a
    cell.  Nothing here refers to the functions of ECM.v, only to its data types. *)
From Coq Require Import Reals List Arith.
Import ListNotations.
From Verif Require Import Res NdR Interp ECM.
Open Scope R_scope.

(** The parameters of one cell, as functions of SOC and temperature. *)
Record cell := {
  Qs : R;                                     (* capacity, ampere-seconds *)
  CE : R;                                     (* coulombic efficiency *)
  OCV_ : R -> option R -> R;
  R0_ : R -> option R -> R;
  C0_ : R -> R;
  RC_ : list ((R -> option R -> R) * (R -> R)); (* resistance and capacitance *)
  M_ : R -> R;                                (* maximum hysteresis *)
  G_ : R                                      (* hysteresis rate *)
}.
Record cstate := { xsoc : R; xq : option R; xi : list R; xh : R }.
Record cinput := { ut : R; ui : R; uT : option R }.

(** The RC current after a time [d] under the constant current [I]. *)
Definition rc_relax (tau d I i : R) : R := exp (- d / tau) * i + (1 - exp (- d / tau)) * I.

(** * The step in constant-current mode *)

(** The efficiency applies when not discharging. *)
Definition efficiency (c : cell) (I : R) : R := if Rlt_dec I 0 then 1 else CE c.

(** The level the hysteresis approaches: +M or -M; for currents within 1e-8 of
    zero it is scaled by the current. *)
Definition asymptote (c : cell) (v I : R) : R :=
  if Rle_dec (Rabs I) (/ 100000000) then M_ c v * I else M_ c v * (I / Rabs I).

(** Relaxation towards [m] at the rate [k] times the charge moved. *)
Definition approach (m x h : R) : R := exp (- x) * h + (1 - exp (- x)) * m.

Definition next_constant (c : cell) (p u : cinput) (s : cstate) : cstate :=
  let d := ut u - ut p in
  let eta := efficiency c (ui p) in
  {| xsoc := xsoc s + eta * (ui p * d) / Qs c;
     xq := option_map (fun q => q + ui p * d) (xq s);
     xi := map (fun x => rc_relax (fst (snd x) (xsoc s) (uT p) * snd (snd x) (xsoc s)) d (ui u) (fst x))
               (combine (xi s) (RC_ c));
     xh := approach (asymptote c (xsoc s) (ui p)) (eta * G_ c / Qs c * (Rabs (ui p) * d)) (xh s) |}.

(** * The step in linear mode (the current ramps from [ui p] to [ui u]) *)

(** What the code computes for an RC current; [slope] is the slope of the ramp. *)
Definition rc_ramp (tau d slope I i : R) : R :=
  i * exp (- d / tau) + (1 - exp (- d / tau)) * (I - slope * tau) + slope * d.

(** Relaxation over a piece of the ramp that moves the charge [q] and ends at the
    current [I1]: the exponent is negated only if [I1] is positive. *)
Definition ramp_piece (m k q I1 h : R) : R :=
  if Rlt_dec 0 I1 then approach m (k * q) h else approach m (- (k * q)) h.

Definition next_linear (c : cell) (p u : cinput) (s : cstate) : cstate :=
  let d := ut u - ut p in
  let eta := efficiency c (ui p) in
  let slope := (ui u - ui p) / d in
  let q := d * (ui p + ui u) / 2 in
  let m := asymptote c (xsoc s) (ui p) in
  let k := eta * G_ c / Qs c in
  let t0 := - ui p / slope in   (* when the current crosses zero *)
  {| xsoc := xsoc s + eta * q / Qs c;
     xq := option_map (fun y => y + q) (xq s);
     xi := map (fun x => rc_ramp (fst (snd x) (xsoc s) (uT p) * snd (snd x) (xsoc s)) d slope (ui u) (fst x))
               (combine (xi s) (RC_ c));
     xh := if Rle_dec 0 (ui p * ui u) then ramp_piece m k q (ui u) (xh s)
           else ramp_piece (- m) k ((d - t0) * ui u / 2) (ui u)
                  (ramp_piece m k (t0 * ui p / 2) 0 (xh s)) |}.

Definition next (mode : behavior) : cell -> cinput -> cinput -> cstate -> cstate :=
  match mode with Constant => next_constant | Linear => next_linear end.

(** * The terminal voltage *)
Fixpoint rc_sum (i : list R) (els : list ((R -> option R -> R) * (R -> R))) (v : R) (T : option R) : R :=
  match i, els with
  | x :: i', e :: els' => x * fst e v T + rc_sum i' els' v T
  | _, _ => 0
  end.
Definition voltage (c : cell) (u : cinput) (s : cstate) : R :=
  OCV_ c (xsoc s) (uT u) + ui u * R0_ c (xsoc s) (uT u)
  + match xq s with None => 0 | Some q => q / C0_ c (xsoc s) end
  + rc_sum (xi s) (RC_ c) (xsoc s) (uT u) + xh s.

(** * Reading a member of a batch *)

(** Row b of an array, or its only row. *)
Definition row (x : t2) (b j : nat) : R := a2 x (bix (r2 x) b) j.
Definition num (x : t2) (b : nat) : R := row x b 0.

Section Member.
  Variable spline : nat -> list R -> res (list R -> R -> R).

  (** The value at SOC [v] of an interpolated parameter: its only value, or the
      interpolation of its row through its grid. *)
  Definition sih_at (s : sih) (b : nat) (v : R) : R :=
    if Nat.eqb (c2 (sv s)) 1 then num (sv s) b
    else match interp_func spline s with
         | Ok f => f (vrow (sv s) (bix (r2 (sv s)) b)) v
         | Err _ => 0
         end.
  Definition res_at (r : resistance) (b : nat) (v : R) (T : option R) : R :=
    match T with
    | None => sih_at (res_sih r) b v
    | Some t =>
      let tref := match res_tref r with Some x => x | None => t end in
      sih_at (res_sih r) b v * exp (- num (res_fac r) b * (t - tref))
    end.
  Definition ocv_at (o : ocv) (b : nat) (v : R) (T : option R) : R :=
    match T with
    | None => sih_at (ocv_ref o) b v
    | Some t => sih_at (ocv_ref o) b v + (t - num (ocv_tref o) b) * sih_at (ocv_ent o) b v
    end.
  Definition cell_of (a : ecm_asoh) (b : nat) : cell :=
    {| Qs := 3600 * num (q_base (q_t a)) b; CE := num (ce a) b;
       OCV_ := ocv_at (oc a) b; R0_ := res_at (r0 a) b;
       C0_ := fun v => match c0 a with Some c => sih_at c b v | None => 0 end;
       RC_ := map (fun c => (res_at (rc_r c) b, sih_at (rc_c c) b)) (rcs a);
       M_ := sih_at (hys_sih (h0 a)) b; G_ := num (hys_gamma (h0 a)) b |}.
  Definition state_of (s : ecm_state) (b : nat) : cstate :=
    {| xsoc := num (soc s) b; xq := option_map (fun q => num q b) (q0 s);
       xi := map (row (i_rc s) b) (seq 0 (c2 (i_rc s))); xh := num (hyst s) b |}.
  Definition input_of (u : ecm_input) : cinput :=
    {| ut := a2 (time u) 0 0; ui := a2 (current u) 0 0;
       uT := option_map (fun T => a2 T 0 0)%nat (temperature u) |}.
End Member.

(** * Shapes *)

(** Every array has one row, or one row for each of the B members. *)
Definition rows_ok (B : nat) (x : t2) : Prop := r2 x = 1%nat \/ r2 x = B.
Definition column (B : nat) (x : t2) : Prop := rows_ok B x /\ c2 x = 1%nat.
Definition single (x : t2) : Prop := r2 x = 1%nat /\ c2 x = 1%nat.
Definition opt {A} (P : A -> Prop) (o : option A) : Prop := match o with None => True | Some x => P x end.

Definition res_ok (B : nat) (r : resistance) : Prop := rows_ok B (sv (res_sih r)) /\ column B (res_fac r).
Definition asoh_ok (B : nat) (a : ecm_asoh) : Prop :=
  column B (q_base (q_t a)) /\ column B (ce a) /\
  (rows_ok B (sv (ocv_ref (oc a))) /\ column B (ocv_tref (oc a)) /\ rows_ok B (sv (ocv_ent (oc a)))) /\
  res_ok B (r0 a) /\ opt (fun c => rows_ok B (sv c)) (c0 a) /\
  Forall (fun c => res_ok B (rc_r c) /\ rows_ok B (sv (rc_c c))) (rcs a) /\
  rows_ok B (sv (hys_sih (h0 a))) /\ column B (hys_gamma (h0 a)).
(** [n]: the number of RC elements. *)
Definition state_ok (B n : nat) (s : ecm_state) : Prop :=
  column B (soc s) /\ opt (column B) (q0 s) /\ (rows_ok B (i_rc s) /\ c2 (i_rc s) = n) /\ column B (hyst s).
Definition input_ok (u : ecm_input) : Prop :=
  single (time u) /\ single (current u) /\ opt single (temperature u).

(** * Member b alone: every array reduced to its row b *)
Definition mem2 (b : nat) (x : t2) : t2 := T2 1 (c2 x) (fun _ j => row x b j).
Definition mem_sih (b : nat) (s : sih) : sih := {| sv := mem2 b (sv s); spin := spin s; sstyle := sstyle s |}.
Definition mem_res (b : nat) (r : resistance) : resistance :=
  {| res_sih := mem_sih b (res_sih r); res_tref := res_tref r; res_fac := mem2 b (res_fac r) |}.
Definition mem_rc (b : nat) (c : rc) : rc := {| rc_r := mem_res b (rc_r c); rc_c := mem_sih b (rc_c c) |}.
Definition mem_asoh (b : nat) (a : ecm_asoh) : ecm_asoh :=
  {| q_t := {| q_base := mem2 b (q_base (q_t a)) |}; ce := mem2 b (ce a);
     oc := {| ocv_ref := mem_sih b (ocv_ref (oc a)); ocv_tref := mem2 b (ocv_tref (oc a));
              ocv_ent := mem_sih b (ocv_ent (oc a)) |};
     r0 := mem_res b (r0 a); c0 := option_map (mem_sih b) (c0 a); rcs := map (mem_rc b) (rcs a);
     h0 := {| hys_sih := mem_sih b (hys_sih (h0 a)); hys_gamma := mem2 b (hys_gamma (h0 a)) |} |}.
Definition mem_state (b : nat) (s : ecm_state) : ecm_state :=
  {| soc := mem2 b (soc s); q0 := option_map (mem2 b) (q0 s); i_rc := mem2 b (i_rc s); hyst := mem2 b (hyst s) |}.

(** * Histories of one cell *)

(** The states after each input, from state [s] and previous input [p]. *)
Fixpoint run (mode : behavior) (c : cell) (p : cinput) (s : cstate) (us : list cinput) : list cstate :=
  match us with
  | [] => []
  | u :: rest => let s' := next mode c p u s in s' :: run mode c u s' rest
  end.

(** The charge moved between two inputs. *)
Definition step_charge (mode : behavior) (p u : cinput) : R :=
  match mode with
  | Constant => ui p * (ut u - ut p)
  | Linear => (ut u - ut p) * (ui p + ui u) / 2
  end.
(** The sum of a quantity over the consecutive pairs of a sequence. *)
Fixpoint total (f : cinput -> cinput -> R) (p : cinput) (us : list cinput) : R :=
  match us with [] => 0 | u :: r => f p u + total f u r end.

(** Time does not run backwards along the inputs / every step takes time. *)
Fixpoint ordered (p : cinput) (us : list cinput) : Prop :=
  match us with [] => True | u :: r => ut p <= ut u /\ ordered u r end.
Fixpoint distinct_times (p : cinput) (us : list cinput) : Prop :=
  match us with [] => True | u :: r => ut u <> ut p /\ distinct_times u r end.

(** Every RC element has a positive time constant. *)
Definition positive_rc (c : cell) : Prop :=
  Forall (fun rc => forall v T, 0 < fst rc v T * snd rc v) (RC_ c).

Section Usable.
  Variable spline : nat -> list R -> res (list R -> R -> R).
  (** The parameter can be evaluated: one value, or interpolation through as many points as
      values, linear or in a style that accepts these points. *)
  Definition usable (s : sih) : Prop :=
    c2 (sv s) = 1%nat \/
    (c2 (sv s) <> 0%nat /\ length (grid s) = c2 (sv s) /\ forall k, sstyle s = Some k -> exists f, spline k (grid s) = Ok f).
  (** All parameters can be evaluated and the resistances have a reference temperature. *)
  Definition usable_asoh (a : ecm_asoh) : Prop :=
    usable (ocv_ref (oc a)) /\ usable (ocv_ent (oc a)) /\ usable (res_sih (r0 a)) /\ res_tref (r0 a) <> None /\
    opt usable (c0 a) /\
    Forall (fun c => usable (res_sih (rc_r c)) /\ usable (rc_c c) /\ res_tref (rc_r c) <> None) (rcs a) /\
    usable (hys_sih (h0 a)).
End Usable.

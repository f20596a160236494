(** The equivalent circuit model: components (moirae/models/ecm/components.py),
    the hysteresis solver (ecm/utils.py lines 109-152), the state-of-health
    (ecm/advancedSOH.py) and the two functions of [EquivalentCircuitModel]
    (ecm/__init__.py).  Every array operation keeps NumPy's shapes and
    broadcasting.

    Floating point numbers are modelled by real numbers.  A division by zero,
    which gives inf or nan in NumPy, is an unspecified real number here, with one
    exception: a zero step in linear mode, where the nan decides the control flow. *)
From Coq Require Import Reals List Arith Bool.
Import ListNotations.
From Verif Require Import Res Container NdR Interp Simulator.
Open Scope R_scope.

(** [enforce_dimensions(x, 0)] of a 2-D array (models/base.py lines 32-36), run
    by the constructors on scalar fields. *)
Definition as_scalar (x : t2) : res t2 :=
  if Nat.eqb (c2 x) 1 then Ok x
  else if Nat.eqb (r2 x) 1 then Ok (T2 (c2 x) 1 (fun i _ => a2 x 0%nat i))
  else Err ValidationError.

(** * Health parameters *)

(** components.py lines 11-35, [MaxTheoreticalCapacity]: stored in ampere-hours. *)
Record capacity := { q_base : t2 }.
(** Lines 16-21, [value]. *)
Definition q_value (q : capacity) : t2 := map2 (fun x => 3600 * x) (q_base q).
(** Lines 23-28, the setter of [value]. *)
Definition q_set_value (q : capacity) (s : t2) : capacity := {| q_base := map2 (fun x => x / 3600) s |}.
(** Lines 30-35, [amp_hour]. *)
Definition q_amp_hour (q : capacity) : t2 := q_base q.

(** components.py lines 38-50, [Resistance]. *)
Record resistance := { res_sih : sih; res_tref : option R; res_fac : t2 }.

(** components.py lines 80-85, [RCComponent]. *)
Record rc := { rc_r : resistance; rc_c : sih }.

(** components.py lines 106-127, [OpenCircuitVoltage] with its reference part
    (values and reference temperature) and entropic part. *)
Record ocv := { ocv_ref : sih; ocv_tref : t2; ocv_ent : sih }.

(** components.py lines 153-159, [HysteresisParameters]. *)
Record hysteresis := { hys_sih : sih; hys_gamma : t2 }.

(** advancedSOH.py lines 20-29, [ECMASOH]. *)
Record ecm_asoh := {
  q_t : capacity; ce : t2; oc : ocv; r0 : resistance; c0 : option sih;
  rcs : list rc; h0 : hysteresis
}.

(** ecm/ins_outs.py lines 8-12 and models/base.py lines 551-556, [ECMInput]. *)
Record ecm_input := { time : t2; current : t2; temperature : option t2 }.

(** ecm/transient.py lines 11-17, [ECMTransientVector]. *)
Record ecm_state := { soc : t2; q0 : option t2; i_rc : t2; hyst : t2 }.

(** [current_behavior]. *)
Inductive behavior := Constant | Linear.

Section ECM.
  Variable spline : nat -> list R -> res (list R -> R -> R).
  Notation get_value := (get_value spline).

  (** [self.batch_size] of the component the interpolated values belong to: the
      loop of models/base.py lines 74-87 over its array parameters. *)
  Definition sih_value (s : sih) (others : list t2) (x : t2) : res t3 :=
    let! b := batch_loop 1 (r2 (sv s) :: map r2 others) in
    get_value s b x.

  (** components.py lines 52-69, [Resistance.get_value].  The comparison with 0
      is a truth test; a missing reference temperature cannot be subtracted. *)
  Definition r_value (r : resistance) (x : t2) (temp : option t2) : res t3 :=
    let! ref := sih_value (res_sih r) [res_fac r] x in
    match temp with
    | None => Ok ref
    | Some T =>
      let! z := truth (res_fac r) (fun g => Reqb g 0) in
      if z then Ok ref
      else
        let! tref := of_opt TypeError (res_tref r) in
        let dT := map2 (fun t => t - tref) T in
        let! e := bin2 (fun g d => exp (- g * d)) (res_fac r) dT in
        bin3 Rmult ref (up3 e)
    end.

  (** components.py lines 72-77, [Capacitance]. *)
  Definition c_value (c : sih) (x : t2) : res t3 := sih_value c [] x.

  (** components.py lines 98-103, [RCComponent.time_constant]. *)
  Definition time_constant (c : rc) (x : t2) (temp : option t2) : res t3 :=
    let! r := r_value (rc_r c) x temp in
    let! cap := c_value (rc_c c) x in
    bin3 Rmult r cap.

  (** components.py lines 129-150, [OpenCircuitVoltage.get_value].  The in-place
      addition fails when the broadcast shape is not the shape on the left. *)
  Definition ocv_value (o : ocv) (x : t2) (temp : option t2) : res t3 :=
    let! v := sih_value (ocv_ref o) [ocv_tref o] x in
    match temp with
    | None => Ok v
    | Some T =>
      let! dT := bin2 Rminus T (ocv_tref o) in
      let! ent := sih_value (ocv_ent o) [] x in
      let! d := bin3 Rmult (up3 dT) ent in
      let! s := bin3 Rplus v d in
      if andb (Nat.eqb (d30 s) (d30 v)) (andb (Nat.eqb (d31 s) (d31 v)) (Nat.eqb (d32 s) (d32 v)))
      then Ok s else Err ValueError
    end.

  (** [h0.get_value]. *)
  Definition h_value (h : hysteresis) (x : t2) : res t3 := sih_value (hys_sih h) [hys_gamma h] x.

  (** * The update of the transient state *)

  (** ecm/utils.py lines 109-152, [hysteresis_solver_const_sign].  The first
      argument is 2-D in the first call and 3-D in the second; here it is 3-D,
      with a leading axis of length one in the first case, which changes nothing
      because it is added to a 3-D array. *)
  Definition hysteresis_solver (h : t3) (M : t3) (kappa dt i0 alpha : t2) : res t3 :=
    let! adt := bin2 Rmult alpha dt in
    let! i1 := bin2 Rplus i0 adt in
    let! prod := bin2 Rmult i0 i1 in
    let! same := truth prod (fun p => Rleb 0 p) in
    if negb same then Err AssertionError
    else
      let! e := bin2 Rmult kappa dt in
      let! half := bin2 Rmult (map2 (fun a => (1 / 2) * a) alpha) dt in
      let! mid := bin2 Rplus i0 half in
      let! e := bin2 Rmult e mid in
      (* [i0 > -(alpha * dt)], tested on the difference of the two sides *)
      let! d := bin2 Rminus i0 (map2 Ropp adt) in
      let! positive := truth d (fun x => Rltb 0 x) in
      let e := map2 exp (if positive then map2 Ropp e else e) in
      let! h1 := bin3 Rmult (up3 e) h in
      let! h2 := bin3 Rmult (up3 (map2 (fun x => 1 - x) e)) M in
      bin3 Rplus h1 h2.

  (** ecm/__init__.py lines 82-88: the time constants as a 2-D array, one row per
      batch member and one column per element. *)
  Definition arrange_tau (tau : t4) : t2 :=
    let k := d43 tau in
    if Nat.eqb (d41 tau) (d42 tau) then
      T2 (d41 tau * k) (d40 tau) (fun i h => a4 tau h (i / k) (i / k) (i mod k))%nat
    else
      T2 (d41 tau * d42 tau * k) (d40 tau)
         (fun i h => a4 tau h (i / (d42 tau * k)) ((i / k) mod d42 tau) (i mod k))%nat.

  (** Lines 141-146: a 3-D array of hysteresis values as a column. *)
  Definition arrange_hyst (x : t3) : t2 :=
    if Nat.eqb (d30 x) (d31 x) then
      let k := d32 x in T2 (d30 x * k) 1 (fun i _ => a3 x (i / k) (i / k) (i mod k))%nat
    else flat3 x.

  (** Lines 77-94: the currents of the RC elements. *)
  Definition update_rc (els : list rc) (x : t2) (temp : option t2) (irc dt cur slope : t2) : res t2 :=
    if Nat.eqb (c2 irc) 0 then Ok irc
    else
      let! ts := mapM (fun c => time_constant c x temp) els in
      let! tau4 := stack ts in
      let! tau4 := of_opt AssertionError tau4 in
      let tau := arrange_tau tau4 in
      let! f := bin2 (fun d t => exp (- d / t)) dt tau in
      let! i1 := bin2 Rmult irc f in
      let! st := bin2 Rmult slope tau in
      let! target := bin2 Rminus cur st in
      let! gain := bin2 Rmult (map2 (fun y => 1 - y) f) target in
      let! i2 := bin2 Rplus i1 gain in
      let! sdt := bin2 Rmult slope dt in
      bin2 Rplus i2 sdt.

  (** Lines 96-146: the hysteresis voltage.  With a zero step the slope of linear
      mode is inf or nan and the first comparison of the solver is false: the
      assertion fails. [np.allclose(x, 0)] is |x| <= 1e-8. *)
  Definition update_hyst (mode : behavior) (h : hysteresis) (qt eff x hy dt cur cur' slope : t2) : res t2 :=
    let! M := h_value h x in
    let! M := bin3 Rmult M (up3 cur) in
    let! M := if forallb (fun i => forallb (fun j => Rleb (Rabs (a2 cur i j)) (/ 100000000)) (seq 0 (c2 cur)))
                         (seq 0 (r2 cur))
              then Ok M else bin3 Rdiv M (up3 (map2 Rabs cur)) in
    let! eg := bin2 Rmult eff (hys_gamma h) in
    let! kappa := bin2 Rdiv eg qt in
    let! prod := bin2 Rmult cur cur' in
    let! same := truth prod (fun p => Rleb 0 p) in
    let zero_step := andb (Nat.eqb (r2 dt * c2 dt) 1) (Reqb (a2 dt 0 0)%nat 0) in
    let! hy' :=
      match mode with
      | Constant => hysteresis_solver (up3 hy) M kappa dt cur slope
      | Linear =>
        if zero_step then Err AssertionError
        else if same then hysteresis_solver (up3 hy) M kappa dt cur slope
        else
          let! phi := bin2 (fun c s => - c / s) cur slope in
          let! mid := hysteresis_solver (up3 hy) M kappa phi cur slope in
          let! rest := bin2 Rminus dt phi in
          hysteresis_solver mid (map3 Ropp M) kappa rest (sc 0) slope
      end in
    Ok (arrange_hyst hy').

  (** Lines 31-151, [update_transient_state]. *)
  Definition update_transient_state (mode : behavior) (prev new : ecm_input) (s : ecm_state) (a : ecm_asoh)
    : res ecm_state :=
    let! dt := bin2 Rminus (time new) (time prev) in
    let! slope := match mode with
                  | Constant => Ok (sc 0)
                  | Linear => let! d := bin2 Rminus (current new) (current prev) in bin2 Rdiv d dt
                  end in
    let! discharging := truth (current prev) (fun c => Rltb c 0) in
    let eff := if discharging then sc 1 else ce a in
    let qt := q_value (q_t a) in
    let! sdt := bin2 Rmult slope dt in
    let! mean := bin2 Rplus (current prev) (map2 (fun y => y / 2) sdt) in
    let! charge := bin2 Rmult dt mean in
    let! frac := bin2 Rdiv charge qt in
    let! gain := bin2 Rmult eff frac in
    let! soc' := bin2 Rplus (soc s) gain in
    let! q0' := match q0 s with
                | None => Ok None
                | Some q => let! q' := bin2 Rplus q charge in Ok (Some q')
                end in
    let! irc' := update_rc (rcs a) (soc s) (temperature prev) (i_rc s) dt (current new) slope in
    let! hy' := update_hyst mode (h0 a) qt eff (soc s) (hyst s) dt (current prev) (current new) slope in
    let! soc' := as_scalar soc' in
    let! q0' := match q0' with None => Ok None | Some q => let! q := as_scalar q in Ok (Some q) end in
    Ok {| soc := soc'; q0 := q0'; i_rc := irc'; hyst := hy' |}.

  (** * The terminal voltage *)

  (** Lines 181-195: the voltage over the RC elements, summed over the elements. *)
  Definition rc_voltage (els : list rc) (x : t2) (temp : option t2) (irc : t2) : res t3 :=
    let! rs := mapM (fun c => r_value (rc_r c) x temp) els in
    let! rs := stack rs in
    let! rs := of_opt ValueError rs in
    let swapped := T4 (d41 rs) (d40 rs) (d42 rs) (d43 rs) (fun i h j k => a4 rs h i j k) in
    let cur := T4 1 (c2 irc) (r2 irc) 1 (fun _ h j _ => a2 irc j h) in
    let! drops := bin4 Rmult cur swapped in
    Ok (T3 (d40 drops) (d42 drops) (d43 drops)
           (fun i j k => fold_right Rplus 0 (map (fun h => a4 drops i h j k) (seq 0 (d41 drops))))).

  (** Lines 201-208: the voltages as a column; anything else is refused by the
      output container. *)
  Definition arrange_voltage (v : t3) : res t2 :=
    if Nat.eqb (d30 v) (d31 v) then
      as_scalar (T2 (d30 v) (d32 v) (fun i k => a3 v i i k))
    else if orb (Nat.eqb (d30 v) 1) (Nat.eqb (d31 v) 1) then Ok (flat3 v)
    else Err ValidationError.

  (** Lines 153-208, [calculate_terminal_voltage]. *)
  Definition calculate_terminal_voltage (new : ecm_input) (s : ecm_state) (a : ecm_asoh) : res t2 :=
    let! v := ocv_value (oc a) (soc s) (temperature new) in
    let! r := r_value (r0 a) (soc s) (temperature new) in
    let! ir := bin3 Rmult (up3 (current new)) r in
    let! v := bin3 Rplus v ir in
    let! v := match q0 s with
              | None => Ok v
              | Some q =>
                let! c := of_opt AttributeError (c0 a) in
                let! c := c_value c (soc s) in
                let! dv := bin3 Rdiv (up3 q) c in
                bin3 Rplus v dv
              end in
    let! v := if Nat.eqb (c2 (i_rc s)) 0 then Ok v
              else let! d := rc_voltage (rcs a) (soc s) (temperature new) (i_rc s) in bin3 Rplus v d in
    let! v := bin3 Rplus v (up3 (hyst s)) in
    arrange_voltage v.

  (** * Theoretical energy *)

  (** [scipy.integrate.trapezoid] along the last axis. *)
  Fixpoint trapezoid (ys xs : list R) : R :=
    match ys, xs with
    | y0 :: (y1 :: _) as ys', x0 :: (x1 :: _) as xs' => (x1 - x0) * (y0 + y1) / 2 + trapezoid ys' xs'
    | _, _ => 0
    end.

  (** advancedSOH.py lines 31-54, [get_theoretical_energy].  The SOCs are a
      vector, which the parameters see as one row; the temperature is a number. *)
  Definition get_theoretical_energy (a : ecm_asoh) (limits : R * R) (temp : option R) : res t2 :=
    let xs := linspace (Rmin (fst limits) (snd limits)) (Rmax (fst limits) (snd limits)) 100 in
    let! v := ocv_value (oc a) (T2 1 100 (fun _ j => nth j xs 0)) (option_map sc temp) in
    let energy := T2 (d30 v) (d31 v)
                     (fun i j => trapezoid (map (fun k => a3 v i j k) (seq 0 (d32 v))) xs) in
    bin2 Rmult energy (q_amp_hour (q_t a)).

  (** * The grids stored by an evaluation (ecm/utils.py lines 36-37) *)

  Definition freeze_r (r : resistance) : resistance :=
    {| res_sih := after_value (res_sih r); res_tref := res_tref r; res_fac := res_fac r |}.
  Definition freeze_rc (c : rc) : rc := {| rc_r := freeze_r (rc_r c); rc_c := after_value (rc_c c) |}.
  Definition freeze_h (h : hysteresis) : hysteresis :=
    {| hys_sih := after_value (hys_sih h); hys_gamma := hys_gamma h |}.
  Definition freeze_ocv (o : ocv) (temp : option t2) : ocv :=
    {| ocv_ref := after_value (ocv_ref o); ocv_tref := ocv_tref o;
       ocv_ent := match temp with None => ocv_ent o | Some _ => after_value (ocv_ent o) end |}.

  (** The health after a successful update: the RC elements (if their currents
      are part of the state) and the hysteresis have been evaluated. *)
  Definition after_update (s : ecm_state) (a : ecm_asoh) : ecm_asoh :=
    {| q_t := q_t a; ce := ce a; oc := oc a; r0 := r0 a; c0 := c0 a;
       rcs := if Nat.eqb (c2 (i_rc s)) 0 then rcs a else map freeze_rc (rcs a);
       h0 := freeze_h (h0 a) |}.
  (** The health after a successful voltage calculation. *)
  Definition after_voltage (new : ecm_input) (s : ecm_state) (a : ecm_asoh) : ecm_asoh :=
    {| q_t := q_t a; ce := ce a; oc := freeze_ocv (oc a) (temperature new); r0 := freeze_r (r0 a);
       c0 := match q0 s with None => c0 a | Some _ => option_map after_value (c0 a) end;
       rcs := if Nat.eqb (c2 (i_rc s)) 0 then rcs a
              else map (fun c => {| rc_r := freeze_r (rc_r c); rc_c := rc_c c |}) (rcs a);
       h0 := h0 a |}.

  (** The ECM as the cell model of a simulator.  What an evaluation that raises
      leaves in the health is not modelled (nothing here). *)
  Definition ecm_model (mode : behavior) : cell_model ecm_input ecm_state ecm_asoh t2 :=
    {| cm_update := fun p u s a =>
         match update_transient_state mode p u s a with
         | Ok s' => (after_update s a, Ok s')
         | Err e => (a, Err e)
         end;
       cm_voltage := fun u s a =>
         match calculate_terminal_voltage u s a with
         | Ok v => (after_voltage u s a, Ok v)
         | Err e => (a, Err e)
         end |}.
End ECM.

(** The equivalent circuit model on the objects the estimators hand to it: containers of
    inputs and transient states, and trees of health variables (moirae/models/ecm).
    The values are those of ECM.v; here is where they are stored. *)
From Coq Require Import Reals String List Arith Bool.
Import ListNotations.
From Verif Require Import Res Arr Names NdArray Container Health NdR Interp Simulator ECM.
Local Open Scope string_scope.

(** A 2-D array as rows, and by its entries.  Row i of an array with a single row is that
    row for every i (indices out of range do not occur in ECM.v). *)
Definition t2_of (m : arr R) : t2 :=
  T2 (anrows m) (acols m) (fun i j => nth j (nth (bix (anrows m) i) (arows m) []) 0%R).
Definition array_of (x : t2) : arr R := mkArr (c2 x) (map (vrow x) (seq 0 (r2 x))).

(** The attributes of the components that are not arrays, by the place of the object in
    the tree: the interpolation style (ecm/utils.py lines 17-19; [None]: linear) and the
    reference temperature of a resistance (components.py lines 45-47). *)
Record settings := { style_of : ref -> option nat; tref_of : ref -> option R }.

Section Read.
Variable X : settings.

(** Attributes of an object.  They are looked up as the evaluation proceeds; here all of
    them are read before it.  An object of the right class has all of them. *)
Definition read_array (h : hv R) (k : string) : res t2 :=
  match get_field h k with Some (FVal (V2 m)) => Ok (t2_of m) | _ => Err AttributeError end.
Definition read_sub (h : hv R) (k : string) : res (hv R) :=
  match get_field h k with Some (FSub x) => Ok x | _ => Err AttributeError end.

(** ecm/utils.py lines 11-19, [SOCInterpolatedHealth], at the place [r]. *)
Definition read_sih (r : ref) (h : hv R) : res sih :=
  if hv_interp h then
    let! v := read_array h "base_values" in
    match get_field h "soc_pinpoints" with
    | Some FOther => Ok {| sv := v; spin := None; sstyle := style_of X r |}
    | Some (FVal (V1 g)) => Ok {| sv := v; spin := Some g; sstyle := style_of X r |}
    | _ => Err AttributeError
    end
  else Err AttributeError.

(** components.py lines 38-50, [Resistance]. *)
Definition read_resistance (r : ref) (h : hv R) : res resistance :=
  let! s := read_sih r h in
  let! g := read_array h "temperature_dependence_factor" in
  Ok {| res_sih := s; res_tref := tref_of X r; res_fac := g |}.

(** components.py lines 80-85, [RCComponent], as entry i of [rc_elements]. *)
Definition read_rc (i : nat) (h : hv R) : res rc :=
  let! r := read_sub h "r" in
  let! c := read_sub h "c" in
  let! r := read_resistance [SIdx "rc_elements" i; SAttr "r"] r in
  let! c := read_sih [SIdx "rc_elements" i; SAttr "c"] c in
  Ok {| rc_r := r; rc_c := c |}.
Fixpoint read_rcs (i : nat) (l : list (hv R)) : res (list rc) :=
  match l with
  | [] => Ok []
  | h :: t => let! c := read_rc i h in let! cs := read_rcs (S i) t in Ok (c :: cs)
  end.

(** components.py lines 106-127, [OpenCircuitVoltage]. *)
Definition read_ocv (h : hv R) : res ocv :=
  let! ref := read_sub h "ocv_ref" in
  let! ent := read_sub h "ocv_ent" in
  let! v := read_sih [SAttr "ocv"; SAttr "ocv_ref"] ref in
  let! t := read_array ref "reference_temperature" in
  let! e := read_sih [SAttr "ocv"; SAttr "ocv_ent"] ent in
  Ok {| ocv_ref := v; ocv_tref := t; ocv_ent := e |}.

(** components.py lines 153-159, [HysteresisParameters]. *)
Definition read_hysteresis (h : hv R) : res hysteresis :=
  let! s := read_sih [SAttr "h0"] h in
  let! g := read_array h "gamma" in
  Ok {| hys_sih := s; hys_gamma := g |}.

(** advancedSOH.py lines 20-29, [ECMASOH]. *)
Definition read_asoh (h : hv R) : res ecm_asoh :=
  let! q := read_sub h "q_t" in
  let! q := read_array q "base_values" in
  let! ce := read_array h "ce" in
  let! o := read_sub h "ocv" in
  let! o := read_ocv o in
  let! r := read_sub h "r0" in
  let! r := read_resistance [SAttr "r0"] r in
  let! c := match get_field h "c0" with
            | Some (FSub c) => let! s := read_sih [SAttr "c0"] c in Ok (Some s)
            | Some FOther => Ok None
            | _ => Err AttributeError
            end in
  let! l := match get_field h "rc_elements" with
            | Some (FTuple l) => read_rcs 0 l
            | _ => Err AttributeError
            end in
  let! y := read_sub h "h0" in
  let! y := read_hysteresis y in
  Ok {| q_t := {| q_base := q |}; ce := ce; oc := o; r0 := r; c0 := c; rcs := l; h0 := y |}.
End Read.

(** An optional field and a required field of a container. *)
Definition read_optional (c : container R) (k : string) : res (option t2) :=
  let! f := getattr c k in Ok (option_map t2_of f).
Definition read_required (c : container R) (k : string) : res t2 :=
  let! f := read_optional c k in of_opt TypeError f.

(** ecm/ins_outs.py lines 8-12 with models/base.py lines 551-556, [ECMInput]. *)
Definition read_input (c : container R) : res ecm_input :=
  let! t := read_required c "time" in
  let! i := read_required c "current" in
  let! T := read_optional c "temperature" in
  Ok {| time := t; current := i; temperature := T |}.

(** ecm/transient.py lines 11-17, [ECMTransientVector], in declaration order. *)
Definition read_state (c : container R) : res ecm_state :=
  let! s := read_required c "soc" in
  let! q := read_optional c "q0" in
  let! i := read_required c "i_rc" in
  let! h := read_required c "hyst" in
  Ok {| soc := s; q0 := q; i_rc := i; hyst := h |}.
Definition write_state (s : ecm_state) : container R :=
  [("soc", Some (array_of (soc s))); ("q0", option_map array_of (q0 s));
   ("i_rc", Some (array_of (i_rc s))); ("hyst", Some (array_of (hyst s)))].

(** models/base.py lines 559-565 and ecm/ins_outs.py lines 17-21, [ECMMeasurement]. *)
Definition write_output (v : t2) : container R := [("terminal_voltage", Some (array_of v))].

(** ecm/utils.py lines 36-37: an evaluation with interpolation stores the default grid
    if there is none. *)
Definition store_grid (h : hv R) : hv R :=
  match get_field h "base_values", get_field h "soc_pinpoints" with
  | Some (FVal (V2 m)), Some FOther =>
    if hv_interp h && negb (Nat.eqb (acols m) 1)
    then set_field "soc_pinpoints" (FVal (V1 (linspace 0 1 (acols m)))) h else h
  | _, _ => h
  end.
(** ecm/__init__.py lines 77-80 and 99: what is evaluated in an update. *)
Definition store_rc (h : hv R) : hv R := upd_child (SAttr "r") store_grid (upd_child (SAttr "c") store_grid h).
Definition store_rcs (f : hv R -> hv R) (h : hv R) : hv R :=
  upd_field "rc_elements" (fun x => match x with FTuple l => FTuple (map f l) | o => o end) h.
Definition store_update (s : ecm_state) (h : hv R) : hv R :=
  let h := if Nat.eqb (c2 (i_rc s)) 0 then h else store_rcs store_rc h in
  upd_child (SAttr "h0") store_grid h.
(** Lines 165-188: what is evaluated for the voltage. *)
Definition store_ocv (temp : option t2) (h : hv R) : hv R :=
  let h := upd_child (SAttr "ocv_ref") store_grid h in
  match temp with None => h | Some _ => upd_child (SAttr "ocv_ent") store_grid h end.
Definition store_voltage (u : ecm_input) (s : ecm_state) (h : hv R) : hv R :=
  let h := upd_child (SAttr "ocv") (store_ocv (temperature u)) h in
  let h := upd_child (SAttr "r0") store_grid h in
  let h := match q0 s with None => h | Some _ => upd_child (SAttr "c0") store_grid h end in
  if Nat.eqb (c2 (i_rc s)) 0 then h else store_rcs (upd_child (SAttr "r") store_grid) h.

Section Model.
Variable spline : nat -> list R -> res (list R -> R -> R).
Variable X : settings.

(** ecm/__init__.py lines 31-208, [EquivalentCircuitModel].  What an evaluation that
    raises leaves in the health variable is not modelled (nothing here). *)
Definition ecm_cell (mode : behavior) : cell_model (container R) (container R) (hv R) (container R) :=
  {| cm_update := fun p u t a =>
       match (let! p := read_input p in let! u := read_input u in
              let! s := read_state t in let! e := read_asoh X a in
              let! s' := update_transient_state spline mode p u s e in Ok (s, s')) with
       | Ok (s, s') => (store_update s a, Ok (write_state s'))
       | Err e => (a, Err e)
       end;
     cm_voltage := fun u t a =>
       match (let! u := read_input u in let! s := read_state t in let! e := read_asoh X a in
              let! v := calculate_terminal_voltage spline u s e in Ok (u, s, v)) with
       | Ok (u, s, v) => (store_voltage u s a, Ok (write_output v))
       | Err e => (a, Err e)
       end |}.
End Model.

(** ecm/transient.py lines 19-70, [provide_template] and [from_asoh]: the argument for the
    RC currents is absent, a number, or a
    vector (2-D arrays are not modelled). *)
Inductive currents := NoCurrents | OneCurrent (x : R) | Currents (l : list R).
Definition provide_template (has_C0 : bool) (num_RC : nat) (s q : R) (i : currents) (h : R) : res (container R) :=
  let! i := match i with
            | NoCurrents => Ok (repeat 0%R num_RC)
            | OneCurrent x => Ok (repeat (x * 1)%R num_RC)
            | Currents l => if Nat.eqb (List.length l) num_RC then Ok l else Err ValueError
            end in
  Ok [("soc", Some (mkArr 1 [[s]])); ("q0", if has_C0 then Some (mkArr 1 [[q]]) else None);
      ("i_rc", Some (mkArr (List.length i) [i])); ("hyst", Some (mkArr 1 [[h]]))].
Definition from_asoh (a : ecm_asoh) : res (container R) :=
  provide_template (match c0 a with None => false | Some _ => true end) (List.length (rcs a)) 0 0 NoCurrents 0.

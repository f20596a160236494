(** Model wrappers: moirae/estimators/online/utils/model.py, the link between cell
    models (which work on containers and health variables) and filters (which work
    on arrays).  Values can be of any type. *)
From Coq Require Import String List Arith Bool.
Import ListNotations.
From Verif Require Import Res Arr Names NdArray Container Health Simulator.

Section Wrappers.
Variable A : Type.

(** conversions.py lines 10-81: a [ConversionOperator], given by what it does to a
    batch of samples (one per row) and to a covariance (with a pivot). *)
Record operator : Type := Operator {
  op_samples : arr A -> res (arr A);
  op_covariance : arr A -> list A -> res (arr A);
  op_inverse_samples : arr A -> res (arr A);
  op_inverse_covariance : arr A -> list A -> res (arr A) }.

(** conversions.py lines 84-100. *)
Definition identity_operator : operator :=
  Operator (fun x => Ok x) (fun s _ => Ok s) (fun x => Ok x) (fun s _ => Ok s).

Notation cell := (cell_model (container A) (container A) (hv A) (container A)).
Notation degradation := (degradation_model (container A) (container A) (hv A) (container A)).

(** Lines 32-81, 84-100, 166-193 and 287-310: the attributes of a wrapper.
    [CellModelWrapper] uses neither [asoh_inputs] nor [deg_model]. *)
Record wrapper : Type := Wrapper {
  cell_of : cell;
  w_asoh : hv A;
  w_transients : container A;
  w_inputs : container A;
  asoh_inputs : list string;
  deg_model : degradation;
  hidden_conversion : operator;
  control_conversion : operator;
  output_conversion : operator;
  num_transients : nat;
  num_asoh : nat;
  num_outputs : nat }.

(** Lines 53-77, [BaseCellWrapper.__init__]: the batch checks and the width of the
    outputs.  Evaluating the cell model may write into the health variable, which
    is not copied, so it is returned. *)
Definition base_init (M : cell) (a : hv A) (t u : container A) : res (hv A * nat) :=
  let! ba := hv_batch_size a in
  if Nat.ltb 1 ba then Err ValueError else
  let! bt := batch_size t in
  if Nat.ltb 1 bt then Err ValueError else
  let (a', r) := cm_voltage M u t a in
  let! y := r in
  let! ym := to_numpy y in
  Ok (a', acols ym).

(** Lines 290-306, [JointCellModelWrapper.__init__], and lines 169-189,
    [DegradationModelWrapper.__init__]: the selected health parameters are the
    updatable ones unless names are given. *)
Definition joint_init (M : cell) (D : degradation) (a : hv A) (t u : container A)
  (names : option (list string)) (hidden control output : operator) : res wrapper :=
  let! (a, p) := base_init M a t u in
  let names := match names with None => updatable_names a | Some l => l end in
  let! tm := to_numpy t in
  let! am := get_parameters a names in
  Ok (Wrapper M a t u names D hidden control output (acols tm) (acols am) p).

(** Lines 308-310. *)
Definition num_hidden_dimensions (w : wrapper) : nat := num_transients w + num_asoh w.

(** Lines 312-333, [create_hidden_state]. *)
Definition create_hidden_state (w : wrapper) (a : hv A) (t : container A) : res (arr A) :=
  let! trans_raw := to_numpy t in
  let! asoh_raw := get_parameters a (asoh_inputs w) in
  let! joint_raw := hconcat [trans_raw; asoh_raw] in
  op_inverse_samples (hidden_conversion w) joint_raw.

(** Lines 335-354, [create_cell_model_inputs]. *)
Definition create_cell_model_inputs (w : wrapper) (x : arr A) : res (hv A * container A) :=
  let! joint_raw := op_samples (hidden_conversion w) x in
  let my_transients := make_copy (w_transients w) (V2 (slice_cols 0 (num_transients w) joint_raw)) in
  let! my_asoh := snd (hv_make_copy (w_asoh w)
                    (V2 (slice_cols (num_transients w) (acols joint_raw) joint_raw)) (asoh_inputs w)) in
  Ok (my_asoh, my_transients).

(** [self.inputs.make_copy(values=self.control_conversion.transform_samples(...))]. *)
Definition controls_to_inputs (w : wrapper) (u : arr A) : res (container A) :=
  let! v := op_samples (control_conversion w) u in
  Ok (make_copy (w_inputs w) (V2 v)).

(** [output[:, b:e] = src] for an array with [e - b] selected columns: [src] is
    broadcast along both axes, anything else is a ValueError. *)
Definition stretch {B} (n : nat) (l : list B) : res (list B) :=
  if Nat.eqb (List.length l) n then Ok l
  else match l with [x] => Ok (repeat x n) | _ => Err ValueError end.
Definition broadcast_to (r c : nat) (m : arr A) : res (arr A) :=
  let! rows := stretch r (arows m) in
  if Nat.eqb (acols m) c then Ok (mkArr c rows)
  else if Nat.eqb (acols m) 1 then let! rows := mapM (stretch c) rows in Ok (mkArr c rows)
  else Err ValueError.
Definition splice (b e : nat) (row src : list A) : list A := firstn b row ++ src ++ skipn e row.
Fixpoint map2 {X Y Z} (f : X -> Y -> Z) (l : list X) (k : list Y) : list Z :=
  match l, k with x :: l', y :: k' => f x y :: map2 f l' k' | _, _ => [] end.
Definition assign_cols (b e : nat) (output src : arr A) : res (arr A) :=
  let e := Nat.min e (acols output) in
  let! s := broadcast_to (anrows output) (e - b) src in
  Ok (mkArr (acols output) (map2 (splice b e) (arows output) (arows s))).

(** Lines 356-389, [JointCellModelWrapper.update_hidden_states].  The health
    variable that may be written into is the copy made from the hidden state. *)
Definition joint_update (w : wrapper) (x previous_controls new_controls : arr A) : res (arr A) :=
  let! previous_inputs := controls_to_inputs w previous_controls in
  let! new_inputs := controls_to_inputs w new_controls in
  let! (my_asoh, my_transients) := create_cell_model_inputs w x in
  let! output := op_samples (hidden_conversion w) x in
  let (a1, r1) := cm_update (cell_of w) previous_inputs new_inputs my_transients my_asoh in
  let! new_transients := r1 in
  let (a2, r2) := cm_voltage (cell_of w) previous_inputs my_transients a1 in
  let! new_measurement := r2 in
  let! deg_asoh := deg_model w a2 previous_inputs my_transients new_measurement in
  let! tm := to_numpy new_transients in
  let! output := assign_cols 0 (num_transients w) output tm in
  let! am := get_parameters deg_asoh (asoh_inputs w) in
  let! output := assign_cols (num_transients w) (acols output) output am in
  op_inverse_samples (hidden_conversion w) output.

(** Lines 391-404, [JointCellModelWrapper.predict_measurement]. *)
Definition joint_predict (w : wrapper) (x controls : arr A) : res (arr A) :=
  let! inputs := controls_to_inputs w controls in
  let! (my_asoh, my_transients) := create_cell_model_inputs w x in
  let (_, r) := cm_voltage (cell_of w) inputs my_transients my_asoh in
  let! outputs := r in
  let! ym := to_numpy outputs in
  op_inverse_samples (output_conversion w) ym.

(** Lines 102-123, [CellModelWrapper.update_hidden_states].  Here the health
    variable of the wrapper itself is evaluated, hence the returned wrapper. *)
Definition with_asoh (w : wrapper) (a : hv A) : wrapper :=
  Wrapper (cell_of w) a (w_transients w) (w_inputs w) (asoh_inputs w) (deg_model w)
    (hidden_conversion w) (control_conversion w) (output_conversion w)
    (num_transients w) (num_asoh w) (num_outputs w).
Definition with_transients (w : wrapper) (t : container A) : wrapper :=
  Wrapper (cell_of w) (w_asoh w) t (w_inputs w) (asoh_inputs w) (deg_model w)
    (hidden_conversion w) (control_conversion w) (output_conversion w)
    (num_transients w) (num_asoh w) (num_outputs w).

Definition hidden_to_transients (w : wrapper) (x : arr A) : res (container A) :=
  let! v := op_samples (hidden_conversion w) x in
  Ok (make_copy (w_transients w) (V2 v)).

Definition cell_update (w : wrapper) (x previous_controls new_controls : arr A) : wrapper * res (arr A) :=
  match (let! t := hidden_to_transients w x in
         let! p := controls_to_inputs w previous_controls in
         let! n := controls_to_inputs w new_controls in Ok (t, p, n)) with
  | Err e => (w, Err e)
  | Ok (t, p, n) =>
    let (a, r) := cm_update (cell_of w) p n t (w_asoh w) in
    (with_asoh w a,
     let! t' := r in let! tm := to_numpy t' in op_inverse_samples (hidden_conversion w) tm)
  end.

(** Lines 125-143, [CellModelWrapper.predict_measurement]. *)
Definition cell_predict (w : wrapper) (x controls : arr A) : wrapper * res (arr A) :=
  match (let! t := hidden_to_transients w x in
         let! u := controls_to_inputs w controls in Ok (t, u)) with
  | Err e => (w, Err e)
  | Ok (t, u) =>
    let (a, r) := cm_voltage (cell_of w) u t (w_asoh w) in
    (with_asoh w a,
     let! y := r in let! ym := to_numpy y in op_inverse_samples (output_conversion w) ym)
  end.

(** Lines 195-201, [_convert_hidden_to_asoh]. *)
Definition hidden_to_asoh (w : wrapper) (x : arr A) : res (hv A) :=
  let! v := op_samples (hidden_conversion w) x in
  snd (hv_make_copy (w_asoh w) (V2 v) (asoh_inputs w)).

(** Lines 203-235, [DegradationModelWrapper.update_hidden_states]: also the new
    value of [_previous_inputs], which is stored before anything else can fail. *)
Definition degradation_update (w : wrapper) (previous : container A) (x previous_controls new_controls : arr A)
  : container A * res (arr A) :=
  match controls_to_inputs w previous_controls with
  | Err e => (previous, Err e)
  | Ok p =>
    (p, let! a := hidden_to_asoh w x in
        let! n := controls_to_inputs w new_controls in
        let (a1, r) := cm_voltage (cell_of w) n (w_transients w) a in
        let! y := r in
        let! d := deg_model w a1 n (w_transients w) y in
        let! am := get_parameters d (asoh_inputs w) in
        op_inverse_samples (hidden_conversion w) am)
  end.

(** Lines 237-263, [DegradationModelWrapper.predict_measurement]. *)
Definition degradation_predict (w : wrapper) (previous : container A) (x controls : arr A) : res (arr A) :=
  let! inputs := controls_to_inputs w controls in
  let! a := hidden_to_asoh w x in
  let (a1, r1) := cm_update (cell_of w) previous inputs (w_transients w) a in
  let! t := r1 in
  let (_, r2) := cm_voltage (cell_of w) inputs t a1 in
  let! y := r2 in
  let! ym := to_numpy y in
  op_inverse_samples (output_conversion w) ym.
End Wrappers.

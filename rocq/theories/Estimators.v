(** Online estimators: moirae/estimators/online/__init__.py, joint.py and dual.py.
    Values can be of any type with a zero and a one.  Vectors handed to conversion
    operators (1D arrays) are modelled as the only row of an array, which is what
    all operators of the library do with them. *)
From Coq Require Import String List Arith Bool.
Import ListNotations.
From Verif Require Import Res Arr Names NdArray Container Health Simulator Distributions Wrappers.
Local Open Scope string_scope.
Local Open Scope list_scope.

Section Estimators.
Variable A : Type.
Variable zero : A.

(** * Random vectors (distributions.py) *)

(** [DeltaDistribution] or [MultivariateGaussian]. *)
Inductive rv : Type := RGauss (d : dist A) | RDelta (mu : list A).

(** distributions.py lines 89-94 and 160-164. *)
Definition mean_of (x : rv) : list A := match x with RGauss d => d_mean d | RDelta mu => mu end.
Definition cov_of (x : rv) : arr A :=
  match x with RGauss d => d_cov d | RDelta mu => delta_covariance A zero mu end.

Definition nd_of_list (l : list A) : nd A := mkNd [List.length l] l.
Definition nd_of_arr (m : arr A) : nd A := mkNd [anrows m; acols m] (List.concat (arows m)).

(** One vector through a function on batches. *)
Definition on_vector (f : arr A -> res (arr A)) (v : list A) : res (list A) :=
  let! y := f (mkArr (List.length v) [v]) in
  match arows y with [r] => Ok r | _ => Err ValidationError end.

(** distributions.py lines 102-107 and 175-185, [convert]. *)
Definition convert (op : operator A) (inverse : bool) (x : rv) : res rv :=
  let f := if inverse then op_inverse_samples A op else op_samples A op in
  let g := if inverse then op_inverse_covariance A op else op_covariance A op in
  match x with
  | RDelta mu =>
    let! m := on_vector f mu in
    let! m := new_delta A (nd_of_list m) in Ok (RDelta m)
  | RGauss d =>
    let! m := on_vector f (d_mean d) in
    let! s := g (d_cov d) (d_mean d) in
    let! d := new_gaussian A (nd_of_list m) (nd_of_arr s) in Ok (RGauss d)
  end.

(** What [combine_with] can meet when it iterates over its argument: distributions,
    or - if the argument is itself a distribution, which pydantic lets one iterate
    over - pairs of a field name and its value, which have no [get_mean]. *)
Inductive item : Type := IDist (x : rv) | IPair (field : string).
Definition iterate (x : rv) : list item :=
  match x with
  | RGauss _ => [IPair "mean"; IPair "covariance"]
  | RDelta _ => [IPair "mean"]
  end.
Definition item_mean (i : item) : res (list A) :=
  match i with IDist x => Ok (mean_of x) | IPair _ => Err AttributeError end.
Definition item_cov (i : item) : res (arr A) :=
  match i with IDist x => Ok (cov_of x) | IPair _ => Err AttributeError end.

(** distributions.py lines 96-100 and 166-173, [combine_with]. *)
Definition combine_items (x : rv) (l : list item) : res rv :=
  match x with
  | RDelta mu =>
    let! ms := mapM item_mean l in
    let! m := combine_deltas A mu ms in Ok (RDelta m)
  | RGauss d =>
    let! ms := mapM item_mean l in
    let! cs := mapM item_cov l in
    let means := List.concat (d_mean d :: ms) in
    let! d := new_gaussian A (nd_of_list means) (block_diag A zero (d_cov d :: cs)) in Ok (RGauss d)
  end.

(** utils/model.py lines 12-29, [convert_vals_model_to_filter]. *)
Definition convert_vals_model_to_filter (c : container A) (uncertainty : option (arr A)) : res rv :=
  let! m := to_numpy c in
  let flat := List.concat (arows m) in
  match uncertainty with
  | None => let! mu := new_delta A (nd_of_list flat) in Ok (RDelta mu)
  | Some s => let! d := new_gaussian A (nd_of_list flat) (nd_of_arr s) in Ok (RGauss d)
  end.

(** * Filters (filters/base.py lines 96-130)

    Any filter: what it holds besides its model, its hidden state, and its [step].
    A step may write into the health variable of the wrapper (evaluating the cell
    model can), so that is returned as well.  [DegradationModelWrapper] also keeps
    the inputs of the last update, which is counted as part of the filter. *)
Record filter (F : Type) : Type := Filter {
  f_hidden : F -> rv;
  f_step : wrapper A -> F -> rv -> rv -> hv A * F * res (rv * rv) }.
Arguments f_hidden {F} _ _.
Arguments f_step {F} _ _ _ _ _.

(** * OnlineEstimator (online/__init__.py)

    Lines 27-55, for the attributes used below: copies of the health variable and
    of the transient state, and the names of the estimated parameters.  The
    assertions on the batch sizes are included, the cached output names are not. *)
Record base : Type := Base {
  b_asoh : hv A; b_transients : container A; b_inputs : container A; b_names : list string; b_num_outputs : nat }.
Definition base_estimator (M : cell_model (container A) (container A) (hv A) (container A))
  (a : hv A) (t u : container A) (names : list string) : res base :=
  let (a', r) := cm_voltage M u t a in
  let! y := r in
  let! bt := batch_size t in
  if negb (Nat.eqb bt 1) then Err AssertionError else
  let! ba := hv_batch_size a' in
  if negb (Nat.eqb ba 1) then Err AssertionError else
  Ok (Base a' t u names (clen y)).

(** Lines 67-72, [state_names], and lines 57-60, [num_state_dimensions]. *)
Definition state_names (b : base) : res (list string) :=
  let! ts := all_names (b_transients b) in
  let! ns := hv_expand_names (b_asoh b) (b_names b) in
  Ok (ts ++ ns).
Definition num_state_dimensions (b : base) : res nat :=
  let! ns := state_names b in Ok (List.length ns).

(** * JointEstimator (joint.py) *)
Section Joint.
Variable F : Type.
Variable K : filter F.

Record joint : Type := Joint { j_base : base; j_wrapper : wrapper A; j_filter : F }.

(** Lines 28-41 (the class of the wrapper is fixed by the type). *)
Definition joint_estimator (w : wrapper A) (f : F) : res joint :=
  let! b := base_estimator (cell_of A w) (w_asoh A w) (w_transients A w) (w_inputs A w) (asoh_inputs A w) in
  Ok (Joint b w f).

(** Lines 43-45, [state]. *)
Definition joint_state (e : joint) : rv := f_hidden K (j_filter e).

(** Lines 47-51, [get_estimated_state]. *)
Definition joint_estimated (e : joint) : res (container A * hv A) :=
  let m := mean_of (joint_state e) in
  let! (a, t) := create_cell_model_inputs A (j_wrapper e) (mkArr (List.length m) [m]) in
  Ok (t, a).

(** Lines 53-70, [step]. *)
Definition joint_step (e : joint) (inputs measurements : container A) : joint * res (rv * rv) :=
  let w := j_wrapper e in
  match (let! u := convert_vals_model_to_filter inputs None in
         let! y := convert_vals_model_to_filter measurements None in
         let! u := convert (control_conversion A w) true u in
         let! y := convert (output_conversion A w) true y in Ok (u, y)) with
  | Err x => (e, Err x)
  | Ok (u, y) =>
    let '(a, f, r) := f_step K w (j_filter e) u y in
    (Joint (j_base e) (with_asoh A w a) f,
     let! (h, p) := r in
     let! h := convert (hidden_conversion A w) false h in
     let! p := convert (output_conversion A w) false p in
     Ok (h, p))
  end.

(** Lines 192-225, [initialize_ukf_from_wrapper] up to the construction of the
    filter: its initial hidden state and controls, process noise and sensor noise
    ([None]: the default of the filter).  The initial covariance is given for the
    joint state or for both parts (giving only one part, or neither, is not
    modelled: scipy then builds an array of Python objects). *)
Inductive initial_covariance : Type := CovJoint (s : arr A) | CovParts (transient asoh : arr A).
Definition as_arr (x : nd A) : arr A := as_matrix A x.
Definition noise_to_filter (f : arr A -> list A -> res (arr A)) (noise : option (arr A)) : res (option (arr A)) :=
  match noise with
  | None => Ok None
  | Some s => let! s := f s (repeat zero (anrows s)) in Ok (Some s)
  end.
Definition joint_ukf_setup (w : wrapper A) (cov : initial_covariance) (inputs_uncertainty : option (arr A))
  (joint_noise transient_noise asoh_noise sensor_noise : option (arr A))
  : res (rv * rv * option (arr A) * option (arr A)) :=
  let s := match cov with CovJoint s => nd_of_arr s | CovParts t a => block_diag A zero [t; a] end in
  let joint_noise := match joint_noise with
                     | Some s => Some s
                     | None => match transient_noise, asoh_noise with
                               | Some t, Some a => Some (as_arr (block_diag A zero [t; a]))
                               | _, _ => None
                               end
                     end in
  let! controls := convert_vals_model_to_filter (w_inputs A w) inputs_uncertainty in
  let! tm := to_numpy (w_transients A w) in
  let! am := get_parameters (w_asoh A w) (asoh_inputs A w) in
  let joint_mean := List.concat (arows tm) ++ List.concat (arows am) in
  let! d := new_gaussian A (nd_of_list joint_mean) s in
  let! hidden := convert (hidden_conversion A w) true (RGauss d) in
  let! controls := convert (control_conversion A w) true controls in
  let! process := noise_to_filter (op_inverse_covariance A (hidden_conversion A w)) joint_noise in
  let! sensor := noise_to_filter (op_inverse_covariance A (output_conversion A w)) sensor_noise in
  Ok (hidden, controls, process, sensor).
End Joint.

(** * DualEstimator (dual.py) *)
Section Dual.
Variables FT FA : Type.
Variable KT : filter FT.
Variable KA : filter FA.

Record dual : Type := Dual {
  d_base : base; d_cell : wrapper A; d_asoh : wrapper A; d_tfilter : FT; d_afilter : FA }.

(** Lines 46-67. *)
Definition dual_estimator (wc wd : wrapper A) (ft : FT) (fa : FA) : res dual :=
  let! b := base_estimator (cell_of A wc) (w_asoh A wd) (w_transients A wc) (w_inputs A wc) (asoh_inputs A wd) in
  Ok (Dual b wc wd ft fa).

(** Lines 69-87, [_get_converted_states]. *)
Definition converted_states (e : dual) : res (rv * rv) :=
  let! t := convert (hidden_conversion A (d_cell e)) false (f_hidden KT (d_tfilter e)) in
  let! a := convert (hidden_conversion A (d_asoh e)) false (f_hidden KA (d_afilter e)) in
  Ok (t, a).

(** Lines 89-93, [state]: the second distribution itself, not a tuple holding it,
    is given to [combine_with]. *)
Definition dual_state (e : dual) : res rv :=
  let! (t, a) := converted_states e in combine_items t (iterate a).

(** Lines 95-102, [get_estimated_state]: no names are given to the health variable,
    so its updatable parameters are meant. *)
Definition dual_estimated (e : dual) : res (container A * hv A) :=
  let! (t, a) := converted_states e in
  let transients := make_copy (b_transients (d_base e)) (V1 (mean_of t)) in
  let! asoh := snd (hv_make_copy (b_asoh (d_base e)) (V1 (mean_of a)) (updatable_names (b_asoh (d_base e)))) in
  Ok (transients, asoh).

(** Lines 104-137, [step]. *)
Definition dual_step (e : dual) (inputs measurements : container A) : dual * res (rv * rv) :=
  match (let! u := convert_vals_model_to_filter inputs None in
         let! y := convert_vals_model_to_filter measurements None in
         let! ta := dual_estimated e in
         Ok (u, y, ta)) with
  | Err x => (e, Err x)
  | Ok (u, y, (t, a)) =>
    let wc := with_asoh A (d_cell e) a in
    let wd := with_transients A (d_asoh e) t in
    let e1 := Dual (d_base e) wc wd (d_tfilter e) (d_afilter e) in
    match (let! ut := convert (control_conversion A wc) true u in
           let! yt := convert (output_conversion A wc) true y in Ok (ut, yt)) with
    | Err x => (e1, Err x)
    | Ok (ut, yt) =>
      let '(a', ft, rt) := f_step KT wc (d_tfilter e) ut yt in
      let wc := with_asoh A wc a' in
      let e2 := Dual (d_base e) wc wd ft (d_afilter e) in
      match (let! ht := rt in
             let! ua := convert (control_conversion A wd) true u in
             let! ya := convert (output_conversion A wd) true y in Ok (ht, ua, ya)) with
      | Err x => (e2, Err x)
      | Ok (ht, pt, ua, ya) =>
        let '(a', fa, ra) := f_step KA wd (d_afilter e) ua ya in
        let wd := with_asoh A wd a' in
        (Dual (d_base e) wc wd ft fa,
         let! (ha, pa) := ra in
         let! ht := convert (hidden_conversion A wc) false ht in
         let! ha := convert (hidden_conversion A wd) false ha in
         let! pt := convert (output_conversion A wc) false pt in
         let! pa := convert (output_conversion A wd) false pa in
         let! h := combine_items ht [IDist ha] in
         Ok (h, pt))
      end
    end
  end.

(** Lines 271-294, [initialize_ukf_from_wrappers]: what one of the two filters is given.
    The controls are the inputs of the first wrapper (lines 255-256). *)
Definition dual_ukf_setup (w : wrapper A) (controls hidden : rv) (noise sensor_noise : option (arr A))
  : res (rv * rv * option (arr A) * option (arr A)) :=
  let! hidden := convert (hidden_conversion A w) true hidden in
  let! control := convert (control_conversion A w) true controls in
  let! process := noise_to_filter (op_inverse_covariance A (hidden_conversion A w)) noise in
  let! sensor := noise_to_filter (op_inverse_covariance A (output_conversion A w)) sensor_noise in
  Ok (hidden, control, process, sensor).
(** Lines 258-265: the hidden states before conversion. *)
Definition dual_hidden_transient (w : wrapper A) (cov : arr A) : res rv :=
  convert_vals_model_to_filter (w_transients A w) (Some cov).
Definition dual_hidden_asoh (w : wrapper A) (cov : arr A) : res rv :=
  let! am := get_parameters (w_asoh A w) (asoh_inputs A w) in
  let! d := new_gaussian A (nd_of_list (List.concat (arows am))) (nd_of_arr cov) in Ok (RGauss d).
End Dual.
End Estimators.

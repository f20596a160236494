(** Storing estimates in HDF5 files: moirae/interface/hdf5.py.

    Values can be of any type with a zero and with one or more values for which
    [np.isnan] holds.  Of the HDF5 library, groups, attributes and datasets with
    their current and maximal number of rows and their chunk size are modelled;
    compression, element types and the bytes of the file are not.  Handles to files
    are modelled by whether the writer holds one. *)
From Coq Require Import String List Arith Bool.
Import ListNotations.
From Verif Require Import Res Arr NdArray Container Health Distributions Estimators.
Local Open Scope string_scope.
Local Open Scope list_scope.

Section HDF5.
Variable A : Type.
Variable zero nan : A.
Variable is_nan : A -> bool.

Definition rvar : Type := rv A.

(** Line 15. *)
Inductive out_type : Type := OFull | OMeanCov | OMeanVar | OMean | ONone.

(** * Distributions as arrays *)

(** [np.diag] of a matrix and of a vector. *)
Definition diagonal (m : arr A) : list A :=
  map (fun i => nth i (nth i (arows m) []) zero) (seq 0 (min (anrows m) (acols m))).
Definition diagonal_matrix (v : list A) : arr A :=
  let n := List.length v in
  mkArr n (map (fun i => map (fun j => if Nat.eqb i j then nth i v zero else zero) (seq 0 n)) (seq 0 n)).

(** Lines 18-36, [_convert_state_to_numpy_dict].  The dictionary is a list of pairs in
    insertion order.  [model_dump] of a Gaussian has the keys mean and covariance, that
    of a delta distribution only mean (line 28). *)
Definition to_columns (x : rvar) (what : out_type) (tag : string) : res (list (string * nd A)) :=
  let mean := (tag ++ "_mean", nd_of_list A (mean_of A x))%string in
  match what with
  | OFull =>
    match x with
    | RGauss _ d => Ok [mean; ((tag ++ "_covariance")%string, nd_of_arr A (d_cov d))]
    | RDelta _ _ => Ok [mean]
    end
  | OMeanCov => Ok [mean; ((tag ++ "_covariance")%string, nd_of_arr A (cov_of A zero x))]
  | OMeanVar => Ok [mean; ((tag ++ "_variance")%string, nd_of_list A (diagonal (cov_of A zero x)))]
  | OMean => Ok [mean]
  | ONone => Err ValueError
  end.

(** Lines 154-156 and 201-203: what is written for one step. *)
Definition to_insert (time : A) (state output : rvar) (what : out_type) : res (list (string * nd A)) :=
  let! s := to_columns state what "state" in
  let! o := to_columns output what "output" in
  Ok (("time", mkNd [] [time]) :: s ++ o).

(** * Datasets *)

(** A dataset: the shape of a row, the rows, the maximal number of rows ([None]:
    unlimited) and the number of rows in a chunk ([None]: not chunked). *)
Record dataset : Type := DS {
  ds_shape : list nat; ds_rows : list (nd A); ds_max : option nat; ds_chunk : option nat }.

Definition nan_row (shape : list nat) : nd A := mkNd shape (repeat nan (size_of shape)).

(** [h5py.Dataset.resize] along the first axis to a larger size; new rows hold the
    fill value. *)
Definition resize (ds : dataset) (size : nat) : res dataset :=
  match ds_chunk ds with
  | None => Err TypeError
  | Some _ =>
    if match ds_max ds with Some m => Nat.ltb m size | None => false end then Err ValueError
    else Ok (DS (ds_shape ds) (ds_rows ds ++ repeat (nan_row (ds_shape ds)) (size - List.length (ds_rows ds)))
                (ds_max ds) (ds_chunk ds))
  end.

Fixpoint set_nth {B} (i : nat) (v : B) (l : list B) : list B :=
  match l, i with
  | [], _ => []
  | _ :: t, 0 => v :: t
  | y :: t, S i' => y :: set_nth i' v t
  end.

(** Lines 207-214 for one dataset.  A value of another shape than the rows is refused
    (h5py would broadcast some of them). *)
Definition write_value (ds : dataset) (ind : nat) (value : nd A) : dataset * res unit :=
  match (if Nat.leb (List.length (ds_rows ds)) ind
         then match ds_chunk ds with
              | None => Err TypeError
              | Some c => resize ds (List.length (ds_rows ds) + c)
              end
         else Ok ds) with
  | Err e => (ds, Err e)
  | Ok ds =>
    if negb (Nat.ltb ind (List.length (ds_rows ds))) then (ds, Err IndexError)
    else if list_eq_dec Nat.eq_dec (nshape value) (ds_shape ds)
    then (DS (ds_shape ds) (set_nth ind value (ds_rows ds)) (ds_max ds) (ds_chunk ds), Ok tt)
    else (ds, Err TypeError)
  end.

(** A group of datasets. *)
Definition group : Type := list (string * dataset).
Fixpoint column (g : group) (key : string) : option dataset :=
  match g with
  | [] => None
  | (k, ds) :: g' => if String.eqb k key then Some ds else column g' key
  end.
Fixpoint set_column (g : group) (key : string) (ds : dataset) : group :=
  match g with
  | [] => []
  | (k, ds') :: g' => if String.eqb k key then (k, ds) :: g' else (k, ds') :: set_column g' key ds
  end.

(** Lines 206-214: one dataset after the other; those written before an exception
    keep their new values. *)
Fixpoint write_columns (g : group) (ind : nat) (cols : list (string * nd A)) : group * res unit :=
  match cols with
  | [] => (g, Ok tt)
  | (key, value) :: cols' =>
    match column g key with
    | None => (g, Err KeyError)
    | Some ds =>
      let (ds, r) := write_value ds ind value in
      let g := set_column g key ds in
      match r with Err e => (g, Err e) | Ok _ => write_columns g ind cols' end
    end
  end.

(** * The group of the estimates *)
Inductive attr : Type :=
| ASettings (per_timestep per_cycle : out_type)
| ANames (l : list string)
| AText (s : string)
| AHealth (a : hv A)
| ATransients (t : container A).

Inductive place : Type := PerTimestep | PerCycle.

Record store : Type := Store {
  st_attrs : list (string * attr); st_timestep : option group; st_cycle : option group }.
Definition get_group (s : store) (p : place) : option group :=
  match p with PerTimestep => st_timestep s | PerCycle => st_cycle s end.
Definition set_group (s : store) (p : place) (g : group) : store :=
  match p with
  | PerTimestep => Store (st_attrs s) (Some g) (st_cycle s)
  | PerCycle => Store (st_attrs s) (st_timestep s) (Some g)
  end.
Fixpoint find_attr (l : list (string * attr)) (key : string) : option attr :=
  match l with
  | [] => None
  | (k, v) :: l' => if String.eqb k key then Some v else find_attr l' key
  end.
(** [group.attrs[key] = v] *)
Definition set_attr (s : store) (key : string) (v : attr) : store :=
  Store ((key, v) :: List.filter (fun kv => negb (String.eqb (fst kv) key)) (st_attrs s)) (st_timestep s) (st_cycle s).

(** A file (or group within a file): its groups of estimates by name. *)
Definition root : Type := list (string * store).
Fixpoint find_store (r : root) (key : string) : option store :=
  match r with
  | [] => None
  | (k, s) :: r' => if String.eqb k key then Some s else find_store r' key
  end.
Fixpoint set_store (r : root) (key : string) (s : store) : root :=
  match r with
  | [] => [(key, s)]
  | (k, s') :: r' => if String.eqb k key then (k, s) :: r' else (k, s') :: set_store r' key s
  end.

(** * The writer *)

(** Lines 59-83, without the options of the file; [w_options] says how many rows the
    chunks of a dataset have for the given dataset options, resizability, number of
    rows and shape of a row. *)
Record writer : Type := Writer {
  w_key : string; w_options : bool -> nat -> list nat -> option nat; w_resizable : bool;
  w_per_timestep : out_type; w_per_cycle : out_type;
  w_ready : bool; w_position : nat }.
Definition what_at (w : writer) (p : place) : out_type :=
  match p with PerTimestep => w_per_timestep w | PerCycle => w_per_cycle w end.

(** A writer together with the file it writes to. *)
Record system : Type := System { sys_writer : writer; sys_root : root }.

Definition with_state (w : writer) (ready : bool) (position : nat) : writer :=
  Writer (w_key w) (w_options w) (w_resizable w) (w_per_timestep w) (w_per_cycle w) ready position.

(** Lines 85-95, [__enter__]. *)
Definition enter (s : system) : system :=
  let (w, r) := (sys_writer s, sys_root s) in
  let r := match find_store r (w_key w) with Some _ => r | None => set_store r (w_key w) (Store [] None None) end in
  System (with_state w true 0) r.

(** Lines 97-102, [__exit__]. *)
Definition exit (s : system) : system :=
  System (with_state (sys_writer s) false (w_position (sys_writer s))) (sys_root s).

(** The group being written to ([_group_handle]). *)
Definition handle (s : system) : store :=
  match find_store (sys_root s) (w_key (sys_writer s)) with Some st => st | None => Store [] None None end.
Definition put (s : system) (st : store) : system :=
  System (sys_writer s) (set_store (sys_root s) (w_key (sys_writer s)) st).

(** What [prepare] reads from an estimator; [state] may raise. *)
Record described : Type := Described {
  e_state_names : list string; e_output_names : list string; e_class : string; e_state : res rvar;
  e_cell_model : string; e_asoh : hv A; e_transients : container A; e_num_outputs : nat }.

Definition class_of (x : rvar) : string :=
  match x with RGauss _ _ => "MultivariateGaussian" | RDelta _ _ => "DeltaDistribution" end.

(** Lines 162-169: an empty dataset for each column. *)
Definition new_dataset (w : writer) (expected : option nat) (value : nd A) : res dataset :=
  let make size max :=
    Ok (DS (nshape value) (repeat (nan_row (nshape value)) size) max (w_options w (w_resizable w) size (nshape value))) in
  if w_resizable w then make (match expected with None => 128 | Some n => n end) expected
  else match expected with Some n => make n (Some n) | None => Err ValueError end.
Definition new_group (w : writer) (expected : option nat) (cols : list (string * nd A)) : res group :=
  mapM (fun kv => let! ds := new_dataset w expected (snd kv) in Ok (fst kv, ds)) cols.

(** Lines 149-169 for one of the two groups. *)
Definition prepare_place (w : writer) (state output : rvar) (st : store) (p : place) (expected : option nat)
  : store * res unit :=
  match what_at w p with
  | ONone => (st, Ok tt)
  | what =>
    match to_insert zero state output what with
    | Err e => (st, Err e)
    | Ok cols =>
      match get_group st p with
      | Some _ => (st, Err ValueError)
      | None =>
        match new_group w expected cols with
        | Err e => (set_group st p [], Err e)
        | Ok g => (set_group st p g, Ok tt)
        end
      end
    end
  end.

(** Lines 128-169, [prepare]. *)
Definition prepare (s : system) (e : described) (expected_steps expected_cycles : option nat) : system * res unit :=
  let w := sys_writer s in
  if negb (w_ready w) then (s, Err ValueError)
  else if negb (w_resizable w) && match expected_steps, expected_cycles with Some _, Some _ => false | _, _ => true end
  then (s, Err ValueError)
  else
    let st := handle s in
    let st := set_attr st "write_settings" (ASettings (w_per_timestep w) (w_per_cycle w)) in
    let st := set_attr st "state_names" (ANames (e_state_names e)) in
    let st := set_attr st "output_names" (ANames (e_output_names e)) in
    let st := set_attr st "estimator_name" (AText (e_class e)) in
    match e_state e with
    | Err x => (put s st, Err x)
    | Ok state =>
      let st := set_attr st "distribution_type" (AText (class_of state)) in
      let st := set_attr st "cell_model" (AText (e_cell_model e)) in
      let st := set_attr st "initial_asoh" (AHealth (e_asoh e)) in
      let st := set_attr st "initial_transient_state" (ATransients (e_transients e)) in
      let n := e_num_outputs e in
      match new_gaussian A (nd_of_list A (repeat zero n)) (mkNd [n; n] (repeat zero (n * n))) with
      | Err x => (put s st, Err x)
      | Ok output =>
        let (st, r) := prepare_place w state (RGauss A output) st PerTimestep expected_steps in
        match r with
        | Err x => (put s st, Err x)
        | Ok _ =>
          let (st, r) := prepare_place w state (RGauss A output) st PerCycle expected_cycles in
          (put s st, r)
        end
      end
    end.

(** Line 197: whether a record for this cycle is already there. *)
Definition already_written (g : group) (ind : nat) : res bool :=
  match column g "time" with
  | None => Err KeyError
  | Some ds =>
    if Nat.ltb ind (List.length (ds_rows ds))
    then match ndata (nth ind (ds_rows ds) (nan_row (ds_shape ds))) with
         | [t] => Ok (negb (is_nan t))
         | _ => Err TypeError
         end
    else Ok false
  end.

(** Lines 189-214 for one of the two groups. *)
Definition append_place (w : writer) (st : store) (p : place) (ind : nat) (time : A) (state output : rvar)
  : store * res unit :=
  match what_at w p with
  | ONone => (st, Ok tt)
  | what =>
    match get_group st p with
    | None => (st, Err KeyError)
    | Some g =>
      match (match p with PerTimestep => Ok false | PerCycle => already_written g ind end) with
      | Err e => (st, Err e)
      | Ok true => (st, Ok tt)
      | Ok false =>
        match to_insert time state output what with
        | Err e => (st, Err e)
        | Ok cols => let (g, r) := write_columns g ind cols in (set_group st p g, r)
        end
      end
    end
  end.

(** Lines 171-217, [append_step].  Cycle numbers are natural numbers here (a negative
    one would be counted from the end of the dataset). *)
Definition append_step (s : system) (time : A) (cycle : nat) (state output : rvar) : system * res unit :=
  let w := sys_writer s in
  if negb (w_ready w) then (s, Err ValueError)
  else
    let (st, r) := append_place w (handle s) PerTimestep (w_position w) time state output in
    match r with
    | Err e => (put s st, Err e)
    | Ok _ =>
      let (st, r) := append_place w st PerCycle cycle time state output in
      match r with
      | Err e => (put s st, Err e)
      | Ok _ => (System (with_state w true (S (w_position w))) (sys_root (put s st)), Ok tt)
      end
    end.

(** * Reading *)
Inductive dist_type : Type := TGauss | TDelta.
Definition type_name (t : dist_type) : string :=
  match t with TGauss => "MultivariateGaussian" | TDelta => "DeltaDistribution" end.

(** Lines 273-280, [_unpack]: the values whose names begin with the given prefix. *)
Fixpoint unpack (g : group) (ind : nat) (typ : string) : res (list (string * nd A)) :=
  match g with
  | [] => Ok []
  | (k, ds) :: g' =>
    if String.prefix typ k && negb (String.eqb k "time") then
      let! v := of_opt IndexError (nth_error (ds_rows ds) ind) in
      let! l := unpack g' ind typ in
      Ok ((substring (String.length typ) (String.length k - String.length typ) k, v) :: l)
    else unpack g' ind typ
  end.
Fixpoint value_of_key (l : list (string * nd A)) (key : string) : option (nd A) :=
  match l with
  | [] => None
  | (k, v) :: l' => if String.eqb k key then Some v else value_of_key l' key
  end.

(** Lines 277-280 and 286-290: the keyword arguments and the distribution made from
    them.  Surplus arguments are ignored (pydantic's default); missing ones do not
    occur in files made by the writer, and are refused here instead of replaced by the
    defaults of the class. *)
Definition build (read_type : out_type) (t : dist_type) (values : list (string * nd A)) : res rvar :=
  let! mean := of_opt ValidationError (value_of_key values "mean") in
  match t with
  | TDelta => let! m := new_delta A mean in Ok (RDelta A m)
  | TGauss =>
    let! cov := match read_type with
                | OMeanVar => let! v := of_opt KeyError (value_of_key values "variance") in
                              Ok (nd_of_arr A (diagonal_matrix (ndata v)))
                | _ => of_opt ValidationError (value_of_key values "covariance")
                end in
    let! d := new_gaussian A mean cov in Ok (RGauss A d)
  end.

(** Lines 282-291: what is yielded, and whether an exception ends the iteration. *)
Fixpoint read_rows (g : group) (read_type : out_type) (t : dist_type) (i : nat) (times : list (nd A))
  : list (A * rvar * rvar) * res unit :=
  match times with
  | [] => ([], Ok tt)
  | time :: times' =>
    match ndata time with
    | [x] =>
      if is_nan x then ([], Ok tt)
      else
        match (let! s := unpack g i "state_" in
               let! s := build read_type t s in
               let! o := unpack g i "output_" in
               let! o := build read_type t o in
               Ok (s, o)) with
        | Err e => ([], Err e)
        | Ok (s, o) => let (l, r) := read_rows g read_type t (S i) times' in ((x, s, o) :: l, r)
        end
    | _ => ([], Err TypeError)
    end
  end.

(** Lines 250-291, [read_state_estimates] of a group. *)
Definition read_group (st : store) (p : place) (t : dist_type) : list (A * rvar * rvar) * res unit :=
  match (match find_attr (st_attrs st) "write_settings" with
         | Some (ASettings a b) => Ok (match p with PerTimestep => a | PerCycle => b end)
         | _ => Err KeyError
         end) with
  | Err e => ([], Err e)
  | Ok read_type =>
    match (match read_type with
           | OFull =>
             match find_attr (st_attrs st) "distribution_type" with
             | Some (AText n) => if String.eqb (type_name t) n then Ok t else Err ValueError
             | _ => Err KeyError
             end
           | OMeanCov | OMeanVar => Ok TGauss
           | OMean => Ok TDelta
           | ONone => Err ValueError
           end) with
    | Err e => ([], Err e)
    | Ok t =>
      match get_group st p with
      | None => ([], Err KeyError)
      | Some g =>
        match column g "time" with
        | None => ([], Err KeyError)
        | Some ds => read_rows g read_type t 0 (ds_rows ds)
        end
      end
    end
  end.

(** Lines 238-248: from the path of a file. *)
Definition read_file (r : root) (p : place) (t : dist_type) : list (A * rvar * rvar) * res unit :=
  match find_store r "state_estimates" with
  | None => ([], Err KeyError)
  | Some st => read_group st p t
  end.
End HDF5.

(** Running an estimator over a dataset: moirae/interface/__init__.py.

    Values can be of any type with a zero, with values for which [np.isnan] holds,
    with a test for being finite, and with a conversion to natural numbers for cycle
    numbers ([int]; negative cycle numbers are left out). *)
From Coq Require Import String List Arith Bool.
Import ListNotations.
From Verif Require Import Res Arr NdArray Container Health Distributions Estimators HDF5.
Local Open Scope string_scope.
Local Open Scope list_scope.

Section Interface.
Variable A : Type.
Variable zero nan : A.
Variable is_nan is_finite : A -> bool.
Variable cycle_of : A -> res nat.
(** The default value 25 of [default_temperature] (line 24). *)
Variable room : A.

(** * Tables (pandas) *)

(** A data frame: names of the columns and the rows. *)
Record frame : Type := Frame { f_columns : list string; f_rows : list (list A) }.

(** [row[name]] *)
Fixpoint cell_of_row (columns : list string) (row : list A) (name : string) : res A :=
  match columns, row with
  | c :: columns', x :: row' => if String.eqb c name then Ok x else cell_of_row columns' row' name
  | _, _ => Err KeyError
  end.
(** [name in row] *)
Definition has_column (columns : list string) (name : string) : bool := existsb (String.eqb name) columns.

(** Validation of a number as a scalar parameter makes it a 1 x 1 array
    (models/base.py lines 18-66). *)
Definition scalar (x : A) : option (arr A) := Some (mkArr 1 [[x]]).

(** Lines 24-47, [row_to_inputs]: the inputs ([ECMInput]: time, current, temperature)
    and the measurement ([ECMMeasurement]: terminal voltage). *)
Definition row_to_inputs (columns : list string) (row : list A) (default : A) : res (container A * container A) :=
  let! use_temp := if has_column columns "temperature"
                   then let! t := cell_of_row columns row "temperature" in Ok (is_finite t)
                   else Ok false in
  let! time := cell_of_row columns row "test_time" in
  let! current := cell_of_row columns row "current" in
  let! temperature := if use_temp : bool then cell_of_row columns row "temperature" else Ok default in
  let! voltage := cell_of_row columns row "voltage" in
  Ok ([("time", scalar time); ("current", scalar current); ("temperature", scalar temperature)],
      [("terminal_voltage", scalar voltage)]).

(** * Estimators *)

(** What is used of an estimator: its description (names, number of outputs, and what
    the writer reads), and its step. *)
Record online (E : Type) : Type := Online {
  o_described : E -> described A;
  o_step : E -> container A -> container A -> E * res (rv A * rv A) }.
Arguments o_described {E} _ _.
Arguments o_step {E} _ _ _ _.

(** * run_online_estimate *)

(** Lines 79-98: a [BatteryDataset] with or without raw data, the path of a file with
    raw data, or something else. *)
Inductive dataset_arg : Type := DataSet (raw_data : option frame) | DataPath (raw_data : frame) | DataOther.

(** [max] of a column of cycle numbers. *)
Definition max_cycle (f : frame) : res nat :=
  let! l := mapM (fun row => let! x := cell_of_row (f_columns f) row "cycle_number" in cycle_of x) (f_rows f) in
  Ok (fold_right Nat.max 0 l).

(** Lines 79-98: the rows and the expected number of cycles.  (The maximum of an empty
    column is not a number; it is never used, because line 101 raises.) *)
Definition open_dataset (d : dataset_arg) : res (frame * option nat) :=
  match d with
  | DataSet None => Err ValueError
  | DataSet (Some f) =>
    if has_column (f_columns f) "cycle_number" then let! m := max_cycle f in Ok (f, Some (m + 1)) else Ok (f, Some 0)
  | DataPath f => Ok (f, None)
  | DataOther => Err ValueError
  end.

(** Lines 106-109: four arrays of zeros, as lists of rows. *)
Record tables : Type := Tables { t_sm : list (list A); t_sv : list (list A); t_om : list (list A); t_ov : list (list A) }.
Definition zeros (rows cols : nat) : list (list A) := repeat (repeat zero cols) rows.

(** [m[i, :] = v]: a vector of one number is broadcast. *)
Definition assign (m : list (list A)) (i : nat) (cols : nat) (v : list A) : res (list (list A)) :=
  if negb (Nat.ltb i (List.length m)) then Err IndexError
  else if Nat.eqb (List.length v) cols then Ok (set_nth i v m)
  else match v with [x] => Ok (set_nth i (repeat x cols) m) | _ => Err ValueError end.

(** Lines 132-135. *)
Definition record_step (t : tables) (i ns no : nat) (s o : rv A) : res tables :=
  let! sm := assign (t_sm t) i ns (mean_of A s) in
  let! sv := assign (t_sv t) i ns (diagonal A zero (cov_of A zero s)) in
  let! om := assign (t_om t) i no (mean_of A o) in
  let! ov := assign (t_ov t) i no (diagonal A zero (cov_of A zero o)) in
  Ok (Tables sm sv om ov).

Section Run.
Variable E : Type.
Variable O : online E.

(** Lines 125-139.  The estimator and the file are returned also if a step raises.
    [tables] is [None] if no states are to be returned, [file] is [None] if none is to be
    written. *)
Fixpoint loop (columns : list string) (ns no i : nat) (rows : list (list A)) (e : E)
  (file : option (system A)) (t : option tables) : E * option (system A) * res (option tables) :=
  match rows with
  | [] => (e, file, Ok t)
  | row :: rows' =>
    match row_to_inputs columns row room with
    | Err x => (e, file, Err x)
    | Ok (controls, measurements) =>
      let (e, r) := o_step O e controls measurements in
      match r with
      | Err x => (e, file, Err x)
      | Ok (new_state, new_outputs) =>
        match (match t with
               | None => Ok None
               | Some t => let! t := record_step t i ns no new_state new_outputs in Ok (Some t)
               end) with
        | Err x => (e, file, Err x)
        | Ok t =>
          match file with
          | None => loop columns ns no (S i) rows' e None t
          | Some s =>
            match (let! time := cell_of_row columns row "test_time" in
                   let! c := cell_of_row columns row "cycle_number" in Ok (time, c)) with
            | Err x => (e, file, Err x)
            | Ok (time, c) =>
              match cycle_of c with
              | Err x => (e, file, Err x)
              | Ok c =>
                let (s, r) := append_step A zero nan is_nan s time c new_state new_outputs in
                match r with
                | Err x => (e, Some s, Err x)
                | Ok _ => loop columns ns no (S i) rows' e (Some s) t
                end
              end
            end
          end
        end
      end
    end
  end.

(** Lines 142-150: the data frame that is returned. *)
Definition compile (state_names output_names : list string) (t : tables) : frame :=
  let std := map (fun s => (s ++ "_std")%string) in
  Frame (state_names ++ std state_names ++ output_names ++ std output_names)
    (map (fun i => nth i (t_sm t) [] ++ nth i (t_sv t) [] ++ nth i (t_om t) [] ++ nth i (t_ov t) [])
         (seq 0 (List.length (t_sm t)))).

(** Lines 51-151.  The writer, if any, is given together with its file.  The attribute
    [_u] of the estimator (line 102) is read nowhere in the library and left out. *)
Definition run (d : dataset_arg) (e : E) (output_states : bool) (file : option (system A))
  : E * option (system A) * res (option frame) :=
  match open_dataset d with
  | Err x => (e, file, Err x)
  | Ok (f, num_cycles) =>
    let num_rows := List.length (f_rows f) in
    match f_rows f with
    | [] => (e, file, Err StopIter)
    | first :: rows =>
      match row_to_inputs (f_columns f) first room with
      | Err x => (e, file, Err x)
      | Ok _ =>
        let desc := o_described O e in
        let ns := List.length (e_state_names A desc) in
        let no := e_num_outputs A desc in
        let t := if output_states
                 then Some (Tables (zeros num_rows ns) (zeros num_rows ns) (zeros num_rows no) (zeros num_rows no))
                 else None in
        let finish '(e, file, r) :=
          (e, option_map (exit A) file,
           let! t := r in Ok (option_map (compile (e_state_names A desc) (e_output_names A desc)) t)) in
        match file with
        | None => finish (loop (f_columns f) ns no 0 rows e None t)
        | Some s =>
          let (s, r) := prepare A zero nan (enter A s) desc (Some num_rows) num_cycles in
          match r with
          | Err x => (e, Some (exit A s), Err x)
          | Ok _ => finish (loop (f_columns f) ns no 0 rows e (Some s) t)
          end
        end
      end
    end
  end.
End Run.

(** interface/hdf5.py lines 59-83: the writer made for a path or a group. *)
Definition default_writer (options : bool -> nat -> list nat -> option nat) : writer :=
  Writer "state_estimates" options true OMean OFull false 0.
End Interface.
Arguments o_described {A E} _ _.
Arguments o_step {A E} _ _ _ _.

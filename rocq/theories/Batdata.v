(** Simulated data as datasets: moirae/simulator.py lines 172-211. *)
From Coq Require Import String List Arith Bool.
Import ListNotations.
From Verif Require Import Res Arr Names Container Simulator Interface.
Local Open Scope string_scope.
Local Open Scope list_scope.

Section Batdata.
Variable A : Type.
(** What pandas fills in where a column is shorter than the others. *)
Variable nan : A.

(** Lines 184-188: columns with a name known to the schema. *)
Definition known_name (c : string) : string :=
  if String.eqb c "time" then "test_time"
  else if String.eqb c "terminal_voltage" then "voltage" else c.

(** The columns of the frame but [batch] (line 193; that no variable is called [batch] is
    assumed), and a row. *)
Definition columns_of (f : Simulator.frame A) : list string :=
  map known_name (fst (f_input f) ++ fst (f_transient f) ++ fst (f_output f)).
Definition block_row (b : list string * arr A) (r : nat) : list A :=
  match nth_error (arows (snd b)) r with Some x => x | None => repeat nan (acols (snd b)) end.
Definition frame_row (f : Simulator.frame A) (r : nat) : list A :=
  block_row (f_input f) r ++ block_row (f_transient f) r ++ block_row (f_output f) r.

(** Line 192, [groupby('batch')]: the labels that occur, in ascending order. *)
Definition labels (f : Simulator.frame A) : list nat :=
  filter (fun g => existsb (Nat.eqb g) (f_batch f)) (seq 0 (S (fold_right Nat.max 0 (f_batch f)))).

(** Lines 172-211, [to_batdata]: for every label the raw data and the names of the
    extra columns of the schema (descriptions are left out). *)
Definition to_batdata {As} (s : sim (container A) (container A) As (container A)) (extra_columns : bool)
  : res (list (Interface.frame A * list string)) :=
  let! f := to_dataframe s in
  mapM (fun g =>
    let! extra :=
      if extra_columns then
        let! i := all_names (previous_input s) in
        let! t := all_names (transient s) in
        let! o := all_names (measurement s) in
        Ok (i ++ t ++ o)
      else Ok [] in
    Ok (Interface.Frame A (columns_of f) (map (frame_row f) (group_rows f g)), extra)) (labels f).
End Batdata.

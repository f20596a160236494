(** Model of [Simulator] (moirae/simulator.py) over an arbitrary cell model and
    degradation model. *)
From Coq Require Import String List Arith Bool.
Import ListNotations.
From Verif Require Import Res Arr Names Container.

Section Simulator.
  (** Values of inputs, transient states, health variables and outputs. *)
  Context {In Tr As Out : Type}.

  (** models/base.py lines 568-613 and 616-642, [CellModel] and
      [DegradationModel].  Evaluating a cell model may write into the health
      variable it is given (SOCInterpolatedHealth stores its grid on first use,
      ecm/utils.py lines 50-88), hence the returned health; writing into inputs
      or transient states, and degradation models that write into their
      arguments, are not modelled. *)
  Record cell_model := {
    cm_update : In (* previous *) -> In (* new *) -> Tr -> As -> As * res Tr;
    cm_voltage : In -> Tr -> As -> As * res Out
  }.
  Definition degradation_model := As -> In -> Tr -> Out -> res As.

  (** models/utils.py lines 9-18, [NoDegradation]. *)
  Definition no_degradation : degradation_model := fun a _ _ _ => Ok a.

  Record history := {
    h_input : list In; h_transient : list Tr; h_asoh : list As; h_output : list Out
  }.

  (** The attributes of a simulator; [hist = None] when history is not kept. *)
  Record sim := {
    transient : Tr; asoh : As; previous_input : In; measurement : Out;
    hist : option history
  }.

  Variables (M : cell_model) (D : degradation_model).

  (** simulator.py lines 51-79, [__init__]; copies are values. *)
  Definition init (a : As) (t : Tr) (u : In) (keep : bool) : res sim :=
    let (a', r) := cm_voltage M u t a in
    let! y := r in
    Ok {| transient := t; asoh := a'; previous_input := u; measurement := y;
          hist := if keep then Some {| h_input := [u]; h_transient := [t];
                                       h_asoh := [a']; h_output := [y] |}
                  else None |}.

  Definition record_step (h : option history) (u : In) (t : Tr) (a : As) (y : Out)
    : option history :=
    match h with
    | None => None
    | Some h => Some {| h_input := h_input h ++ [u]; h_transient := h_transient h ++ [t];
                        h_asoh := h_asoh h ++ [a]; h_output := h_output h ++ [y] |}
    end.

  (** simulator.py lines 81-122, [step].  The attributes are assigned one after
      the other, so an exception leaves the earlier assignments in place. *)
  Definition step (s : sim) (u : In) : sim * res (Tr * Out) :=
    let (a1, r1) := cm_update M (previous_input s) u (transient s) (asoh s) in
    match r1 with
    | Err e => ({| transient := transient s; asoh := a1; previous_input := previous_input s;
                   measurement := measurement s; hist := hist s |}, Err e)
    | Ok t =>
      let (a2, r2) := cm_voltage M u t a1 in
      match r2 with
      | Err e => ({| transient := t; asoh := a2; previous_input := u;
                     measurement := measurement s; hist := hist s |}, Err e)
      | Ok y =>
        match D a2 u t y with
        | Err e => ({| transient := t; asoh := a2; previous_input := u;
                       measurement := y; hist := hist s |}, Err e)
        | Ok a3 => ({| transient := t; asoh := a3; previous_input := u; measurement := y;
                       hist := record_step (hist s) u t a3 y |}, Ok (t, y))
        end
      end
    end.

  (** simulator.py lines 124-141, [evolve]. *)
  Fixpoint evolve (s : sim) (us : list In) : sim * res (list Out) :=
    match us with
    | [] => (s, Ok [])
    | u :: rest =>
      match step s u with
      | (s', Err e) => (s', Err e)
      | (s', Ok (_, y)) =>
        match evolve s' rest with
        | (s'', Err e) => (s'', Err e)
        | (s'', Ok ys) => (s'', Ok (y :: ys))
        end
      end
    end.
End Simulator.
Arguments cell_model : clear implicits.
Arguments degradation_model : clear implicits.
Arguments sim : clear implicits.
Arguments history : clear implicits.

(** * Exporting the history *)

(** simulator.py lines 156-161, [_squish]: one block of columns. *)
Definition squish {A} (batch_size : nat) (params : list (container A))
  : res (list string * arr A) :=
  let! blocks := mapM (fun x =>
      let! b := Container.batch_size x in
      let! m := to_numpy x in
      Ok (if Nat.eqb b batch_size then m else repeat_rows batch_size m)) params in
  let! values := vconcat blocks in
  let! first := of_opt IndexError (nth_error params 0) in
  let! names := all_names first in
  if Nat.eqb (List.length names) (acols values) then Ok (names, values) else Err ValueError.

(** A data frame: the [batch] labels and the three blocks of columns.
    [pd.concat(axis=1)] puts rows with the same index next to each other, so row
    r of the frame is made of row r of every block. *)
Record frame (A : Type) := {
  f_batch : list nat; f_input : list string * arr A;
  f_transient : list string * arr A; f_output : list string * arr A
}.
Arguments f_batch {A} _.
Arguments f_input {A} _.
Arguments f_transient {A} _.
Arguments f_output {A} _.

(** simulator.py lines 143-170, [to_dataframe]. *)
Definition to_dataframe {A As}
  (s : sim (container A) (container A) As (container A)) : res (frame A) :=
  match hist s with
  | None => Err ValueError
  | Some h =>
    let! b := Container.batch_size (measurement s) in
    let member := flat_map (fun i => repeat i (List.length (h_input h))) (seq 0 b) in
    let! i := squish b (h_input h) in
    let! t := squish b (h_transient h) in
    let! o := squish b (h_output h) in
    Ok {| f_batch := member; f_input := i; f_transient := t; f_output := o |}
  end.

(** simulator.py lines 192-193: the rows of one group of [groupby('batch')]
    (row numbers of the frame, in order). *)
Definition group_rows {A} (f : frame A) (g : nat) : list nat :=
  filter (fun r => match nth_error (f_batch f) r with Some l => Nat.eqb l g | None => false end)
         (seq 0 (List.length (f_batch f))).

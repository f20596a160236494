(** Vocabulary for names that designate more, or other, than a single listed parameter. *)
From Coq Require Import String List Arith ZArith.
Import ListNotations.
From Verif Require Import Res Arr Names Health Spec_Health.
Local Open Scope string_scope.

(** The name designates a sub-variable, a tuple or dictionary of them, or an entry of one,
    anywhere in the tree. *)
Inductive structure {A} (h : hv A) : string -> Prop :=
| SVariable r n k x : deref h r = Some n -> get_field n k = Some (FSub x) -> structure h (path_name r k)
| STuple r n k l : deref h r = Some n -> get_field n k = Some (FTuple l) -> structure h (path_name r k)
| SDict r n k d : deref h r = Some n -> get_field n k = Some (FDict d) -> structure h (path_name r k)
| SMember r n k l i : deref h r = Some n -> get_field n k = Some (FTuple l) -> i < List.length l ->
    structure h (path_name r (k ++ "." ++ nat_str i))
| SEntry r n k d key x : deref h r = Some n -> get_field n k = Some (FDict d) -> In (key, x) d ->
    structure h (path_name r (k ++ "." ++ key)).

(** The pieces of a name, split at the dots, lead to the attribute f of an object: through
    sub-variables, members of tuples - counted from the front or, with negative numbers,
    from the back - and entries of dictionaries. *)
Inductive leads {A} : hv A -> list string -> field A -> Prop :=
| LHere h k f : get_field h k = Some f -> leads h [k] f
| LSub h k x rest f : get_field h k = Some (FSub x) -> leads x rest f -> leads h (k :: rest) f
| LFront h k l piece i x rest f : get_field h k = Some (FTuple l) -> parse_int piece = Some (Z.of_nat i) ->
    nth_error l i = Some x -> leads x rest f -> leads h (k :: piece :: rest) f
| LBack h k l piece i x rest f : get_field h k = Some (FTuple l) -> parse_int piece = Some (- Z.of_nat (S i))%Z ->
    nth_error (rev l) i = Some x -> leads x rest f -> leads h (k :: piece :: rest) f
| LEntry h k d key x rest f : get_field h k = Some (FDict d) -> assoc key d = Some x -> leads x rest f ->
    leads h (k :: key :: rest) f.

(** Arrays next to each other: all have the same number of rows, and each row of the result is made
    of the rows with the same index. *)
Definition side_by_side {A} (ms : list (arr A)) (m : arr A) : Prop :=
  Forall (fun x => anrows x = anrows m) ms /\ acols m = list_sum (map acols ms) /\
  forall i, i < anrows m -> nth i (arows m) [] = List.concat (map (fun x => nth i (arows x) []) ms).

(** Model of [GeneralContainer] (moirae/models/base.py lines 428-548).

    A container is the list of its pydantic fields in declaration order.  A
    field is [None] or a 2-D array (the validators of [ScalarParameter] and
    [ListParameter], lines 47-57, turn every value given to the constructor
    into a 2-D array; see NdArray.v). Class identity is not modelled. *)
From Coq Require Import String List Arith.
Import ListNotations.
From Verif Require Import Res Arr Names.

Definition container (A : Type) : Type := list (string * option (arr A)).

(** [self.model_fields.keys()]; also [all_fields], base.py lines 437-444. *)
Definition all_fields {A} (c : container A) : list string := map fst c.

(** [getattr(self, name)]; AttributeError if the class has no such field. *)
Fixpoint getattr {A} (c : container A) (name : string) : res (option (arr A)) :=
  match c with
  | [] => Err AttributeError
  | (k, f) :: t => if String.eqb k name then Ok f else getattr t name
  end.

(** base.py lines 490-498, [length_field]: [getattr(self, field_name, None)]. *)
Definition length_field {A} (c : container A) (name : string) : nat :=
  match getattr c name with
  | Ok (Some f) => acols f
  | _ => 0
  end.

(** base.py lines 467-469, [__len__]. *)
Definition clen {A} (c : container A) : nat :=
  list_sum (map (length_field c) (all_fields c)).

(** base.py lines 458-464: the names of one field's values. *)
Definition names_of_field {A} (name : string) (f : arr A) : list string :=
  if Nat.eqb (acols f) 1 then [name] else map (indexed name) (seq 0 (acols f)).

(** base.py lines 452-465, [expand_names]. *)
Fixpoint expand_names {A} (c : container A) (names : list string) : res (list string) :=
  match names with
  | [] => Ok []
  | n :: t =>
    let! f := getattr c n in
    let! rest := expand_names c t in
    match f with
    | None => Ok rest
    | Some a => Ok (names_of_field n a ++ rest)
    end
  end.

(** base.py lines 446-450, [all_names]. *)
Definition all_names {A} (c : container A) : res (list string) :=
  expand_names c (all_fields c).

(** base.py lines 471-488, [batch_size]: the loop over the fields with the
    running value [cur] (the name kept for the error message is dropped). *)
Fixpoint batch_loop (cur : nat) (dims : list nat) : res nat :=
  match dims with
  | [] => Ok cur
  | d :: t =>
    if andb (andb (Nat.ltb 1 cur) (negb (Nat.eqb d 1))) (negb (Nat.eqb d cur))
    then Err ValueError
    else batch_loop (Nat.max cur d) t
  end.

(** The arrays of the fields that are not None, in order. *)
Fixpoint present {A} (c : container A) : list (arr A) :=
  match c with
  | [] => []
  | (_, None) :: t => present t
  | (_, Some f) :: t => f :: present t
  end.

Definition batch_size {A} (c : container A) : res nat :=
  batch_loop 1 (map anrows (present c)).

(** base.py lines 509-514: expansion of the batch dimension of one field. *)
Definition expand_batch {A} (bs : nat) (f : arr A) : arr A :=
  if andb (Nat.ltb 1 bs) (Nat.eqb (anrows f) 1) then repeat_rows bs f else f.

(** base.py lines 500-515, [to_numpy]. *)
Definition to_numpy {A} (c : container A) : res (arr A) :=
  let! bs := batch_size c in
  hconcat (map (expand_batch bs) (present c)).

(** base.py lines 517-537, [from_numpy]: the loop with its running
    [begin_index].  The method mutates the object; here the new fields are
    returned.  No branch raises. *)
Fixpoint from_numpy_loop {A} (c : container A) (values : arr A) (begin_index : nat)
  : container A :=
  match c with
  | [] => []
  | (k, None) :: t => (k, None) :: from_numpy_loop t values begin_index
  | (k, Some f) :: t =>
    let end_index := begin_index + acols f in
    (k, Some (slice_cols begin_index end_index values))
      :: from_numpy_loop t values end_index
  end.

Definition from_numpy {A} (c : container A) (values : vals A) : container A :=
  from_numpy_loop c (as2d values) 0.

(** base.py lines 539-548, [make_copy]: a deep copy, then [from_numpy] on the
    copy.  Values are immutable in the model, so copying is the identity; the
    pair returns the original next to the copy to state that it is intact. *)
Definition make_copy {A} (c : container A) (values : vals A) : container A :=
  from_numpy c values.

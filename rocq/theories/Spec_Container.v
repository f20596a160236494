(** Specification vocabulary for the container properties, independent of the
    functions that compute them. *)
From Coq Require Import String List Arith.
Import ListNotations.
From Verif Require Import Res Arr Names Container.

(** Field [k] of the container holds array [f]. *)
Definition has_field {A} (c : container A) (k : string) (f : arr A) : Prop :=
  In (k, Some f) c.

(** A container as a pydantic class produces it: distinct field names, each
    present field a genuine 2-D array. *)
Definition well_formed {A} (c : container A) : Prop :=
  NoDup (map fst c) /\ forall k f, has_field c k f -> wf_arr f.

(** B members: each present field has one row (shared) or B rows, and B is 1 or
    the row count of some field. *)
Definition has_batch {A} (c : container A) (B : nat) : Prop :=
  (forall k f, has_field c k f -> anrows f = 1 \/ anrows f = B) /\
  (B = 1 \/ exists k f, has_field c k f /\ anrows f = B).

(** At least one field holds values. *)
Definition nonempty {A} (c : container A) : Prop := exists k f, has_field c k f.

(** The values of batch member b in array f (arrays with one row are shared). *)
Definition member {A} (b : nat) (f : arr A) : list A :=
  match arows f with
  | [r] => r
  | rs => nth b rs []
  end.

(** All values of batch member b, in declaration order. *)
Definition member_values {A} (c : container A) (b : nat) : list A :=
  concat (map (fun kf => match snd kf with Some f => member b f | None => [] end) c).

(** Total number of stored values per member. *)
Definition width {A} (c : container A) : nat :=
  list_sum (map (fun kf => match snd kf with Some f => acols f | None => 0 end) c).

(** [nm] names value [i] of field [k]: the field name itself for a scalar
    field, [k[i]] otherwise. *)
Definition denotes {A} (c : container A) (nm k : string) (f : arr A) (i : nat) : Prop :=
  has_field c k f /\ i < acols f /\
  ((acols f = 1 /\ nm = k) \/ (acols f <> 1 /\ nm = indexed k i)).

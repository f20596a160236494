(** Specification vocabulary for health variables: where the parameters of a
    tree are, what they are called, and which are flagged, all in terms of paths
    from the root and independent of the functions that list or update them. *)
From Coq Require Import String List Arith Bool.
Import ListNotations.
From Verif Require Import Res Arr Names Health.
Local Open Scope string_scope.

(** The attribute a step goes through. *)
Definition step_attr (s : step) : string :=
  match s with SAttr k => k | SIdx k _ => k | SKey k _ => k end.

(** The dotted name of attribute [k] of the object at reference [r]. *)
Fixpoint path_name (r : ref) (k : string) : string :=
  match r with
  | [] => k
  | SAttr a :: t => a ++ "." ++ path_name t k
  | SIdx a i :: t => a ++ "." ++ (nat_str i ++ "." ++ path_name t k)
  | SKey a key :: t => a ++ "." ++ (key ++ "." ++ path_name t k)
  end.

(** Attribute [k] of the object at [r] is an array [v] and counts as a
    parameter (the interpolation grid of a SOC-dependent quantity does not). *)
Definition param {A} (h : hv A) (r : ref) (k : string) (v : vals A) : Prop :=
  exists n, deref h r = Some n /\ get_field n k = Some (FVal v) /\
            (hv_interp n = true -> k <> "soc_pinpoints").

(** Every object on the way has the attribute leading on flagged updatable. *)
Fixpoint flagged {A} (h : hv A) (r : ref) (k : string) : Prop :=
  match r with
  | [] => In k (hv_upd h)
  | s :: t => In (step_attr s) (hv_upd h) /\
              match child h s with Some x => flagged x t k | None => False end
  end.

(** One object of the tree is as the class requires and its names can be parsed:
    distinct field names and dict keys, none of them containing a dot, no
    list-valued fields, parameters are genuine 2-D arrays. *)
Definition node_ok {A} (n : hv A) : Prop :=
  NoDup (map fst (hv_fields n)) /\
  (forall k f, In (k, f) (hv_fields n) ->
     no_char dot k /\
     match f with
     | FVal v => (hv_interp n = true -> k <> "soc_pinpoints") -> exists m, v = V2 m /\ wf_arr m
     | FDict d => NoDup (map fst d) /\ forall key s, In (key, s) d -> no_char dot key
     | FList _ => False
     | _ => True
     end).

(** A tree of sub-variables, tuples and dicts, all of them well formed. *)
Definition well_formed_tree {A} (h : hv A) : Prop :=
  forall r n, deref h r = Some n -> node_ok n.

(** The tree without its updatable flags. *)
Fixpoint erase {A} (h : hv A) : hv A :=
  match h with
  | HV i _ fs => HV i [] (map (fun kf => (fst kf, map_field erase (snd kf))) fs)
  end.

(** Every parameter has at least one row / exactly one row. *)
Definition rows_ge1 {A} (h : hv A) : Prop :=
  forall r k v, param h r k v -> 1 <= shape0 v.
Definition unbatched {A} (h : hv A) : Prop :=
  forall r k v, param h r k v -> shape0 v = 1.

(** The list with the entry of one name replaced. *)
Definition replaced {A} (nm : string) (v : vals A) (l : list (string * vals A))
  : list (string * vals A) :=
  map (fun nv => if String.eqb (fst nv) nm then (fst nv, v) else nv) l.

(** The parameter called [nm] holds the array [m]. *)
Definition holds {A} (h : hv A) (nm : string) (m : arr A) : Prop :=
  exists r k, nm = path_name r k /\ param h r k (V2 m).

(** The parameter called [nm] exists and every step to it is flagged. *)
Definition may_update {A} (h : hv A) (nm : string) : Prop :=
  exists r k v, nm = path_name r k /\ param h r k v /\ flagged h r k.

(** What [set_value] should store for a parameter whose current width is [w]:
    single values form a column, several values at least a matrix. *)
Definition as_column {A} (l : list A) : arr A := mkArr 1 (map (fun a => [a]) l).
Definition stored {A} (w : nat) (x : NdArray.arg A) : option (arr A) :=
  match x with
  | NdArray.ANum a => Some (mkArr 1 [[a]])
  | NdArray.AVec l => Some (if Nat.eqb w 1 then as_column l else mkArr (List.length l) [l])
  | NdArray.AMat m =>
    if Nat.eqb w 1
    then (if orb (Nat.eqb (anrows m) 1) (Nat.eqb (acols m) 1)
          then Some (as_column (List.concat (arows m))) else None)
    else Some m
  end.

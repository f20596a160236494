(** Writing health parameters and containers as JSON text and reading them back:
    [model_dump_json] and [model_validate_json] of the pydantic classes declared in
    moirae/models (used by moirae/interface/hdf5.py lines 139-140 for the attributes
    [initial_asoh] and [initial_transient_state]).

    pydantic is modelled by its documented behaviour: an object is written field by
    field following the declared class of each field, and read field by field, with
    the before-validators of [ScalarParameter] and [ListParameter] and the validators
    of the class.  Numbers are written without loss; infinities and NaN (written as
    [null]) are not numbers here. *)
From Coq Require Import String List Arith Bool.
Import ListNotations.
From Verif Require Import Res Arr Names NdArray Container Health.
Local Open Scope string_scope.

(** A JSON document. *)
Inductive json (A : Type) : Type :=
| JNull
| JNum (a : A)
| JStr (s : string)
| JArr (l : list (json A))
| JObj (l : list (string * json A)).
Arguments JNull {A}.
Arguments JNum {A} _.
Arguments JStr {A} _.
Arguments JArr {A} _.
Arguments JObj {A} _.

(** Left-to-right evaluation of a list comprehension whose body may raise. *)
Section MapR.
  Context {X Y : Type} (f : X -> res Y).
  Fixpoint mapR (l : list X) : res (list Y) :=
    match l with
    | [] => Ok []
    | x :: t => let! y := f x in let! ys := mapR t in Ok (y :: ys)
    end.
End MapR.

(** [value.tolist()]: nested lists, one level per axis (base.py lines 42-44 and
    ecm/utils.py lines 21-23). *)
Fixpoint tolist_from {A} (shape : list nat) (d : list A) : json A :=
  match shape with
  | [] => match d with a :: _ => JNum a | [] => JNull end
  | n :: rest => JArr (map (tolist_from rest) (rows_of n (size_of rest) d))
  end.
Definition tolist {A} (x : nd A) : json A := tolist_from (nshape x) (ndata x).

(** [np.array(x)] of nested lists of numbers: all parts of a list need the same
    shape. An array made from anything else than numbers holds Python objects and is
    not modelled. *)
Definition stack_nd {A} (xs : list (nd A)) : res (nd A) :=
  match xs with
  | [] => Ok (mkNd [0] [])
  | x :: t =>
    if forallb (fun y => if list_eq_dec Nat.eq_dec (nshape y) (nshape x) then true else false) t
    then Ok (mkNd (List.length xs :: nshape x) (concat (map ndata xs)))
    else Err ValidationError
  end.
Fixpoint np_array {A} (j : json A) : res (nd A) :=
  match j with
  | JNum a => Ok (mkNd [] [a])
  | JArr l => let! xs := mapR np_array l in stack_nd xs
  | _ => Err ValidationError
  end.

(** * Objects *)

(** The value of a field: [None], an array, a number, a text, an object, or a
    tuple, list or dict of objects. *)
Inductive valueF (A O : Type) : Type :=
| VNone
| VArr (x : nd A)
| VNum (a : A)
| VText (s : string)
| VSub (o : O)
| VTuple (l : list O)
| VList (l : list O)
| VDict (d : list (string * O)).
Arguments VNone {A O}.
Arguments VArr {A O} _.
Arguments VNum {A O} _.
Arguments VText {A O} _.
Arguments VSub {A O} _.
Arguments VTuple {A O} _.
Arguments VList {A O} _.
Arguments VDict {A O} _.

(** Subclass of [GeneralContainer], of [HealthVariable], or of
    [SOCInterpolatedHealth]. *)
Inductive kind := Plain | Health | Interpolated.

(** An object: the class it was made from, its [updatable] set (for health
    variables) and its other fields in declaration order. *)
Inductive obj (A : Type) : Type :=
| Obj (name : string) (k : kind) (upd : list string) (fields : list (string * valueF A (obj A))).
Arguments Obj {A} _ _ _ _.
Definition value (A : Type) : Type := valueF A (obj A).
Definition obj_upd {A} (o : obj A) : list string := match o with Obj _ _ u _ => u end.
Definition obj_fields {A} (o : obj A) : list (string * value A) := match o with Obj _ _ _ f => f end.

(** The same object as the tree of Health.v.  An array without axes has no batch
    dimension; the classes below never hold one. *)
Definition arr_field {A H} (x : nd A) : fieldF A H :=
  match nshape x with
  | [] => FOther
  | [n] => FVal (V1 (ndata x))
  | n :: rest => FVal (V2 (mkArr (size_of rest) (rows_of n (size_of rest) (ndata x))))
  end.
Fixpoint to_hv {A} (o : obj A) : hv A :=
  match o with
  | Obj _ k upd fields =>
    HV (match k with Interpolated => true | _ => false end) upd
       (map (fun kv : string * value A =>
          (fst kv,
           match snd kv with
           | VArr x => arr_field x
           | VSub s => FSub (to_hv s)
           | VTuple l => FTuple (map to_hv l)
           | VList l => FList (map to_hv l)
           | VDict d => FDict (map (fun ks => (fst ks, to_hv (snd ks))) d)
           | VNone | VNum _ | VText _ => FOther
           end)) fields)
  end.

(** * Declarations *)

(** The declared type of a field. *)
Inductive ftypeF (C : Type) : Type :=
| TScalar                       (** [ScalarParameter] *)
| TOptScalar                    (** [Optional[ScalarParameter]] *)
| TNonneg                       (** [ScalarParameter] with [ge=0.] *)
| TList                         (** [ListParameter] *)
| TGrid                         (** [Optional[np.ndarray]] with a JSON serializer *)
| TFloat                        (** [Optional[float]] *)
| TText (choices : list string) (** [Literal[...]] *)
| TSub (c : C)
| TOptSub (c : C)
| TTuple (min : nat) (c : C)    (** [Tuple[C, ...]], with [min_length] *)
| TListOf (c : C)
| TDict (c : C).
Arguments TScalar {C}.
Arguments TOptScalar {C}.
Arguments TNonneg {C}.
Arguments TList {C}.
Arguments TGrid {C}.
Arguments TFloat {C}.
Arguments TText {C} _.
Arguments TSub {C} _.
Arguments TOptSub {C} _.
Arguments TTuple {C} _ _.
Arguments TListOf {C} _.
Arguments TDict {C} _.

(** A class: its fields (apart from [updatable]) in declaration order with their
    types and defaults, and the validators it adds to those of its base class. *)
Inductive cls (A : Type) : Type :=
| Cls (name : string) (k : kind) (fields : list (string * (ftypeF (cls A) * option (value A))))
      (check : obj A -> bool).
Arguments Cls {A} _ _ _ _.
Definition ftype (A : Type) : Type := ftypeF (cls A).

(** * Writing *)

Section Dump.
  Context {A : Type}.

  (** A value whose type is not the declared one is written by pydantic following
      its runtime type, with a warning; that is not modelled. *)
  Definition unexpected {X} : res X := Err NotImplementedErr.

  (** [model_dump_json]: the fields of the declared class [c], whatever the class of
      the object is (fields added by a subclass are not written). *)
  Fixpoint dump (c : cls A) (o : obj A) : res (json A) :=
    match c with
    | Cls _ k fields _ =>
      let! kvs := mapR (fun f : string * (ftypeF (cls A) * option (value A)) =>
        match f with
        | (key, (t, _)) =>
          let! v := of_opt AttributeError (assoc key (obj_fields o)) in
          let! j :=
            match t, v with
            | (TScalar | TOptScalar | TNonneg | TList | TGrid), VArr x => Ok (tolist x)
            | (TScalar | TOptScalar | TNonneg | TList | TGrid), VNone => Ok JNull
            | TFloat, VNum a => Ok (JNum a)
            | TFloat, VNone => Ok JNull
            | TText _, VText s => Ok (JStr s)
            | TSub c', VSub o' => dump c' o'
            | TOptSub c', VSub o' => dump c' o'
            | TOptSub c', VNone => Ok JNull
            | TTuple _ c', VTuple l => let! js := mapR (dump c') l in Ok (JArr js)
            | TListOf c', VList l => let! js := mapR (dump c') l in Ok (JArr js)
            | TDict c', VDict d =>
              let! js := mapR (fun ks : string * obj A => let! j := dump c' (snd ks) in Ok (fst ks, j)) d in
              Ok (JObj js)
            | _, _ => unexpected
            end in
          Ok (key, j)
        end) fields in
      Ok (JObj (match k with
                | Plain => kvs
                | _ => ("updatable", JArr (map JStr (obj_upd o))) :: kvs
                end))
    end.
End Dump.

(** * Reading *)

Section Load.
  Context {A : Type}.
  (** [x >= 0] for one number. *)
  Variable nonneg : A -> bool.

  (** The last entry of a JSON object with that key. *)
  Definition last_assoc {B} (k : string) (l : list (string * B)) : option B := assoc k (rev l).

  (** A [ValueError] in a validator makes a [ValidationError]. *)
  Definition validation {X} (r : res X) : res X :=
    match r with Ok x => Ok x | Err _ => Err ValidationError end.

  (** base.py lines 47-57: [np.array] and [enforce_dimensions]. *)
  Definition load_param (dim : nat) (j : json A) : res (nd A) :=
    let! x := np_array j in validation (enforce_dimensions x dim).

  (** components.py lines 157-159: [ge=0.] asks for the truth value of [x >= 0] of the
      2-D array, which is an error unless the array has one entry. *)
  Definition check_nonneg (x : nd A) : res (nd A) :=
    match ndata x with
    | [a] => if nonneg a then Ok x else Err ValidationError
    | _ => Err ValidationError
    end.

  (** [updatable: set[str] = Field(default_factory=set)], base.py line 66. *)
  Definition load_text (j : json A) : res string :=
    match j with JStr s => Ok s | _ => Err ValidationError end.
  Definition load_upd (k : kind) (kvs : list (string * json A)) : res (list string) :=
    match k with
    | Plain => Ok []
    | _ =>
      match last_assoc "updatable" kvs with
      | None => Ok []
      | Some (JArr l) => rmap (nodup string_dec) (mapR load_text l)
      | Some _ => Err ValidationError
      end
    end.

  (** base.py lines 69-72 and the validators of the class. *)
  Definition validated (k : kind) (check : obj A -> bool) (o : obj A) : res (obj A) :=
    let! _ := match k with
              | Plain => Ok tt
              | _ => let! _ := validation (check_batch_size (to_hv o)) in Ok tt
              end in
    if check o then Ok o else Err ValidationError.

  (** [model_validate_json].  Unknown keys are ignored, a missing key takes the
      default.  Everything that makes pydantic refuse the text is a
      [ValidationError].  A field declared as [Optional[np.ndarray]] (ecm/utils.py line
      16) has no validator that makes an array: pydantic checks that the value is an
      array, which nothing in a JSON document is. *)
  Fixpoint load (c : cls A) (j : json A) : res (obj A) :=
    match c with
    | Cls name k fields check =>
      match j with
      | JObj kvs =>
        let! upd := load_upd k kvs in
        let! vs := mapR (fun f : string * (ftypeF (cls A) * option (value A)) =>
          match f with
          | (key, (t, dflt)) =>
            let! v :=
              match last_assoc key kvs with
              | None => of_opt ValidationError dflt
              | Some jv =>
                match t, jv with
                | TScalar, _ => let! x := load_param 0 jv in Ok (VArr x)
                | TOptScalar, JNull => Ok VNone
                | TOptScalar, _ => let! x := load_param 0 jv in Ok (VArr x)
                | TNonneg, _ => let! x := load_param 0 jv in let! y := check_nonneg x in Ok (VArr y)
                | TList, _ => let! x := load_param 1 jv in Ok (VArr x)
                | TGrid, JNull => Ok VNone
                | TGrid, _ => Err ValidationError
                | TFloat, JNull => Ok VNone
                | TFloat, JNum a => Ok (VNum a)
                | TText choices, JStr s => if mem s choices then Ok (VText s) else Err ValidationError
                | TSub c', _ => let! o := load c' jv in Ok (VSub o)
                | TOptSub c', JNull => Ok VNone
                | TOptSub c', _ => let! o := load c' jv in Ok (VSub o)
                | TTuple m c', JArr l =>
                  let! os := mapR (load c') l in
                  if Nat.leb m (List.length os) then Ok (VTuple os) else Err ValidationError
                | TListOf c', JArr l => let! os := mapR (load c') l in Ok (VList os)
                | TDict c', JObj d =>
                  let! os := mapR (fun ks : string * json A => let! o := load c' (snd ks) in Ok (fst ks, o)) d in
                  Ok (VDict os)
                | _, _ => Err ValidationError
                end
              end in
            Ok (key, v)
          end) fields in
        validated k check (Obj name k upd vs)
      | _ => Err ValidationError
      end
    end.
End Load.

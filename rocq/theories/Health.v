(** Model of [HealthVariable] (moirae/models/base.py lines 62-425) and of the
    override in [SOCInterpolatedHealth] (moirae/models/ecm/utils.py).

    A health variable is a tree of Python objects.  The model assumes that no
    object occurs twice in the tree (TemplateHeap.v treats the shared case), so
    an object is identified by its path from the root and mutation is functional
    update at a path. *)
From Coq Require Import String List Arith Bool ZArith.
Import ListNotations.
From Verif Require Import Res Arr Names NdArray Container.
Local Open Scope string_scope.

(** The value of one pydantic field: an array, a sub-variable, a tuple, list or
    dict of sub-variables, or anything else (such as [None]). *)
Inductive fieldF (A H : Type) : Type :=
| FVal (v : vals A)
| FSub (h : H)
| FTuple (l : list H)
| FList (l : list H)
| FDict (d : list (string * H))
| FOther.
Arguments FVal {A H} _.
Arguments FSub {A H} _.
Arguments FTuple {A H} _.
Arguments FList {A H} _.
Arguments FDict {A H} _.
Arguments FOther {A H}.

(** A health variable: whether it is a [SOCInterpolatedHealth], its [updatable]
    set, and its fields in declaration order (without [updatable] itself, which
    is a set and so is skipped by every method below). *)
Inductive hv (A : Type) : Type :=
| HV (interp : bool) (upd : list string) (fields : list (string * fieldF A (hv A))).
Arguments HV {A} _ _ _.

Definition field (A : Type) : Type := fieldF A (hv A).

Definition hv_interp {A} (h : hv A) : bool := match h with HV i _ _ => i end.
Definition hv_upd {A} (h : hv A) : list string := match h with HV _ u _ => u end.
Definition hv_fields {A} (h : hv A) : list (string * field A) :=
  match h with HV _ _ fs => fs end.

(** [key in model.updatable] *)
Definition mem (k : string) (l : list string) : bool := existsb (String.eqb k) l.

(** Dictionary lookup by key. *)
Fixpoint assoc {B} (k : string) (l : list (string * B)) : option B :=
  match l with
  | [] => None
  | (k', b) :: t => if String.eqb k' k then Some b else assoc k t
  end.

(** [getattr(model, k)]; names of Python attributes that are not fields are not
    modelled (AttributeError). *)
Definition get_field {A} (h : hv A) (k : string) : option (field A) := assoc k (hv_fields h).

(** f'{a}.{b}' *)
Definition dotted (a b : string) : string := a ++ "." ++ b.

Section FlatMapI.
  Context {X Y : Type} (f : nat -> X -> list Y).
  Fixpoint flat_mapi (i : nat) (l : list X) : list Y :=
    match l with [] => [] | x :: t => (f i x ++ flat_mapi (S i) t)%list end.
End FlatMapI.

(** The override in ecm/utils.py lines 24-27: [soc_pinpoints] is not listed. *)
Definition listed (interp : bool) (nm : string) : bool :=
  negb (andb interp (String.eqb nm "soc_pinpoints")).

(** base.py lines 295-329, [iter_parameters(updatable_only, recurse)]. *)
Fixpoint iter_parameters {A} (updatable_only recurse : bool) (h : hv A)
  : list (string * vals A) :=
  match h with
  | HV interp upd fields =>
    filter (fun nv => listed interp (fst nv))
      (flat_map (fun kf : string * field A =>
         let key := fst kf in
         if andb updatable_only (negb (mem key upd)) then [] else
         match snd kf with
         | FVal v => [(key, v)]
         | FSub s =>
           if recurse then
             map (fun nv => (dotted key (fst nv), snd nv))
                 (iter_parameters updatable_only recurse s)
           else []
         | FTuple l | FList l =>
           if recurse then
             flat_mapi (fun i s =>
               map (fun nv => (dotted key (dotted (nat_str i) (fst nv)), snd nv))
                   (iter_parameters updatable_only recurse s)) 0 l
           else []
         | FDict d =>
           if recurse then
             flat_map (fun ks =>
               map (fun nv => (dotted key (dotted (fst ks) (fst nv)), snd nv))
                   (iter_parameters updatable_only recurse (snd ks))) d
           else []
         | FOther => []
         end) fields)
  end.

(** base.py lines 94-97 and 99-102. *)
Definition updatable_names {A} (h : hv A) : list string :=
  map fst (iter_parameters true true h).
Definition hv_all_names {A} (h : hv A) : list string :=
  map fst (iter_parameters false true h).

(** [x.shape[0]] and [x.shape[-1]]. *)
Definition shape0 {A} (v : vals A) : nat :=
  match v with V1 l => List.length l | V2 m => anrows m end.
Definition shape_last {A} (v : vals A) : nat :=
  match v with V1 l => List.length l | V2 m => acols m end.

(** base.py lines 89-92, [num_updatable]. *)
Definition num_updatable {A} (h : hv A) : nat :=
  list_sum (map (fun nv => shape_last (snd nv)) (iter_parameters true true h)).

(** base.py lines 74-87, [batch_size]: the loop is the one of Container.v. *)
Definition hv_batch_size {A} (h : hv A) : res nat :=
  batch_loop 1 (map (fun nv => shape0 (snd nv)) (iter_parameters false true h)).

(** base.py lines 69-72, [check_batch_size], run by the constructor. *)
Definition check_batch_size {A} (h : hv A) : res (hv A) :=
  let! b := hv_batch_size h in
  if Nat.ltb 0 b then Ok h else Err AssertionError.

(** * References into the tree *)

(** One step from an object to a sub-object: attribute, entry of a tuple or list
    attribute, entry of a dict attribute. *)
Inductive step : Type :=
| SAttr (k : string)
| SIdx (k : string) (i : nat)
| SKey (k key : string).

Definition ref : Type := list step.

Definition child {A} (h : hv A) (s : step) : option (hv A) :=
  match s with
  | SAttr k => match get_field h k with Some (FSub x) => Some x | _ => None end
  | SIdx k i => match get_field h k with
                | Some (FTuple l) | Some (FList l) => nth_error l i
                | _ => None
                end
  | SKey k key => match get_field h k with Some (FDict d) => assoc key d | _ => None end
  end.

Fixpoint deref {A} (h : hv A) (r : ref) : option (hv A) :=
  match r with
  | [] => Some h
  | s :: t => match child h s with Some x => deref x t | None => None end
  end.

Fixpoint update_assoc {B} (k : string) (f : B -> B) (l : list (string * B))
  : list (string * B) :=
  match l with
  | [] => []
  | (k', b) :: t => if String.eqb k' k then (k', f b) :: t else (k', b) :: update_assoc k f t
  end.

Fixpoint update_nth {B} (i : nat) (f : B -> B) (l : list B) : list B :=
  match l, i with
  | [], _ => []
  | x :: t, O => f x :: t
  | x :: t, S j => x :: update_nth j f t
  end.

Definition upd_field {A} (k : string) (f : field A -> field A) (h : hv A) : hv A :=
  match h with HV i u fs => HV i u (update_assoc k f fs) end.

Definition upd_child {A} (s : step) (f : hv A -> hv A) (h : hv A) : hv A :=
  match s with
  | SAttr k => upd_field k (fun x => match x with FSub y => FSub (f y) | o => o end) h
  | SIdx k i => upd_field k (fun x => match x with
                                      | FTuple l => FTuple (update_nth i f l)
                                      | FList l => FList (update_nth i f l)
                                      | o => o end) h
  | SKey k key => upd_field k (fun x => match x with
                                        | FDict d => FDict (update_assoc key f d)
                                        | o => o end) h
  end.

(** Mutation of the object at reference [r]. *)
Fixpoint update_at {A} (r : ref) (f : hv A -> hv A) (h : hv A) : hv A :=
  match r with
  | [] => f h
  | s :: t => upd_child s (update_at t f) h
  end.

(** [setattr(model, k, v)] *)
Definition set_field {A} (k : string) (v : field A) (h : hv A) : hv A :=
  upd_field k (fun _ => v) h.

(** [model.updatable.add(k)] *)
Definition add_upd {A} (k : string) (h : hv A) : hv A :=
  match h with HV i u fs => HV i (if mem k u then u else k :: u) fs end.

(** * Name resolution *)

(** The index of [next_inst[int(my_ind)]] as a position in the tuple. *)
Definition tuple_position {B} (l : list B) (tok : string) : res nat :=
  match parse_int tok with
  | None => Err ValueError
  | Some z =>
    let p := if (z <? 0)%Z then (Z.of_nat (List.length l) + z)%Z else z in
    if andb (0 <=? p)%Z (p <? Z.of_nat (List.length l))%Z
    then Ok (Z.to_nat p) else Err IndexError
  end.

(** base.py lines 231-273, [_get_model_chain], on the pieces of
    [name.split('.')]: taking the text before the first dot is taking the first
    piece.  [h] is the object reached by reference [here]; the result pairs the
    attribute names with references to the objects holding them. *)
Fixpoint model_chain {A} (toks : list string) (h : hv A) (here : ref)
  : res (list (string * ref)) :=
  match toks with
  | [] => Err ValueError (* split never returns an empty list *)
  | [name] => Ok [(name, here)]
  | my_name :: ((tok :: rest') as rest) =>
    match get_field h my_name with
    | None => Err AttributeError
    | Some (FSub x) =>
      let! c := model_chain rest x (here ++ [SAttr my_name])%list in
      Ok ((my_name, here) :: c)
    | Some (FTuple l) =>
      match rest' with
      | [] => Err ValueError (* not enough values to unpack *)
      | _ =>
        let! i := tuple_position l tok in
        match nth_error l i with
        | None => Err IndexError
        | Some x =>
          let! c := model_chain rest' x (here ++ [SIdx my_name i])%list in
          Ok ((my_name, here) :: c)
        end
      end
    | Some (FDict d) =>
      match rest' with
      | [] => Err ValueError
      | _ =>
        match assoc tok d with
        | None => Err KeyError
        | Some x =>
          let! c := model_chain rest' x (here ++ [SKey my_name tok])%list in
          Ok ((my_name, here) :: c)
        end
      end
    | Some _ => Err ValueError
    end
  end.

Definition get_model_chain {A} (h : hv A) (name : string) : res (list (string * ref)) :=
  model_chain (split_dot name) h [].

(** [my_names[-1], models[-1]] *)
Definition last_of (c : list (string * ref)) : string * ref := last c ("", []).

(** [getattr(models[-1], my_names[-1])] *)
Definition getattr_at {A} (h : hv A) (nr : string * ref) : res (field A) :=
  match deref h (snd nr) with
  | None => Err AttributeError
  | Some m => of_opt AttributeError (get_field m (fst nr))
  end.

(** * Marking *)

(** [isinstance(field, _allowed_field_types)], base.py lines 183 and 190. *)
Definition markable {A} (f : field A) : bool :=
  match f with FOther => false | _ => true end.

Definition add_name (k : string) (u : list string) : list string :=
  if mem k u then u else k :: u.

Definition mark_fields {A} (upd : list string) (fields : list (string * field A)) : list string :=
  fold_left (fun u kf => if markable (snd kf) then add_name (fst kf) u else u) fields upd.

Definition map_field {A H H'} (f : H -> H') (x : fieldF A H) : fieldF A H' :=
  match x with
  | FVal v => FVal v
  | FSub h => FSub (f h)
  | FTuple l => FTuple (map f l)
  | FList l => FList (map f l)
  | FDict d => FDict (map (fun ks => (fst ks, f (snd ks))) d)
  | FOther => FOther
  end.

(** base.py lines 177-191 with [recurse=True]; [_iter_over_submodels] (lines
    216-229) visits every sub-variable below sub-variables, lists, tuples and
    dicts, so the loop is a map over the tree. *)
Fixpoint mark_all_updatable {A} (h : hv A) : hv A :=
  match h with
  | HV i u fs =>
    HV i (mark_fields u fs)
       (map (fun kf => (fst kf, map_field mark_all_updatable (snd kf))) fs)
  end.

(** base.py lines 177-191 with [recurse=False]. *)
Definition mark_own_updatable {A} (h : hv A) : hv A :=
  match h with HV i u fs => HV i (mark_fields u fs) fs end.

(** base.py lines 193-202 with [recurse=True] and [recurse=False]. *)
Fixpoint mark_all_fixed {A} (h : hv A) : hv A :=
  match h with
  | HV i u fs =>
    HV i [] (map (fun kf => (fst kf, map_field mark_all_fixed (snd kf))) fs)
  end.

Definition mark_own_fixed {A} (h : hv A) : hv A :=
  match h with HV i u fs => HV i [] fs end.

(** base.py lines 204-214, [mark_updatable]. *)
Definition mark_updatable {A} (h : hv A) (name : string) : res (hv A) :=
  let! c := get_model_chain h name in
  Ok (fold_left (fun h nr => update_at (snd nr) (add_upd (fst nr)) h) c h).

(** * Reading *)

(** base.py lines 352-360: one pass of the loop of [get_parameters].  Objects
    that are not arrays have no [shape] (AttributeError when batched) and cannot
    be concatenated (ValueError, represented by a vector). *)
Definition read_one {A} (h : hv A) (batch : nat) (name : string) : res (vals A) :=
  let! c := get_model_chain h name in
  let! f := getattr_at h (last_of c) in
  match f with
  | FVal (V2 m) => Ok (V2 (expand_batch batch m))
  | FVal (V1 l) => Ok (V1 l)
  | _ => if Nat.ltb 1 batch then Err AttributeError else Ok (V1 [])
  end.

(** [np.concatenate(output, axis=1)]: every entry has to be 2-D. *)
Definition concat_vals {A} (l : list (vals A)) : res (arr A) :=
  let! ms := mapM (fun v => match v with V2 m => Ok m | V1 _ => Err ValueError end) l in
  hconcat ms.

(** base.py lines 331-361, [get_parameters(names)]. *)
Definition get_parameters {A} (h : hv A) (names : list string) : res (arr A) :=
  match names with
  | [] => let! b := hv_batch_size h in Ok (mkArr 0 (repeat [] b))
  | _ =>
    let! b := hv_batch_size h in
    let! out := mapM (read_one h b) names in
    concat_vals out
  end.

(** [names=None]. *)
Definition get_updatable_parameters {A} (h : hv A) : res (arr A) :=
  get_parameters h (updatable_names h).

(** * Updating *)

(** [np.size(cur_value)] for the kinds of objects that can be stored. *)
Definition np_size {A} (f : field A) : nat :=
  match f with
  | FVal (V1 l) => List.length l
  | FVal (V2 m) => anrows m * acols m
  | FSub _ => 1
  | FTuple l | FList l => List.length l
  | FDict _ => 1
  | FOther => 1
  end.

(** base.py lines 388-393: every name along the chain has to be updatable. *)
Fixpoint check_flags {A} (h : hv A) (c : list (string * ref)) : res unit :=
  match c with
  | [] => Ok tt
  | (n, r) :: t =>
    match deref h r with
    | None => Err AttributeError
    | Some m => if mem n (hv_upd m) then check_flags h t else Err ValueError
    end
  end.

(** base.py lines 383-408: the loop of [update_parameters].  The object is
    mutated as the loop proceeds, so the result is the object afterwards
    together with the outcome (the number of used columns, or an exception). *)
Fixpoint update_loop {A} (h : hv A) (values : arr A) (pos : nat) (names : list string)
  : hv A * res nat :=
  match names with
  | [] => (h, Ok pos)
  | name :: t =>
    match
      (let! c := get_model_chain h name in
       let! _ := check_flags h c in
       let! cur := getattr_at h (last_of c) in
       Ok (last_of c, np_size cur))
    with
    | Err e => (h, Err e)
    | Ok ((attr, model), num_params) =>
      let end_ := pos + num_params in
      if Nat.ltb (acols values) end_ then (h, Err ValueError)
      else
        update_loop (update_at model
                       (set_field attr (FVal (V2 (slice_cols pos end_ values)))) h)
                    values end_ t
    end
  end.

(** base.py lines 363-412, [update_parameters(values, names)]. *)
Definition update_parameters {A} (h : hv A) (values : vals A) (names : list string)
  : hv A * res unit :=
  let values := as2d values in
  match update_loop h values 0 names with
  | (h', Err e) => (h', Err e)
  | (h', Ok e) => (h', if Nat.eqb e (acols values) then Ok tt else Err ValueError)
  end.

(** base.py lines 414-425, [make_copy]: the original next to the outcome. *)
Definition hv_make_copy {A} (h : hv A) (values : vals A) (names : list string)
  : hv A * res (hv A) :=
  match update_parameters h values names with
  | (h', Ok _) => (h, Ok h')
  | (_, Err e) => (h, Err e)
  end.

(** base.py lines 275-293, [set_value].  Arguments with more than two axes are
    not modelled. *)
Definition set_value {A} (h : hv A) (name : string) (x : arg A) : res (hv A) :=
  let! c := get_model_chain h name in
  let! cur := getattr_at h (last_of c) in
  match cur with
  | FVal v =>
    let dim := if Nat.eqb (shape_last v) 1 then 0 else 1 in
    let! y := enforce_dimensions (arg_nd x) dim in
    let! m := of_opt ValueError (nd_arr y) in
    Ok (update_at (snd (last_of c)) (set_field (fst (last_of c)) (FVal (V2 m))) h)
  | _ => Err AttributeError
  end.

(** * Expanding names *)

Definition sub_expander : Type :=
  (list string * (list string -> res (list string)))%type.

(** base.py lines 133-174: one name, given what each field expands to.  For a
    sub-variable that is its [all_names] and its own [expand_names]. *)
Definition expand_one {A} (fields : list (string * fieldF A sub_expander)) (name : string)
  : res (list string) :=
  match split_dot name with
  | [] => Err AttributeError
  | hd :: rest =>
    match assoc hd fields with
    | None => Err AttributeError
    | Some (FVal (V2 m)) => Ok (names_of_field name m)
    | Some (FVal (V1 _)) => Err IndexError
    | Some (FSub (sub_all, sub_expand)) =>
      let! subs := match rest with
                   | [] => sub_expand sub_all
                   | _ => sub_expand [String.concat "." rest]
                   end in
      Ok (map (dotted hd) subs)
    | Some (FTuple l) =>
      match rest with
      | [] =>
        let! subs := mapM (fun ise : nat * sub_expander =>
                       let! ns := snd (snd ise) (fst (snd ise)) in
                       Ok (map (dotted (nat_str (fst ise))) ns))
                     (combine (seq 0 (List.length l)) l) in
        Ok (map (dotted hd) (List.concat subs))
      | index :: rest' =>
        let! i := tuple_position l index in
        let! s := of_opt IndexError (nth_error l i) in
        let! ns := match rest' with
                   | [] => snd s (fst s)
                   | _ => snd s [String.concat "." rest']
                   end in
        Ok (map (dotted hd) (map (dotted index) ns))
      end
    | Some (FDict d) =>
      match rest with
      | [] =>
        let! subs := mapM (fun kse : string * sub_expander =>
                       let! ns := snd (snd kse) (fst (snd kse)) in
                       Ok (map (dotted (fst kse)) ns)) d in
        Ok (map (dotted hd) (List.concat subs))
      | index :: rest' =>
        let! s := of_opt KeyError (assoc index d) in
        let! ns := match rest' with
                   | [] => snd s (fst s)
                   | _ => snd s [String.concat "." rest']
                   end in
        Ok (map (dotted hd) (map (dotted index) ns))
      end
    | Some (FList _) | Some FOther => Err NotImplementedErr
    end
  end.

(** base.py lines 104-175, [expand_names]. *)
Fixpoint hv_expand_names {A} (h : hv A) (names : list string) : res (list string) :=
  match h with
  | HV _ _ fs =>
    let fields := map (fun kf : string * field A =>
                    (fst kf, map_field (fun s => (hv_all_names s, hv_expand_names s)) (snd kf))) fs in
    let! out := mapM (expand_one fields) names in
    Ok (List.concat out)
  end.

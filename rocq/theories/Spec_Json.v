(** What it means to be an object that a class describes, for Properties_Json.v. *)
From Coq Require Import String List Arith Bool.
Import ListNotations.
From Verif Require Import Res Arr NdArray Container Health Json.

Section Spec.
  Context {A : Type}.
  Variable nonneg : A -> bool.

  (** The object has a batch size (Health.v): all batched parts have the same. *)
  Definition one_batch_size (o : obj A) : Prop := exists b, hv_batch_size (to_hv o) = Ok b /\ 0 < b.

  (** [instance c o]: [o] was made from the class [c] itself, not from a subclass, and
      so was every object in it; scalars are columns, lists have at least one row, SOC
      grids have not been set, and the validators of the class accept the object.
      [fits t v]: the value v is of the declared type t in this sense. *)
  Inductive instance : cls A -> obj A -> Prop :=
  | instance_of : forall name k fields check upd vs,
      NoDup (map fst fields) -> ~ In "updatable"%string (map fst fields) ->
      NoDup upd -> (k = Plain -> upd = []) ->
      Forall2 (fun f kv => fst f = fst kv /\ fits (fst (snd f)) (snd kv)) fields vs ->
      (k <> Plain -> one_batch_size (Obj name k upd vs)) ->
      check (Obj name k upd vs) = true ->
      instance (Cls name k fields check) (Obj name k upd vs)
  with fits : ftype A -> value A -> Prop :=
  | fits_scalar : forall b d, List.length d = b -> fits TScalar (VArr (mkNd [b; 1] d))
  | fits_opt_scalar : forall b d, List.length d = b -> fits TOptScalar (VArr (mkNd [b; 1] d))
  | fits_no_scalar : fits TOptScalar VNone
  | fits_nonneg : forall a, nonneg a = true -> fits TNonneg (VArr (mkNd [1; 1] [a]))
  | fits_list : forall b n d, 0 < b -> List.length d = b * n -> fits TList (VArr (mkNd [b; n] d))
  | fits_no_grid : fits TGrid VNone
  | fits_float : forall a, fits TFloat (VNum a)
  | fits_no_float : fits TFloat VNone
  | fits_text : forall s choices, In s choices -> fits (TText choices) (VText s)
  | fits_sub : forall c o, instance c o -> fits (TSub c) (VSub o)
  | fits_opt_sub : forall c o, instance c o -> fits (TOptSub c) (VSub o)
  | fits_no_sub : forall c, fits (TOptSub c) VNone
  | fits_tuple : forall m c l, m <= List.length l -> Forall (instance c) l -> fits (TTuple m c) (VTuple l)
  | fits_list_of : forall c l, Forall (instance c) l -> fits (TListOf c) (VList l)
  | fits_dict : forall c d, Forall (fun ks => instance c (snd ks)) d -> fits (TDict c) (VDict d).

  (** [unreadable c o]: somewhere in the object an SOC grid is set, or a parameter
      declared non-negative is not one non-negative number. *)
  Inductive unreadable : cls A -> obj A -> Prop :=
  | unreadable_in : forall name k fields check name' k' upd vs key t d v,
      NoDup (map fst fields) ->
      In (key, (t, d)) fields -> assoc key vs = Some v -> unreadable_value t v ->
      unreadable (Cls name k fields check) (Obj name' k' upd vs)
  with unreadable_value : ftype A -> value A -> Prop :=
  | unreadable_grid : forall x, wf_nd x -> unreadable_value TGrid (VArr x)
  | unreadable_nonneg : forall b d, List.length d = b ->
      (forall a, d = [a] -> nonneg a = false) -> unreadable_value TNonneg (VArr (mkNd [b; 1] d))
  | unreadable_sub : forall c o, unreadable c o -> unreadable_value (TSub c) (VSub o)
  | unreadable_opt_sub : forall c o, unreadable c o -> unreadable_value (TOptSub c) (VSub o)
  | unreadable_tuple : forall m c l, Exists (unreadable c) l -> unreadable_value (TTuple m c) (VTuple l)
  | unreadable_list : forall c l, Exists (unreadable c) l -> unreadable_value (TListOf c) (VList l)
  | unreadable_dict : forall c d, Exists (fun ks => unreadable c (snd ks)) d -> unreadable_value (TDict c) (VDict d).
End Spec.

(** [describes j shape d]: the nested lists of numbers j describe the array with this shape
    and the entries d in row-major order. *)
Inductive describes {A} : json A -> list nat -> list A -> Prop :=
| describes_number : forall a, describes (JNum a) [] [a]
| describes_nothing : describes (JArr []) [0] []
| describes_rows : forall l shape ds, l <> [] -> Forall2 (fun j d => describes j shape d) l ds ->
    describes (JArr l) (List.length l :: shape) (concat ds).

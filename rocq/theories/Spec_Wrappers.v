(** Vocabulary for the properties of model wrappers. *)
From Coq Require Import String List Arith.
Import ListNotations.
From Verif Require Import Res Arr Container Spec_Container Health Spec_Health Simulator Wrappers.

Section Spec.
Variable A : Type.

(** Names, presence and widths of the fields of a container. *)
Definition layout (c : container A) : list (string * option nat) :=
  map (fun kf => (fst kf, option_map acols (snd kf))) c.

(** A wrapper around unbatched, well-formed values, whose selected health
    parameters are different from each other and can be updated. *)
Record ready (w : wrapper A) : Prop := Ready {
  ready_tree : well_formed_tree (w_asoh A w);
  ready_asoh : unbatched (w_asoh A w);
  ready_names : NoDup (asoh_inputs A w);
  ready_flags : Forall (may_update (w_asoh A w)) (asoh_inputs A w);
  ready_transients : well_formed (w_transients A w) /\ nonempty (w_transients A w);
  ready_width : num_transients A w = width (w_transients A w);
  ready_num : exists ms, Forall2 (holds (w_asoh A w)) (asoh_inputs A w) ms /\
                         num_asoh A w = list_sum (map acols ms) }.

(** An array with n columns and at least one row. *)
Definition batch_of (n : nat) (x : arr A) : Prop := wf_arr x /\ 1 <= anrows x /\ acols x = n.

(** Converting there and back: every batch can be converted, row by row, and the
    other direction undoes it. *)
Definition there_and_back (n : nat) (f g : arr A -> res (arr A)) : Prop :=
  forall x, batch_of n x -> exists y, f x = Ok y /\ batch_of n y /\ anrows y = anrows x /\ g y = Ok x.
Definition lossless (n : nat) (op : operator A) : Prop :=
  there_and_back n (op_samples A op) (op_inverse_samples A op) /\
  there_and_back n (op_inverse_samples A op) (op_samples A op).

(** Evaluating the cell model changes no parameter of the health variable (it may
    store grids that are not parameters). *)
Definition keeps (a a' : hv A) : Prop :=
  (well_formed_tree a -> well_formed_tree a') /\
  forall uo, iter_parameters uo true a' = iter_parameters uo true a.
Definition only_reads (M : cell_model (container A) (container A) (hv A) (container A)) : Prop :=
  (forall p n t a, keeps a (fst (cm_update M p n t a))) /\
  (forall u t a, keeps a (fst (cm_voltage M u t a))).
End Spec.

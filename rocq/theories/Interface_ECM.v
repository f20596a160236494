(** The estimators of the library as they are seen by [run_online_estimate]:
    moirae/interface/__init__.py lines 101-150 together with
    moirae/estimators/online/__init__.py lines 27-77, joint.py lines 43-70 and dual.py
    lines 89-133. *)
From Coq Require Import String List.
Import ListNotations.
From Verif Require Import Res Arr Container Health Simulator Distributions Wrappers Estimators HDF5 Interface.
Local Open Scope string_scope.
Local Open Scope list_scope.

Section Estimators.
Variable A : Type.
Variable zero : A.
(** The name of the class of the cell model, which the writer stores. *)
Variable cell_name : string.

(** Names that could not be read would raise; there are none then. *)
Definition names_or_none (r : res (list string)) : list string := match r with Ok l => l | Err _ => [] end.

(** online/__init__.py lines 40-42 and 74-77: the names of the outputs of the model in
    the constructor. *)
Definition names_of_outputs (M : cell_model (container A) (container A) (hv A) (container A)) (u t : container A) (a : hv A) : list string :=
  names_or_none (let! y := snd (cm_voltage M u t a) in all_names y).

(** joint.py lines 43-45 and 53-70.  The names of the outputs are evaluated with the health
    variable of the wrapper, which is the one the constructor uses (lines 28-41). *)
Definition joint_online (F : Type) (K : filter A F) : online A (joint A F) :=
  Online A (joint A F)
    (fun e => let b := j_base A F e in let w := j_wrapper A F e in
       Described A (names_or_none (state_names A b)) (names_of_outputs (cell_of A w) (b_inputs A b) (b_transients A b) (w_asoh A w))
         "JointEstimator" (Ok (joint_state A F K e)) cell_name (b_asoh A b) (b_transients A b) (b_num_outputs A b))
    (joint_step A F K).

(** dual.py lines 89-93 and 104-133; line 47 evaluates the outputs with the health variable of
    the wrapper of the parameters. *)
Definition dual_online (FT FA : Type) (KT : filter A FT) (KA : filter A FA) : online A (dual A FT FA) :=
  Online A (dual A FT FA)
    (fun e => let b := d_base A FT FA e in
       Described A (names_or_none (state_names A b))
         (names_of_outputs (cell_of A (d_cell A FT FA e)) (b_inputs A b) (b_transients A b) (w_asoh A (d_asoh A FT FA e)))
         "DualEstimator" (dual_state A zero FT FA KT KA e) cell_name (b_asoh A b) (b_transients A b) (b_num_outputs A b))
    (dual_step A zero FT FA KT KA).
End Estimators.

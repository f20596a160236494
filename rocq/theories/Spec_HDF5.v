(** What a file of estimates should hold. *)
From Coq Require Import String List Arith Bool.
Import ListNotations.
From Verif Require Import Res Arr NdArray Distributions Spec_Distributions Estimators HDF5.
Local Open Scope list_scope.

Section Spec.
Variable A : Type.
Variable zero nan : A.
Variable is_nan : A -> bool.

(** One step handed to the writer. *)
Record step : Type := Step { s_time : A; s_cycle : nat; s_state : rv A; s_output : rv A }.

(** Appending steps one after the other until one raises. *)
Fixpoint append_all (s : system A) (l : list step) : system A * res unit :=
  match l with
  | [] => (s, Ok tt)
  | x :: l' =>
    let (s, r) := append_step A zero nan is_nan s (s_time x) (s_cycle x) (s_state x) (s_output x) in
    match r with Err e => (s, Err e) | Ok _ => append_all s l' end
  end.

(** A random vector with one or more coordinates. *)
Definition proper (x : rv A) : Prop :=
  match x with RGauss _ d => exists n, valid n d | RDelta _ mu => mu <> [] end.
Definition is_gauss (x : rv A) : bool := match x with RGauss _ _ => true | RDelta _ _ => false end.

(** A matrix with all entries off the diagonal replaced by zero. *)
Definition only_diagonal (m : arr A) : arr A :=
  mkArr (acols m)
    (map (fun i => map (fun j => if Nat.eqb i j then at_ zero m i j else zero) (seq 0 (acols m))) (seq 0 (acols m))).

(** What is left of a random vector once stored. *)
Definition recorded (what : out_type) (x : rv A) : rv A :=
  match what with
  | OFull => x
  | OMeanCov => RGauss A (Dist (mean_of A x) (cov_of A zero x))
  | OMeanVar => RGauss A (Dist (mean_of A x) (only_diagonal (cov_of A zero x)))
  | OMean | ONone => RDelta A (mean_of A x)
  end.
Definition record_of (what : out_type) (x : step) : A * rv A * rv A :=
  (s_time x, recorded what (s_state x), recorded what (s_output x)).

(** Steps that can be stored without loss: their times are numbers, their
    distributions have coordinates, and, if everything is stored, they are all
    Gaussian, like the estimator's. *)
Definition storable (what : out_type) (x : step) : Prop :=
  is_nan (s_time x) = false /\ proper (s_state x) /\ proper (s_output x) /\
  (what = OFull -> is_gauss (s_state x) = true /\ is_gauss (s_output x) = true).

(** The first step of a cycle. *)
Definition first_of_cycle (l : list step) (c : nat) : option step := find (fun x => Nat.eqb (s_cycle x) c) l.

(** Row i of one of the stored arrays, as any HDF5 program sees it. *)
Definition raw (st : store A) (p : place) (key : string) (i : nat) : option (nd A) :=
  match get_group A st p with
  | None => None
  | Some g => match column A g key with None => None | Some ds => nth_error (ds_rows A ds) i end
  end.
(** Number of rows. *)
Definition raw_size (st : store A) (p : place) (key : string) : option nat :=
  match get_group A st p with
  | None => None
  | Some g => option_map (fun ds => List.length (ds_rows A ds)) (column A g key)
  end.

(** A random vector with n coordinates. *)
Definition has_dim (n : nat) (x : rv A) : Prop := List.length (mean_of A x) = n.

(** * Uses of a writer *)
Inductive call : Type :=
| CEnter | CExit
| CPrepare (e : described A) (expected_steps expected_cycles : option nat)
| CAppend (x : step).
Definition perform (s : system A) (c : call) : system A * res unit :=
  match c with
  | CEnter => (enter A s, Ok tt)
  | CExit => (exit A s, Ok tt)
  | CPrepare e a b => prepare A zero nan s e a b
  | CAppend x => append_step A zero nan is_nan s (s_time x) (s_cycle x) (s_state x) (s_output x)
  end.
(** Calls whose exceptions are caught by the user. *)
Fixpoint perform_all (s : system A) (l : list call) : system A :=
  match l with [] => s | c :: l' => perform_all (fst (perform s c)) l' end.
(** Whether the last of the entries and exits is an entry. *)
Fixpoint opened (before : bool) (l : list call) : bool :=
  match l with
  | [] => before
  | CEnter :: l' => opened true l'
  | CExit :: l' => opened false l'
  | _ :: l' => opened before l'
  end.
End Spec.
Arguments Step {A} _ _ _ _.
Arguments s_time {A} _.
Arguments s_cycle {A} _.
Arguments s_state {A} _.
Arguments s_output {A} _.

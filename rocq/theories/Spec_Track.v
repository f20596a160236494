(** Where the truth lies relative to an estimate: distances measured in standard
    deviations, and the data that a system with disturbances produces. *)
From mathcomp Require Import all_ssreflect all_algebra.
From Verif Require Import Res Cholesky UKF Spec_UKF.
Set Implicit Arguments.
Unset Strict Implicit.
Unset Printing Implicit Defensive.
Import GRing.Theory Num.Theory.
Local Open Scope ring_scope.

Section Spec.
Variable R : rcfType.
Variables (U : Type) (n p : nat).

(** The squared distance of an error from zero, in standard deviations of a distribution
    with covariance P: e P^-1 e^T. *)
Definition distance m (P : 'M[R]_m) (e : 'rV[R]_m) : R := (e *m invmx P *m e^T) 0 0.

(** A system that evolves states by [g] and has the outputs [h].  A scenario lists, for
    every step, the controls, a disturbance of the state and an error of the measurement. *)
Variables (g : U -> U -> 'rV[R]_n -> 'rV[R]_n) (h : U -> 'rV[R]_n -> 'rV[R]_p).
Notation scenario := (seq (U * ('rV[R]_n * 'rV[R]_p))).

(** The state at the end. *)
Fixpoint final_state (u0 : U) (x : 'rV[R]_n) (l : scenario) : 'rV[R]_n :=
  match l with
  | [::] => x
  | (u, (w, _)) :: rest => final_state u (g u0 u x + w) rest
  end.
(** What is recorded: controls and measured outputs. *)
Fixpoint recorded (u0 : U) (x : 'rV[R]_n) (l : scenario) : seq (U * 'rV[R]_p) :=
  match l with
  | [::] => [::]
  | (u, (w, v)) :: rest => let x' := g u0 u x + w in (u, h u x' + v) :: recorded u x' rest
  end.
(** How far disturbances and errors deviate, all together, from zero. *)
Fixpoint noise (Q : 'M[R]_n) (V : 'M[R]_p) (l : scenario) : R :=
  match l with
  | [::] => 0
  | (_, (w, v)) :: rest => distance Q w + distance V v + noise Q V rest
  end.
End Spec.

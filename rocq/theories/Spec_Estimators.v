(** Vocabulary for the properties of online estimators. *)
From Coq Require Import List Arith.
Import ListNotations.
From Verif Require Import Res Arr Container Health Spec_Health Simulator Distributions Spec_Distributions
  Wrappers Spec_Wrappers Estimators.

Section Spec.
Variable A : Type.

(** A filter that returns its new hidden state as the estimate, as the unscented
    Kalman filter does. *)
Definition returns_hidden {F} (K : filter A F) : Prop :=
  forall w f u y a f' h p, f_step A F K w f u y = (a, f', Ok (h, p)) -> h = f_hidden A F K f'.

(** A filter whose steps change no parameter of the wrapper's health variable. *)
Definition keeps_health {F} (K : filter A F) : Prop :=
  forall w f u y, keeps A (w_asoh A w) (fst (fst (f_step A F K w f u y))).

(** A distribution with consistent dimensions. *)
Definition consistent (x : rv A) : Prop :=
  match x with RGauss _ d => exists n, valid n d | RDelta _ _ => True end.

(** The only row of a batch of one vector. *)
Definition row (v : list A) : arr A := mkArr (length v) [v].
End Spec.

(** What the interface to the Thevenin package should do. *)
From Coq Require Import String List Arith Bool Reals.
Import ListNotations.
From Verif Require Import Res Arr Container Spec_Container Thevenin.
Local Open Scope list_scope.

(** c_0 + c_1 x + c_2 x^2 + ... *)
Definition polynomial (c : list R) (x : R) : R :=
  fold_right Rplus 0%R (map (fun k => nth k c 0 * x ^ k)%R (seq 0 (List.length c))).

(** The entry of member b; arrays with one row are shared (nothing there: 0). *)
Definition value_of (b : nat) (m : arr R) : R := nth 0 (member b m) 0%R.

(** Member b of everything, on its own; rows are used again if there are too few. *)
Definition one_member (b : nat) (m : arr R) : arr R := mkArr (acols m) [nth (b mod anrows m) (arows m) []].
Definition one_tpoly (b : nat) (v : tpoly) : tpoly :=
  TPoly (one_member b (t_ref v)) (one_member b (soc_coeffs v)) (one_member b (t_coeffs v)).
Definition one_asoh (b : nat) (a : asoh) : asoh :=
  Asoh (one_member b (capacity a)) (one_member b (mass a)) (one_member b (c_p a)) (one_member b (h_thermal a))
       (one_member b (a_therm a)) (one_member b (ocv a)) (map (one_tpoly b) (rs a)) (map (one_tpoly b) (cs a)).
Definition one_transient (b : nat) (t : transient) : transient :=
  Transient (one_member b (soc t)) (one_member b (temp t)) (one_member b (eta t)).
Definition one_inputs (b : nat) (u : inputs) : inputs :=
  Inputs (one_member b (time u)) (one_member b (current u)) (one_member b (t_inf u)).

(** Genuine arrays with at least one row; scalars have one column. *)
Definition proper (m : arr R) : Prop := wf_arr m /\ 1 <= anrows m.
Definition proper_inputs (u : inputs) : Prop :=
  proper (time u) /\ proper (current u) /\ proper (t_inf u) /\
  acols (time u) = 1 /\ acols (current u) = 1 /\ acols (t_inf u) = 1.
Definition proper_transient (t : transient) : Prop :=
  proper (soc t) /\ proper (temp t) /\ proper (eta t) /\ acols (soc t) = 1 /\ acols (temp t) = 1.
Definition proper_asoh (a : asoh) : Prop := Forall proper (asoh_arrays a).
(** Number of members: all arrays have one row or this many. *)
Definition agree_on (B : nat) (l : list (arr R)) : Prop := Forall (fun m => anrows m = 1 \/ anrows m = B) l.
Definition all_arrays (new : inputs) (t : transient) (a : asoh) : list (arr R) :=
  [soc t; temp t; eta t] ++ asoh_arrays a ++ [time new; current new; t_inf new].

(** Number of members of everything together. *)
Definition most_rows (l : list (arr R)) : nat := list_max (map anrows l).

(** The value of a quantity of member b. *)
Definition tpoly_value (b : nat) (v : tpoly) (x temperature : R) : R :=
  (polynomial (member b (soc_coeffs v)) x + polynomial (member b (t_coeffs v)) (temperature - value_of b (t_ref v)))%R.

(** Scalars have one column and polynomials at least one coefficient. *)
Definition shaped_tpoly (v : tpoly) : Prop := acols (t_ref v) = 1 /\ 1 <= acols (soc_coeffs v) /\ 1 <= acols (t_coeffs v).
Definition shaped (a : asoh) : Prop :=
  acols (capacity a) = 1 /\ acols (mass a) = 1 /\ acols (c_p a) = 1 /\ acols (h_thermal a) = 1 /\ acols (a_therm a) = 1 /\
  1 <= acols (ocv a) /\ Forall shaped_tpoly (rs a) /\ Forall shaped_tpoly (cs a).

(** What the package is given for member b: the values of that member, the state of charge
    to start from, the ambient temperature, and the polynomials of that member. *)
Definition same_function (f : R -> R -> res R) (g : R -> R -> R) : Prop := forall x y, f x y = Ok (g x y).
Definition describes_member (iso : bool) (new : inputs) (t : transient) (a : asoh) (b : nat) (p : params) : Prop :=
  isothermal p = iso /\ soc0 p = value_of b (soc t) /\ p_capacity p = value_of b (capacity a) /\
  p_mass p = value_of b (mass a) /\ p_cp p = value_of b (c_p a) /\ p_tinf p = value_of b (t_inf new) /\
  p_htherm p = value_of b (h_thermal a) /\ p_atherm p = value_of b (a_therm a) /\
  (forall x, p_ocv p x = Ok (polynomial (member b (ocv a)) x)) /\
  (exists r0, nth_error (rs a) 0 = Some r0 /\ same_function (p_r0 p) (tpoly_value b r0)) /\
  List.length (p_rc p) = List.length (cs a) /\
  forall j fr fc, nth_error (p_rc p) j = Some (fr, fc) ->
    exists r c, nth_error (rs a) (S j) = Some r /\ nth_error (cs a) j = Some c /\
                same_function fr (tpoly_value b r) /\ same_function fc (tpoly_value b c).

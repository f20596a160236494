(** Health variables made from a few numbers: the circuit they should describe. *)
From Coq Require Import Reals String List Arith.
Import ListNotations.
From Verif Require Import Res Arr NdArray ECM Spec_ECM.
Local Open Scope list_scope.
Local Open Scope R_scope.

(** The values given: a number, a vector, or an array with one row. *)
Definition gives (x : arg R) (l : list R) : Prop :=
  l <> [] /\ (x = AVec l \/ x = AMat (mkArr (List.length l) [l]) \/ exists a, x = ANum a /\ l = [a]).

(** The function of the SOC given by values at equally spaced points of [0, 1]: on each piece
    between two neighbouring points it is the straight line, and the first and the last piece
    are continued.  One value is a constant. *)
Definition on_piece (n k : nat) (v : R) : Prop :=
  (S k < n)%nat /\ (k = 0%nat \/ INR k <= INR (n - 1) * v) /\ (S (S k) = n \/ INR (n - 1) * v <= INR (S k)).
Definition goes_through (f : R -> R) (l : list R) : Prop :=
  (forall a, l = [a] -> forall v, f v = a) /\
  (forall k v, on_piece (List.length l) k v ->
     f v = nth k l 0 + (nth (S k) l 0 - nth k l 0) * (INR (List.length l - 1) * v - INR k)).

(** Resistances fall by a quarter of a percent per degree above 25, and the open circuit
    voltage grows by 5 mV per degree. *)
Definition warmth (T : option R) : R := match T with None => 1 | Some t => exp (- (25 / 10000) * (t - 25)) end.
Definition drift (T : option R) : R := match T with None => 0 | Some t => (t - 25) * (5 / 1000) end.

(** The [n] elements asked for: equal ones, or the given ones. *)
Definition elements_given (n : nat) (RC : option (list (arg R * arg R))) (l : list (list R * list R)) : Prop :=
  List.length l = n /\
  (n = 0%nat \/
   match RC with
   | None => l = repeat ([1 / 100], [2500]) n
   | Some rc => Forall2 (fun x y => gives (fst x) (fst y) /\ gives (snd x) (snd y)) rc l
   end).
(** The values of the series capacitance. *)
Definition capacitance_given (qt : R) (C0 : option (arg R)) (l : list R) : Prop :=
  match C0 with None => l = [3600 * qt / (1 / 100)] | Some x => gives x l end.

(** The parameters of the circuit; [ocv]: its open circuit voltage at 25 degrees. *)
Record template_circuit (has_C0 : bool) (qt eff : R) (ocv : R -> R) (lr lc lh : list R) (els : list (list R * list R)) (c : cell) : Prop := TemplateCircuit {
  tc_capacity : Qs c = 3600 * qt;
  tc_efficiency : CE c = eff;
  tc_ocv : forall v T, OCV_ c v T = ocv v + drift T;
  tc_r0 : exists f, goes_through f lr /\ forall v T, R0_ c v T = f v * warmth T;
  tc_c0 : has_C0 = true -> goes_through (C0_ c) lc;
  tc_elements : Forall2 (fun x y => (exists f, goes_through f (fst y) /\ forall v T, fst x v T = f v * warmth T) /\ goes_through (snd x) (snd y)) (RC_ c) els;
  tc_hysteresis : goes_through (M_ c) lh;
  tc_rate : G_ c = 9 / 10 }.

(** [n] equally spaced points of [0, 1]. *)
Definition equally_spaced (n : nat) : list R := map (fun i => INR i / INR (n - 1)) (seq 0 n).

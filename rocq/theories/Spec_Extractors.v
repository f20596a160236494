(** What the extractors of parameters should do. *)
From Coq Require Import List Arith Reals Permutation Sorted.
Import ListNotations.
From Verif Require Import Res Extractors.
Local Open Scope list_scope.
Local Open Scope R_scope.

(** The capacities of the cycles: those of the table, or else those computed. *)
Definition capacities_of (compute : option (list sample) -> res (list (option R))) (d : dataset) (caps : list (option R)) : Prop :=
  cycle_stats d = Some (Some caps) \/ (forall l, cycle_stats d <> Some (Some l)) /\ compute (raw_data d) = Ok caps.

(** q is the largest of the capacities that are numbers. *)
Definition largest (caps : list (option R)) (q : R) : Prop :=
  In (Some q) caps /\ forall x, In (Some x) caps -> x <= q.

(** What sorting means: all indices, once each, with the values in order; which of equal
    values comes first is left open. *)
Definition sorts (order : list R -> list nat) : Prop :=
  forall l, Permutation (order l) (seq 0 (List.length l)) /\ StronglySorted Rle (map (fun i => nth i l 0) (order l)).

(** A smallest current of a microampere is assumed. *)
Definition effective (i : R) : R := Rmax (Rabs i) (/ 1000000).
(** The weight of a sample among others: inversely proportional to the current. *)
Definition inverse_currents (l : list sample) : R := fold_right Rplus 0 (map (fun s => / effective (s_current s)) l).
Definition weight_in (l : list sample) (s : sample) : R := / effective (s_current s) / inverse_currents l.

(** What fitting a spline means: among the functions allowed for the knots, one with the
    smallest sum of the squares of the weighted errors. *)
Definition squared_errors (xs ys ws : list R) (f : R -> R) : R :=
  fold_right Rplus 0 (map (fun p => (snd p * (snd (fst p) - f (fst (fst p)))) ^ 2) (combine (combine xs ys) ws)).
Definition fits_splines (allowed : list R -> (R -> R) -> Prop) (lsq : list R -> list R -> list R -> list R -> res (R -> R)) : Prop :=
  forall xs ys ws knots f, lsq xs ys ws knots = Ok f ->
    allowed knots f /\ forall g, allowed knots g -> squared_errors xs ys ws f <= squared_errors xs ys ws g.

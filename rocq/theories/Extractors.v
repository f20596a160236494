(** Parameters from special cycles: moirae/extractors/ecm.py.

    Floating point numbers are modelled by real numbers; a missing capacity (NaN) is [None].
    A table of measurements is a list of rows with the three columns used; that columns can be
    missing is not modelled.  Not modelled either: battdat's computation of the capacity of
    each cycle, the order in which pandas sorts rows of equal state of charge, and SciPy's
    smoothing spline.  They are parameters of the model. *)
From Coq Require Import List Arith Bool Reals.
Import ListNotations.
From Verif Require Import Res NdR Interp ECM.
Local Open Scope list_scope.
Local Open Scope R_scope.

(** A row of the table [raw_data]. *)
Record sample := Sample { s_current : R; s_voltage : R; s_capacity : R }.

(** The tables of a dataset: [raw_data], if there; and [cycle_stats], if there, with its
    column [capacity_charge], if there. *)
Record dataset := Dataset { raw_data : option (list sample); cycle_stats : option (option (list (option R))) }.

(** [Series.max()]: NaNs are skipped; NaN if nothing is left. *)
Definition larger (q : option R) (m : option R) : option R :=
  match q, m with
  | None, _ => m
  | Some x, None => Some x
  | Some x, Some y => Some (if Rlt_dec x y then y else x)
  end.
Definition series_max (l : list (option R)) : option R := fold_right larger None l.

(** [np.clip(x, a_min=lo, a_max=None)]. *)
Definition at_least (lo x : R) : R := if Rlt_dec x lo then lo else x.

(** Python's [l[1:-1]]. *)
Definition interior {A} (l : list A) : list A := removelast (tl l).

Definition total (l : list R) : R := fold_right Rplus 0 l.

Section Extract.
(** [CapacityPerCycle().compute_features] on a dataset: the column [capacity_charge]. *)
Variable capacity_per_cycle : option (list sample) -> res (list (option R)).

(** Lines 22-29, [MaxCapacityExtractor.extract]: the value given to [MaxTheoreticalCapacity]. *)
Definition extract_capacity (d : dataset) : res (option R) :=
  let! caps := match cycle_stats d with
               | Some (Some l) => Ok l
               | _ => capacity_per_cycle (raw_data d)
               end in
  Ok (series_max caps).

(** Lines 54-73, the attributes of an [OCVExtractor] and its constructor. *)
Record extractor := Extractor { soc_points : list R; e_capacity : R; soc_requirement : R; style : option nat }.
Definition points_of (p : list R + nat) : list R :=
  match p with inl l => l | inr n => linspace 0 1 n end.
Definition capacity_of (q : R + capacity) : R :=
  match q with inl x => x | inr c => a2 (q_base c) 0%nat 0%nat end.
Definition make_extractor (q : R + capacity) (p : list R + nat) (requirement : R) (st : option nat) : extractor :=
  Extractor (points_of p) (capacity_of q) requirement st.

(** Lines 75-88, [check_data]: the dataset afterwards, and whether it raised.  The summaries
    are stored in the table [cycle_stats] (line 82). *)
Definition check_data (e : extractor) (d : dataset) : dataset * res unit :=
  match raw_data d with
  | None => (d, Err ValueError)
  | Some _ =>
    let stored := match cycle_stats d with
                  | Some (Some l) => (d, Ok l)
                  | _ => match capacity_per_cycle (raw_data d) with
                         | Ok l => (Dataset (raw_data d) (Some (Some l)), Ok l)
                         | Err x => (d, Err x)
                         end
                  end in
    match stored with
    | (d, Err x) => (d, Err x)
    | (d, Ok l) =>
      match series_max l with
      | Some q => if Rlt_dec (q / e_capacity e) (soc_requirement e) then (d, Err ValueError) else (d, Ok tt)
      | None => (d, Ok tt)                                  (* a comparison with NaN is false *)
      end
    end
  end.

(** [DataFrame.sort_values]: the order of the rows, given the values to sort by. *)
Variable sort_order : list R -> list nat.
(** [LSQUnivariateSpline(x, y, w=w, t=t)]; may raise. *)
Variable lsq_spline : list R -> list R -> list R -> list R -> res (R -> R).

(** Lines 101-103: the state of charge of a row, and the sorted rows. *)
Definition soc_of (e : extractor) (s : sample) : R := s_capacity s / e_capacity e.
Definition sorted_cycle (e : extractor) (cycle : list sample) : list sample :=
  map (fun i => nth i cycle (Sample 0 0 0)) (sort_order (map (soc_of e) cycle)).
(** Lines 106-107. *)
Definition raw_weight (s : sample) : R := 1 / at_least (/ 10 ^ 6) (Rabs (s_current s)).
Definition weights (cycle : list sample) : list R :=
  let w := map raw_weight cycle in map (fun x => x / total w) w.
(** Lines 90-114, [interpolate_ocv]. *)
Definition interpolate_ocv (e : extractor) (cycle : list sample) : res (list R) :=
  let cycle := sorted_cycle e cycle in
  let! f := lsq_spline (map (soc_of e) cycle) (map s_voltage cycle) (weights cycle) (interior (soc_points e)) in
  Ok (map f (soc_points e)).

(** Lines 116-129, [extract]: the constructors turn the values into one row; a reference
    temperature of 25 and an entropic part of 0 are the defaults (components.py lines 109-111
    and 115-119). *)
Definition extract_ocv (e : extractor) (d : dataset) : res ocv :=
  let! cycle := of_opt KeyError (raw_data d) in
  let! knots := interpolate_ocv e cycle in
  Ok {| ocv_ref := {| sv := T2 1 (List.length knots) (fun _ j => nth j knots 0); spin := Some (soc_points e); sstyle := style e |};
        ocv_tref := T2 1 1 (fun _ _ => 25);
        ocv_ent := {| sv := T2 1 1 (fun _ _ => 0); spin := None; sstyle := None |} |}.
End Extract.

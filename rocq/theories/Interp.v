(** SOC-dependent parameters: [SOCInterpolatedHealth] (moirae/models/ecm/utils.py
    lines 11-88) and the linear case of scipy.interpolate.interp1d. *)
From Coq Require Import Reals List Arith.
Import ListNotations.
From Verif Require Import Res NdR.
Open Scope R_scope.

(** [np.linspace(a, b, n)]: entry i. *)
Definition linspace_at (a b : R) (n i : nat) : R :=
  if Nat.eqb n 1 then a else a + INR i * ((b - a) / INR (n - 1)).
Definition linspace (a b : R) (n : nat) : list R := map (linspace_at a b n) (seq 0 n).

(** [np.searchsorted(xs, v)] (side 'left') on a sorted list: how many entries
    come before the insertion point, i.e. are smaller than [v]. *)
Fixpoint searchsorted (xs : list R) (v : R) : nat :=
  match xs with
  | [] => 0
  | x :: t => if Rlt_dec x v then S (searchsorted t v) else 0
  end.

(** [index.clip(1, n - 1)]. *)
Definition clip (i n : nat) : nat := Nat.min (Nat.max i 1) (n - 1).

(** interp1d.__init__ sorts the points by abscissa (stable, with their values). *)
Fixpoint insert_pt (p : R * R) (l : list (R * R)) : list (R * R) :=
  match l with
  | [] => [p]
  | q :: t => if Rle_dec (fst p) (fst q) then p :: l else q :: insert_pt p t
  end.
Fixpoint sort_pts (l : list (R * R)) : list (R * R) :=
  match l with [] => [] | p :: t => insert_pt p (sort_pts t) end.

(** interp1d._call_linear: the segment found by the search, extended beyond the
    ends ([fill_value='extrapolate']). Two equal abscissas divide by zero. *)
Definition linear_pts (pts : list (R * R)) (v : R) : R :=
  let xs := map fst pts in
  let i := clip (searchsorted xs v) (length pts) in
  let lo := nth (i - 1) pts (0, 0) in
  let hi := nth i pts (0, 0) in
  let slope := (snd hi - snd lo) / (fst hi - fst lo) in
  slope * (v - fst lo) + snd lo.
Definition linear_interp (xs ys : list R) (v : R) : R := linear_pts (sort_pts (combine xs ys)) v.

Section SIH.
  (** The other interpolation styles (numbered) are scipy's: what they compute
      is not modelled, only that it is a function of the points, and that a style
      may refuse a grid. *)
  Variable spline : nat -> list R -> res (list R -> R -> R).

  (** Lines 14-19: the values, the pinpoints if set, and the style ([None]: linear). *)
  Record sih := { sv : t2; spin : option (list R); sstyle : option nat }.

  (** Lines 36-37: the grid, set on first use when there is none. *)
  Definition grid (s : sih) : list R :=
    match spin s with Some g => g | None => linspace 0 1 (c2 (sv s)) end.

  Definition vrow (x : t2) (i : nat) : list R := map (a2 x i) (seq 0 (c2 x)).

  (** Lines 38-43: building the interpolator. Raises when the numbers of points
      and values differ, or there are none. *)
  Definition interp_func (s : sih) : res (list R -> R -> R) :=
    let xs := grid s in
    if negb (Nat.eqb (length xs) (c2 (sv s))) then Err ValueError
    else match sstyle s with
    | None => if Nat.eqb (length xs) 0 then Err ValueError else Ok (linear_interp xs)
    | Some k => spline k xs
    end.

  (** Lines 45-88 for a 2-D array [soc]; [internal] is [self.batch_size] of the
      object the values belong to.  The reshape of line 85 fails when that is
      not the number of rows of the values. *)
  Definition get_value (s : sih) (internal : nat) (soc : t2) : res t3 :=
    if Nat.eqb (c2 (sv s)) 1 then
      Ok (T3 (r2 (sv s)) (r2 soc) (c2 soc) (fun i _ _ => a2 (sv s) i 0))
    else
      let! f := interp_func s in
      if Nat.eqb internal (r2 (sv s)) then
        Ok (T3 (r2 (sv s)) (r2 soc) (c2 soc) (fun i j k => f (vrow (sv s) i) (a2 soc j k)))
      else Err ValueError.

  (** The object after the evaluation: lines 36-37 assign the pinpoints. *)
  Definition after_value (s : sih) : sih :=
    if Nat.eqb (c2 (sv s)) 1 then s
    else {| sv := sv s; spin := Some (grid s); sstyle := sstyle s |}.
End SIH.

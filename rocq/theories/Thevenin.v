(** The interface to the Thevenin package: moirae/models/thevenin.

    The package itself is not modelled: [build] makes a model from parameters, and [run]
    propagates it; both can be any functions, which may raise.  Floating point numbers are
    modelled by real numbers.  Quantities are the polynomials of components.py; other
    subclasses of [SOCDependentVariable] are not modelled. *)
From Coq Require Import String List Arith Bool Reals.
Import ListNotations.
From Verif Require Import Res Arr NdArray NdR Container.
Local Open Scope string_scope.
Local Open Scope list_scope.

(** * Vectors and polynomials (NumPy) *)

(** Element-wise operations on 1D arrays with broadcasting. *)
Definition bin1 (f : R -> R -> R) (x y : list R) : res (list R) :=
  let! n := bdim (List.length x) (List.length y) in
  Ok (map (fun i => f (nth (bix (List.length x) i) x 0%R) (nth (bix (List.length y) i) y 0%R)) (seq 0 n)).

(** [numpy.polynomial.polynomial.polyval(x, c)] for a number x and a vector c:
    [c0 = c[-1] + x*0], then [c0 = c[-i] + c0*x] for i = 2, ..., len(c). *)
Definition polyval (x : R) (c : list R) : res R :=
  match rev c with
  | [] => Err IndexError
  | last :: others => Ok (fold_left (fun c0 ci => (ci + c0 * x)%R) others (last + x * 0)%R)
  end.

(** The same for a vector x and a 2D array c, given by its rows ([tensor=False]). *)
Fixpoint horner (x c0 : list R) (others : list (list R)) : res (list R) :=
  match others with
  | [] => Ok c0
  | ci :: t => let! p := bin1 Rmult c0 x in let! c0 := bin1 Rplus ci p in horner x c0 t
  end.
Definition polyval_rows (x : list R) (c : list (list R)) : res (list R) :=
  match rev c with
  | [] => Err IndexError
  | last :: others => let! c0 := bin1 Rplus last (map (fun v => v * 0)%R x) in horner x c0 others
  end.

(** [m.T] by rows, and [m[:, 0]]. *)
Definition transposed (m : arr R) : list (list R) :=
  map (fun k => map (fun r => nth k r 0%R) (arows m)) (seq 0 (acols m)).
Definition column0 (m : arr R) : res (list R) :=
  if Nat.eqb (acols m) 0 then Err IndexError else Ok (map (fun r => nth 0 r 0%R) (arows m)).

(** [m[b % m.shape[0]]] and [m[b % m.shape[0], 0]]. *)
Definition row_mod (m : arr R) (b : nat) : res (list R) :=
  if Nat.eqb (anrows m) 0 then Err ZeroDivErr else of_opt IndexError (row (b mod anrows m) m).
Definition at_mod (m : arr R) (b : nat) : res R :=
  let! r := row_mod m b in of_opt IndexError (nth_error r 0).

(** * Components (components.py) *)

(** Lines 28-36: the coefficients of a [SOCPolynomialVariable].  With a batch id the
    number of rows counts as at least 1 (base.py lines 74-87). *)
Definition poly_row (coeffs : arr R) (b : nat) : res (list R) :=
  of_opt IndexError (row (b mod Nat.max 1 (anrows coeffs)) coeffs).
Definition at_soc (c : res (list R)) (soc : R) : res R := let! c := c in polyval soc c.
Definition soc_call (coeffs : arr R) (soc : list R) : res (list R) := polyval_rows soc (transposed coeffs).

(** Lines 57-82, [SOCTempPolynomialVariable]. *)
Record tpoly : Type := TPoly { t_ref : arr R; soc_coeffs : arr R; t_coeffs : arr R }.
Definition at_soc_temp (ref : res R) (t s : res (list R)) (soc temp : R) : res R :=
  let! ref := ref in
  let! t := t in
  let! s := s in
  let! x := polyval (temp - ref)%R t in
  let! y := polyval soc s in
  Ok (x + y)%R.
(** With a batch id (lines 77, 80, 81). *)
Definition tpoly_member (v : tpoly) (b : nat) : R -> R -> res R :=
  at_soc_temp (at_mod (t_ref v) b) (row_mod (t_coeffs v) b) (row_mod (soc_coeffs v) b).
(** Without (lines 75, 80, 81). *)
Definition tpoly_call (v : tpoly) (soc temp : list R) : res (list R) :=
  let! ref := column0 (t_ref v) in
  let! t_corr := bin1 Rminus temp ref in
  let! x := polyval_rows t_corr (transposed (t_coeffs v)) in
  let! y := polyval_rows soc (transposed (soc_coeffs v)) in
  bin1 Rplus x y.

(** * State (state.py, ins_outs.py) *)

(** state.py lines 13-37; [ocv] holds the coefficients. *)
Record asoh : Type := Asoh {
  capacity : arr R; mass : arr R; c_p : arr R; h_thermal : arr R; a_therm : arr R;
  ocv : arr R; rs : list tpoly; cs : list tpoly }.
Definition tpoly_arrays (v : tpoly) : list (arr R) := [t_ref v; soc_coeffs v; t_coeffs v].
(** base.py lines 74-87, [batch_size]: all parameters in order. *)
Definition asoh_arrays (a : asoh) : list (arr R) :=
  [capacity a; mass a; c_p a; h_thermal a; a_therm a; ocv a] ++ flat_map tpoly_arrays (rs a) ++ flat_map tpoly_arrays (cs a).
Definition asoh_batch (a : asoh) : res nat := batch_loop 1 (map anrows (asoh_arrays a)).

(** Lines 32-37 and 43-48: the constructor; every exception of a validator becomes a
    ValidationError. *)
Definition make_asoh (a : asoh) : res asoh :=
  if Nat.ltb (List.length (rs a)) 1 then Err ValidationError
  else match asoh_batch a with
       | Err _ => Err ValidationError
       | Ok b => if negb (Nat.ltb 0 b) then Err ValidationError
                 else if negb (Nat.eqb (List.length (rs a) - 1) (List.length (cs a))) then Err ValidationError
                 else Ok a
       end.

(** Lines 51-59, and ins_outs.py lines 5-9 with base.py lines 551-556. *)
Record transient : Type := Transient { soc : arr R; temp : arr R; eta : arr R }.
Definition transient_container (t : transient) : container R :=
  [("soc", Some (soc t)); ("temp", Some (temp t)); ("eta", Some (eta t))].
Record inputs : Type := Inputs { time : arr R; current : arr R; t_inf : arr R }.
Definition inputs_container (u : inputs) : container R :=
  [("time", Some (time u)); ("current", Some (current u)); ("t_inf", Some (t_inf u))].

(** Lines 61-76, [from_asoh]. *)
Definition from_asoh (a : asoh) (soc temp : R) : transient :=
  Transient (mkArr 1 [[soc]]) (mkArr 1 [[temp]]) (mkArr (List.length (cs a)) [repeat 0%R (List.length (cs a))]).

(** * The model (__init__.py) *)

(** Lines 41-55: the parameters of one model. *)
Record params : Type := Params {
  isothermal : bool; soc0 : R; p_capacity : R; p_mass : R; p_cp : R; p_tinf : R; p_htherm : R; p_atherm : R;
  p_ocv : R -> res R; p_r0 : R -> R -> res R; p_rc : list ((R -> R -> res R) * (R -> R -> res R)) }.

(** The last values of a solution: SOC, temperature, and overpotential of element j. *)
Record solution : Type := Solution { sol_soc : R; sol_temp : R; sol_eta : nat -> R }.

Section Model.
Variable mdl : Type.
Variable build : params -> res mdl.
(** The model, overpotentials to start from, the current and the duration. *)
Variable run : mdl -> option (list R) -> list R -> R -> res solution.
Variable iso : bool.

(** Lines 41-66: the model of member b, and its overpotentials.  Assigning them to the
    entries of the [n] elements broadcasts a single one (line 64). *)
Definition make_model (t : transient) (a : asoh) (u : inputs) (b : nat) : res (mdl * option (list R)) :=
  let n := List.length (cs a) in
  let! s0 := at_mod (soc t) b in
  let! cap := at_mod (capacity a) b in
  let! m := at_mod (mass a) b in
  let! cp := at_mod (c_p a) b in
  let! ti := at_mod (t_inf u) b in
  let! ht := at_mod (h_thermal a) b in
  let! at_ := at_mod (a_therm a) b in
  let! r0 := of_opt IndexError (nth_error (rs a) 0) in
  let! rc := mapM (fun j => let! r := of_opt IndexError (nth_error (rs a) (j + 1)) in
                            let! c := of_opt IndexError (nth_error (cs a) j) in
                            Ok (tpoly_member r b, tpoly_member c b)) (seq 0 n) in
  let! model := build (Params iso s0 cap m cp ti ht at_ (at_soc (poly_row (ocv a) b)) (tpoly_member r0 b) rc) in
  if Nat.ltb 0 n then
    let! e := row_mod (eta t) b in
    if Nat.eqb (List.length e) n then Ok (model, Some e)
    else match e with
         | [v] => Ok (model, Some (repeat v n))
         | _ => Err ValueError
         end
  else Ok (model, None).

(** Lines 80-95: row b of the output array of [width] columns, which starts as zeros. *)
Definition update_member (prev new : inputs) (t : transient) (a : asoh) (width b : nat) : res (list R) :=
  let n := List.length (cs a) in
  let! (model, e) := make_model t a new b in
  let! cur_time := at_mod (time new) b in
  let! pre_time := at_mod (time prev) b in
  let! cur := row_mod (current new) b in
  let! sol := run model e (map Ropp cur) (cur_time - pre_time)%R in
  if Nat.ltb width (2 + n) then Err IndexError
  else Ok (sol_soc sol :: sol_temp sol :: map (sol_eta sol) (seq 0 n) ++ repeat 0%R (width - (2 + n))).

(** Lines 68-97, [update_transient_state]. *)
Definition number_of_members (new : inputs) (t : transient) (a : asoh) : res nat :=
  let! bt := batch_size (transient_container t) in
  let! ba := asoh_batch a in
  let! bi := batch_size (inputs_container new) in
  Ok (Nat.max bt (Nat.max ba bi)).
Definition update_transient_state (prev new : inputs) (t : transient) (a : asoh) : res (container R) :=
  let! n := number_of_members new t a in
  let width := clen (transient_container t) in
  let! rows := mapM (update_member prev new t a width) (seq 0 n) in
  Ok (make_copy (transient_container t) (V2 (mkArr width rows))).
End Model.

(** Lines 99-112, [calculate_terminal_voltage]; the vector becomes a column (base.py lines
    47-50). *)
Definition total (l : list R) : R := fold_right Rplus 0%R l.
Definition calculate_terminal_voltage (u : inputs) (t : transient) (a : asoh) : res (container R) :=
  let! s := column0 (soc t) in
  let! v := soc_call (ocv a) s in
  let! i := column0 (current u) in
  let! r0 := of_opt IndexError (nth_error (rs a) 0) in
  let! te := column0 (temp t) in
  let! r := tpoly_call r0 s te in
  let! ir := bin1 Rmult i r in
  let! v := bin1 Rplus v ir in
  let! v := bin1 Rminus v (map total (arows (eta t))) in
  Ok [("terminal_voltage", Some (mkArr 1 (map (fun x => [x]) v)))].

(** Offline estimation: moirae/estimators/offline/loss.py and scipy.py.  Numbers are
    real numbers. *)
From Coq Require Import String List Arith Bool Reals.
Import ListNotations.
From Verif Require Import Res Arr NdArray Container Health Simulator Interface.
Local Open Scope string_scope.
Local Open Scope list_scope.

Section Offline.
Variable is_finite : R -> bool.

Definition cmodel : Type := cell_model (container R) (container R) (hv R) (container R).

(** loss.py lines 12-39: copies of the guesses, and the observations ([None]: no raw
    data). *)
Record loss : Type := Loss {
  l_model : cmodel; l_asoh : hv R; l_state : container R; l_data : option (frame R) }.

(** Lines 42-50, [get_x0]: a 1D vector. *)
Definition get_x0 (l : loss) : res (list R) :=
  let! s := to_numpy (l_state l) in
  let! m := if Nat.eqb (num_updatable (l_asoh l)) 0 then Ok s
            else let! p := get_updatable_parameters (l_asoh l) in hconcat [s; p] in
  of_opt IndexError (row 0 m).

(** [y[i, :] = v] for an array [y] of shape (_, rows, cols) and a 2D array [v]: axes of
    length 1 are broadcast.  (Entries of arrays are never missing.) *)
Definition assign_block (rows cols : nat) (v : arr R) : res (list (list R)) :=
  if (Nat.eqb (anrows v) rows || Nat.eqb (anrows v) 1) && (Nat.eqb (acols v) cols || Nat.eqb (acols v) 1) then
    mapM (fun b => mapM (fun k =>
      of_opt IndexError (entry (if Nat.eqb (anrows v) 1 then 0 else b) (if Nat.eqb (acols v) 1 then 0 else k) v))
      (seq 0 cols)) (seq 0 rows)
  else Err ValueError.

(** Lines 98-103: the rows of the two arrays after the first one. *)
Fixpoint compare (M : cmodel) (columns : list string) (batch outs : nat) (rows : list (list R))
  (s : sim (container R) (container R) (hv R) (container R)) : res (list (list (list R) * list (list R))) :=
  match rows with
  | [] => Ok []
  | row :: rows' =>
    let! (u, o) := row_to_inputs R is_finite columns row 25%R in
    let (s, r) := step M no_degradation s u in
    let! (_, p) := r in
    let! o := to_numpy o in
    let! o := assign_block batch outs o in
    let! p := to_numpy p in
    let! p := assign_block 1 outs p in
    let! l := compare M columns batch outs rows' s in
    Ok ((o, p) :: l)
  end.

(** Lines 106-107: for each member of the batch, the mean over rows and outputs of
    the squared differences; the predictions of batch size 1 are broadcast. *)
Definition number (m : list (list R)) (i k : nat) : R := nth k (nth i m []) 0%R.
Definition total (l : list R) : R := fold_right Rplus 0%R l.
Definition mean_squared (batch outs : nat) (l : list (list (list R) * list (list R))) : list R :=
  map (fun b =>
    (total (map (fun op => total (map (fun k => (number (snd op) 0 k - number (fst op) b k) ^ 2)%R (seq 0 outs))) l)
     / INR (List.length l * outs))%R) (seq 0 batch).

(** Lines 72-107, [MeanSquaredLoss.__call__]. *)
Definition mean_squared_loss (l : loss) (x : arr R) : res (list R) :=
  let n_states := clen (l_state l) in
  let state_x := make_copy (l_state l) (V2 (slice_cols 0 n_states x)) in
  let! asoh_x := snd (hv_make_copy (l_asoh l) (V2 (slice_cols n_states (acols x) x)) (updatable_names (l_asoh l))) in
  let! raw := of_opt KeyError (l_data l) in
  match f_rows R raw with
  | [] => Err IndexError
  | first :: rows =>
    let! (initial_input, initial_output) := row_to_inputs R is_finite (f_columns R raw) first 25%R in
    let! s := init (l_model l) asoh_x state_x initial_input false in
    let outs := clen initial_output in
    let! o := to_numpy initial_output in
    let! o := assign_block (anrows x) outs o in
    let! y := snd (cm_voltage (l_model l) initial_input state_x asoh_x) in
    let! p := to_numpy y in
    let! p := assign_block 1 outs p in
    let! rest := compare (l_model l) (f_columns R raw) (anrows x) outs rows s in
    Ok (mean_squared (anrows x) outs ((o, p) :: rest))
  end.

(** [.item()] *)
Definition item (l : list R) : res R := match l with [v] => Ok v | _ => Err ValueError end.

(** scipy.py lines 25-41, [estimate], for any loss function and any optimiser, which
    is given the function and the starting point, and of whose result only x is used. *)
Definition one_row (x : list R) : arr R := mkArr (List.length x) [x].
Definition normalised (f : arr R -> res (list R)) (y0 : R) (x : list R) : res R :=
  let! v := f (one_row x) in
  let! v := item v in
  Ok (v / Rmax (Rabs y0) (/ 10 ^ 12))%R.
Definition estimate (l : loss) (f : arr R -> res (list R)) (minimize : (list R -> res R) -> list R -> res (list R))
  : res (container R * hv R) :=
  let! x0 := get_x0 l in
  let! v := f (one_row x0) in
  let! y0 := item v in
  let! x := minimize (normalised f y0) x0 in
  let n := clen (l_state l) in
  let states := make_copy (l_state l) (V2 (slice_cols 0 n (one_row x))) in
  let! asoh := snd (hv_make_copy (l_asoh l) (V2 (slice_cols n (List.length x) (one_row x))) (updatable_names (l_asoh l))) in
  Ok (states, asoh).
End Offline.

(** The loss as an object in memory: which objects an evaluation writes to
    (estimators/offline/loss.py lines 31-39 and 72-107, with simulator.py lines 51-122).

    The stores of SimHeap.v hold inputs, transient states, health variables and outputs.
    A cell model may write into the health variable it is given.  Simplification: the
    output objects built from rows and by line 94 are not allocated, because nothing
    but their content is used. *)
From Coq Require Import String List Arith Bool Reals.
Import ListNotations.
From Verif Require Import Res Arr NdArray Container Health Simulator SimHeap Interface Offline.
Local Open Scope string_scope.
Local Open Scope list_scope.

Section LossHeap.
Variable is_finite : R -> bool.
Notation mem := (heap (container R) (container R) (hv R) (container R)).

(** The attributes of the loss: addresses of its two guesses. *)
Record hloss : Type := HLoss { hl_model : cmodel; hl_asoh : addr; hl_state : addr; hl_data : option (frame R) }.

Definition set_tr (h : mem) (s : store (container R)) : mem := {| hin := hin h; htr := s; has := has h; hout := hout h |}.
Definition set_as (h : mem) (s : store (hv R)) : mem := {| hin := hin h; htr := htr h; has := s; hout := hout h |}.
Definition set_in (h : mem) (s : store (container R)) : mem := {| hin := s; htr := htr h; has := has h; hout := hout h |}.
Definition set_out (h : mem) (s : store (container R)) : mem := {| hin := hin h; htr := htr h; has := has h; hout := s |}.

(** loss.py lines 31-39: copies of the guesses of the caller, at addresses [a] and [t]. *)
Definition h_new (h : mem) (m : cmodel) (a t : addr) (data : option (frame R)) : option (mem * hloss) :=
  match read (has h) a, read (htr h) t with
  | Some va, Some vt =>
    let (s1, a') := alloc (has h) va in
    let (s2, t') := alloc (htr h) vt in
    Some (set_tr (set_as h s1) s2, HLoss m a' t' data)
  | _, _ => None
  end.

(** Lines 98-103. *)
Fixpoint h_compare (M : cmodel) (columns : list string) (batch outs : nat) (rows : list (list R)) (h : mem) (s : hsim)
  : option (mem * res (list (list (list R) * list (list R)))) :=
  match rows with
  | [] => Some (h, Ok [])
  | row :: rows' =>
    match row_to_inputs R is_finite columns row 25%R with
    | Err e => Some (h, Err e)
    | Ok (u, o) =>
      let (s1, a) := alloc (hin h) u in
      match h_step M no_degradation (set_in h s1) s a with
      | None => None
      | Some (h', _, Err e) => Some (h', Err e)
      | Some (h', s', Ok (_, ay)) =>
        match read (hout h') ay with
        | None => None
        | Some p =>
          match (let! o := to_numpy o in let! o := assign_block batch outs o in
                 let! p := to_numpy p in let! p := assign_block 1 outs p in Ok (o, p)) with
          | Err e => Some (h', Err e)
          | Ok op =>
            match h_compare M columns batch outs rows' h' s' with
            | None => None
            | Some (h'', r) => Some (h'', let! l := r in Ok (op :: l))
            end
          end
        end
      end
    end
  end.

(** Lines 72-107. *)
Definition h_loss (h : mem) (l : hloss) (x : arr R) : option (mem * res (list R)) :=
  match read (htr h) (hl_state l), read (has h) (hl_asoh l) with
  | Some vt, Some va =>
    let n := clen vt in
    (* line 75: a copy, then written in place *)
    let (st1, t) := alloc (htr h) vt in
    let tx := from_numpy vt (V2 (slice_cols 0 n x)) in
    let h := set_tr h (write st1 t tx) in
    (* line 76: a copy, then written in place, also if an exception follows *)
    let (sa1, a) := alloc (has h) va in
    let (ax, r) := update_parameters va (V2 (slice_cols n (acols x) x)) (updatable_names va) in
    let h := set_as h (write sa1 a ax) in
    match r with
    | Err e => Some (h, Err e)
    | Ok _ =>
      match hl_data l with
      | None => Some (h, Err KeyError)
      | Some raw =>
        match f_rows R raw with
        | [] => Some (h, Err IndexError)
        | first :: rows =>
          match row_to_inputs R is_finite (f_columns R raw) first 25%R with
          | Err e => Some (h, Err e)
          | Ok (u, o) =>
            (* lines 81-86, simulator.py lines 61-69: copies of health, state and input, the
               measurement; the health copy may be written *)
            let (sin1, _) := alloc (hin h) u in
            let (sin2, i') := alloc sin1 u in
            let (sas1, a') := alloc (has h) ax in
            let (str1, t') := alloc (htr h) tx in
            let (ay, ry) := cm_voltage (hl_model l) u tx ax in
            let h := set_in (set_tr (set_as h (write sas1 a' ay)) str1) sin2 in
            match ry with
            | Err e => Some (h, Err e)
            | Ok y =>
              let (so1, o') := alloc (hout h) y in
              let h := set_out h so1 in
              let sim := {| s_tr := t'; s_as := a'; s_in := i'; s_out := o'; s_hist := None |} in
              let outs := clen o in
              match (let! o := to_numpy o in assign_block (anrows x) outs o) with
              | Err e => Some (h, Err e)
              | Ok ob =>
                (* line 94 *)
                let (ay', ry') := cm_voltage (hl_model l) u tx ax in
                let h := set_as h (write (has h) a ay') in
                match (let! y := ry' in let! p := to_numpy y in assign_block 1 outs p) with
                | Err e => Some (h, Err e)
                | Ok pb =>
                  match h_compare (hl_model l) (f_columns R raw) (anrows x) outs rows h sim with
                  | None => None
                  | Some (h', r) => Some (h', let! rest := r in Ok (mean_squared (anrows x) outs ((ob, pb) :: rest)))
                  end
                end
              end
            end
          end
        end
      end
    end
  | _, _ => None
  end.

(** Any number of evaluations one after the other; the outcomes. *)
Fixpoint h_losses (h : mem) (l : hloss) (xs : list (arr R)) : option (mem * list (res (list R))) :=
  match xs with
  | [] => Some (h, [])
  | x :: xs' =>
    match h_loss h l x with
    | None => None
    | Some (h1, r) => match h_losses h1 l xs' with
                      | None => None
                      | Some (h2, rs) => Some (h2, r :: rs)
                      end
    end
  end.
End LossHeap.

(** The simulator as objects in memory (moirae/simulator.py lines 51-122): which
    objects are shared with the caller.

    One store per class of object; an address is an index into the store.  A
    cell holds the whole content of an object: [model_copy(deep=True)] copies
    that content into a fresh cell.  Simplifications: the transient state, the
    measurement and the degraded health returned by the models are fresh
    objects (true of EquivalentCircuitModel and of NoDegradation), and the
    caller reaches objects only through what it created or was given back by
    [step], not through the attributes of the simulator. *)
From Coq Require Import List.
Import ListNotations.
From Verif Require Import Res Simulator.

Definition addr := nat.
Definition store (X : Type) := list X.
Definition read {X} (h : store X) (a : addr) : option X := nth_error h a.
Fixpoint write {X} (h : store X) (a : addr) (x : X) : store X :=
  match h, a with
  | [], _ => []
  | _ :: t, 0 => x :: t
  | y :: t, S n => y :: write t n x
  end.
(** Allocate an object: the new store, its address. *)
Definition alloc {X} (h : store X) (x : X) : store X * addr := (h ++ [x], length h).

Section SimHeap.
  Context {In Tr As Out : Type} (M : cell_model In Tr As Out) (D : degradation_model In Tr As Out).

  Record heap := { hin : store In; htr : store Tr; has : store As; hout : store Out }.

  (** The lists of history objects (lines 73-79). *)
  Record hhist := { hh_in : list addr; hh_tr : list addr; hh_as : list addr; hh_out : list addr }.

  (** The attributes of the simulator (lines 38-49). *)
  Record hsim := { s_tr : addr; s_as : addr; s_in : addr; s_out : addr; s_hist : option hhist }.

  (** What the caller holds: objects it created (the constructor arguments are
      the first ones), and objects returned by [step]. *)
  Record caller := { c_in : list addr; c_tr : list addr; c_as : list addr;
                     ret_tr : list addr; ret_out : list addr }.

  Record world := { wh : heap; ws : hsim; wc : caller }.

  (** simulator.py lines 51-79.  The caller passes its objects [0] of each store. *)
  Definition h_init (a : As) (t : Tr) (u : In) (keep : bool) : res world :=
    (* lines 61-64: copies of the three arguments *)
    let (s1, y) := cm_voltage M u t a in
    let! y := y in
    let base := {| hin := [u; u]; htr := [t; t]; has := [a; s1]; hout := [y] |} in
    let c := {| c_in := [0]; c_tr := [0]; c_as := [0]; ret_tr := []; ret_out := [] |} in
    if keep then
      Ok {| wh := {| hin := hin base ++ [u]; htr := htr base ++ [t]; has := has base ++ [s1];
                     hout := hout base ++ [y] |};
            ws := {| s_tr := 1; s_as := 1; s_in := 1; s_out := 0;
                     s_hist := Some {| hh_in := [2]; hh_tr := [2]; hh_as := [2]; hh_out := [1] |} |};
            wc := c |}
    else
      Ok {| wh := base; ws := {| s_tr := 1; s_as := 1; s_in := 1; s_out := 0; s_hist := None |}; wc := c |}.

  (** simulator.py lines 81-122, [step] with the input object at address [a].
      [None]: a dangling address (never happens). *)
  Definition h_step (h : heap) (s : hsim) (a : addr) : option (heap * hsim * res (addr * addr)) :=
    match read (hin h) a, read (hin h) (s_in s), read (htr h) (s_tr s), read (has h) (s_as s) with
    | Some u, Some p, Some t, Some ah =>
      (* lines 92-95; the model may write into the health object *)
      let (a1, r1) := cm_update M p u t ah in
      let has1 := write (has h) (s_as s) a1 in
      match r1 with
      | Err e => Some ({| hin := hin h; htr := htr h; has := has1; hout := hout h |}, s, Err e)
      | Ok t' =>
        let (htr1, at1) := alloc (htr h) t' in                  (* line 92 *)
        let (hin1, ain) := alloc (hin h) u in                   (* line 99 *)
        let (a2, r2) := cm_voltage M u t' a1 in                 (* lines 102-104 *)
        let has2 := write has1 (s_as s) a2 in
        match r2 with
        | Err e => Some ({| hin := hin1; htr := htr1; has := has2; hout := hout h |},
                         {| s_tr := at1; s_as := s_as s; s_in := ain; s_out := s_out s; s_hist := s_hist s |}, Err e)
        | Ok y =>
          let (hout1, ay) := alloc (hout h) y in                (* line 102 *)
          let (hout2, ay') := alloc hout1 y in                  (* line 107 *)
          match D a2 u t' y with                                (* lines 110-113 *)
          | Err e => Some ({| hin := hin1; htr := htr1; has := has2; hout := hout2 |},
                           {| s_tr := at1; s_as := s_as s; s_in := ain; s_out := ay'; s_hist := s_hist s |}, Err e)
          | Ok a3 =>
            let (has3, anew) := alloc has2 a3 in                (* line 110 *)
            let (has4, acopy) := alloc has3 a3 in               (* line 114 *)
            Some ({| hin := hin1; htr := htr1; has := has4; hout := hout2 |},
                  {| s_tr := at1; s_as := acopy; s_in := ain; s_out := ay';
                     s_hist := match s_hist s with              (* lines 116-120 *)
                               | None => None
                               | Some hh => Some {| hh_in := hh_in hh ++ [ain]; hh_tr := hh_tr hh ++ [at1];
                                                    hh_as := hh_as hh ++ [anew]; hh_out := hh_out hh ++ [ay] |}
                               end |},
                  Ok (at1, ay))                                 (* line 122 *)
          end
        end
      end
    | _, _, _, _ => None
    end.

  (** What a caller can do.  Indices count the objects of a kind the caller
      holds; an index the caller does not have is ignored. *)
  Inductive op :=
  | NewIn (v : In)                      (* create an input object *)
  | SetIn (i : nat) (v : In)            (* mutate one of its input objects *)
  | SetTr (i : nat) (v : Tr)            (* mutate a transient object it created *)
  | SetAs (i : nat) (v : As)            (* mutate a health object it created *)
  | SetRetTr (i : nat) (v : Tr)         (* mutate the transient returned by step i *)
  | SetRetOut (i : nat) (v : Out)       (* mutate the measurement returned by step i *)
  | DoStep (i : nat).                   (* call step with its i-th input object *)

  (** One operation; a step yields the outcome seen by the caller: the values
      returned or the exception. *)
  Definition h_op (w : world) (o : op) : option (world * list (res (Tr * Out))) :=
    let h := wh w in let c := wc w in
    match o with
    | NewIn v => let (hin1, a) := alloc (hin h) v in
        Some ({| wh := {| hin := hin1; htr := htr h; has := has h; hout := hout h |}; ws := ws w;
                 wc := {| c_in := c_in c ++ [a]; c_tr := c_tr c; c_as := c_as c;
                          ret_tr := ret_tr c; ret_out := ret_out c |} |}, [])
    | SetIn i v => Some (match nth_error (c_in c) i with
        | None => w
        | Some a => {| wh := {| hin := write (hin h) a v; htr := htr h; has := has h; hout := hout h |};
                       ws := ws w; wc := c |} end, [])
    | SetTr i v => Some (match nth_error (c_tr c) i with
        | None => w
        | Some a => {| wh := {| hin := hin h; htr := write (htr h) a v; has := has h; hout := hout h |};
                       ws := ws w; wc := c |} end, [])
    | SetAs i v => Some (match nth_error (c_as c) i with
        | None => w
        | Some a => {| wh := {| hin := hin h; htr := htr h; has := write (has h) a v; hout := hout h |};
                       ws := ws w; wc := c |} end, [])
    | SetRetTr i v => Some (match nth_error (ret_tr c) i with
        | None => w
        | Some a => {| wh := {| hin := hin h; htr := write (htr h) a v; has := has h; hout := hout h |};
                       ws := ws w; wc := c |} end, [])
    | SetRetOut i v => Some (match nth_error (ret_out c) i with
        | None => w
        | Some a => {| wh := {| hin := hin h; htr := htr h; has := has h; hout := write (hout h) a v |};
                       ws := ws w; wc := c |} end, [])
    | DoStep i =>
        match nth_error (c_in c) i with
        | None => Some (w, [])
        | Some a =>
          match h_step h (ws w) a with
          | None => None
          | Some (h', s', Err e) => Some ({| wh := h'; ws := s'; wc := c |}, [Err e])
          | Some (h', s', Ok (at1, ay)) =>
            match read (htr h') at1, read (hout h') ay with
            | Some t, Some y =>
              Some ({| wh := h'; ws := s';
                       wc := {| c_in := c_in c; c_tr := c_tr c; c_as := c_as c;
                                ret_tr := ret_tr c ++ [at1]; ret_out := ret_out c ++ [ay] |} |}, [Ok (t, y)])
            | _, _ => None
            end
          end
        end
    end.

  Fixpoint h_run (w : world) (os : list op) : option (world * list (res (Tr * Out))) :=
    match os with
    | [] => Some (w, [])
    | o :: os' =>
      match h_op w o with
      | None => None
      | Some (w1, r1) => match h_run w1 os' with
                         | None => None
                         | Some (w2, r2) => Some (w2, r1 ++ r2)
                         end
      end
    end.

  (** Following the addresses: the simulator as values. *)
  Definition reads {X} (h : store X) (l : list addr) : list (option X) := map (read h) l.
End SimHeap.
Arguments heap : clear implicits.
Arguments world : clear implicits.
Arguments op : clear implicits.

(** The RC elements of a template circuit as objects in memory.

    models/ecm/advancedSOH.py lines 56-131 ([ECMASOH.provide_template]), the
    part that builds [rc_elements] (lines 109-131); the other fields are built
    once each and are not shared.  Objects: a [Resistance] or [Capacitance] with
    its [base_values] (the other fields never change), and an [RCComponent] with
    references to its two parts.  [V]: values. *)
From Coq Require Import List Arith.
Import ListNotations.
From Verif Require Import Res SimHeap.

Section Template.
  Context {V : Type}.

  Inductive obj := OVal (v : V) | ORC (r c : addr).
  Definition mem := store obj.

  (** Lines 113-117, [num_RC] elements without values: one resistance and one
      capacitance; each element is a shallow copy of a new [RCComponent]. *)
  Fixpoint shared_elements (h : mem) (r c : addr) (n : nat) : mem * list addr :=
    match n with
    | 0 => (h, [])
    | S n' =>
      let (h1, _) := alloc h (ORC r c) in         (* RCComponent(r=RC_R, c=RC_C) *)
      let (h2, a) := alloc h1 (ORC r c) in        (* .model_copy(): same attributes *)
      let (h3, l) := shared_elements h2 r c n' in
      (h3, a :: l)
    end.

  (** Lines 122-129, explicit values. *)
  Fixpoint own_elements (h : mem) (rc : list (V * V)) : mem * list addr :=
    match rc with
    | [] => (h, [])
    | (vr, vc) :: rest =>
      let (h1, r) := alloc h (OVal vr) in
      let (h2, c) := alloc h1 (OVal vc) in
      let (h3, _) := alloc h2 (ORC r c) in
      let (h4, a) := alloc h3 (ORC r c) in
      let (h5, l) := own_elements h4 rest in
      (h5, a :: l)
    end.

  (** Lines 109-131; [dr], [dc] are the default values 0.01 and 2500. *)
  Definition provide_rc (dr dc : V) (h : mem) (num_rc : nat) (rc : option (list (V * V)))
    : res (mem * list addr) :=
    if Nat.eqb num_rc 0 then Ok (h, [])
    else match rc with
    | None => let (h1, r) := alloc h (OVal dr) in
              let (h2, c) := alloc h1 (OVal dc) in
              Ok (shared_elements h2 r c num_rc)
    | Some l => if Nat.eqb (length l) num_rc then Ok (own_elements h l) else Err ValueError
    end.

  Inductive part := PR | PC.

  (** The object behind [rc_elements.i.r] or [rc_elements.i.c]. *)
  Definition part_addr (h : mem) (circuit : list addr) (i : nat) (p : part) : option addr :=
    match nth_error circuit i with
    | None => None
    | Some a => match read h a with
                | Some (ORC r c) => Some (match p with PR => r | PC => c end)
                | _ => None
                end
    end.

  (** Reading and assigning its base values (base.py: getattr along the path,
      then setattr on the last object). *)
  Definition get_part (h : mem) (circuit : list addr) (i : nat) (p : part) : option V :=
    match part_addr h circuit i p with
    | None => None
    | Some a => match read h a with Some (OVal v) => Some v | _ => None end
    end.
  Definition set_part (h : mem) (circuit : list addr) (i : nat) (p : part) (v : V) : mem :=
    match part_addr h circuit i p with
    | None => h
    | Some a => write h a (OVal v)
    end.
  Definition set_parts (h : mem) (circuit : list addr) (ws : list (nat * part * V)) : mem :=
    fold_left (fun h w => set_part h circuit (fst (fst w)) (snd (fst w)) (snd w)) ws h.

  (** [copy.deepcopy] of the tuple of elements (HealthVariable.make_copy and
      model_copy(deep=True)): the memo remembers the copies already made. *)
  Definition memo := list (addr * addr).
  Fixpoint look (m : memo) (a : addr) : option addr :=
    match m with [] => None | (x, y) :: m' => if Nat.eqb x a then Some y else look m' a end.
  Definition copy_leaf (h : mem) (m : memo) (a : addr) (o : obj) : mem * memo * addr :=
    match look m a with
    | Some b => (h, m, b)
    | None => let (h1, b) := alloc h o in (h1, (a, b) :: m, b)
    end.
  Definition deref (h : mem) (a : addr) : obj :=
    match read h a with Some o => o | None => ORC 0 0 end.
  Definition copy_rc (h : mem) (m : memo) (a : addr) : mem * memo * addr :=
    match look m a with
    | Some b => (h, m, b)
    | None =>
      match deref h a with
      | OVal v => copy_leaf h m a (OVal v)
      | ORC r c =>
        let '(h1, m1, r') := copy_leaf h m r (deref h r) in
        let '(h2, m2, c') := copy_leaf h1 m1 c (deref h c) in
        let (h3, b) := alloc h2 (ORC r' c') in
        (h3, (a, b) :: m2, b)
      end
    end.
  Fixpoint copy_list (h : mem) (m : memo) (l : list addr) : mem * memo * list addr :=
    match l with
    | [] => (h, m, [])
    | a :: l' =>
      let '(h1, m1, b) := copy_rc h m a in
      let '(h2, m2, l2) := copy_list h1 m1 l' in
      (h2, m2, b :: l2)
    end.
  Definition deepcopy (h : mem) (circuit : list addr) : mem * list addr :=
    let '(h', _, l') := copy_list h [] circuit in (h', l').
End Template.
Arguments obj : clear implicits.
Arguments mem : clear implicits.

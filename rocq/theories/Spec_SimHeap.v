(** The simulator with values only, as a caller is meant to see it: what the
    caller does with its objects cannot reach the simulator, except that the
    transient state returned by the last successful step is still the
    simulator's own one, and the returned objects are the history entries. *)
From Coq Require Import List Arith.
Import ListNotations.
From Verif Require Import Res Simulator SimHeap.

Section Spec.
  Context {In Tr As Out : Type} (M : cell_model In Tr As Out) (D : degradation_model In Tr As Out).

  (** [p_in]: contents of the caller's input objects.  [p_ret]: number of
      successful steps.  [p_shared]: the step whose returned transient is the
      current state. *)
  Record pstate := { p_in : list In; p_sim : sim In Tr As Out; p_ret : nat; p_shared : option nat }.

  Definition set_hist_tr (h : option (history In Tr As Out)) (k : nat) (v : Tr) :=
    match h with
    | None => None
    | Some h => Some {| h_input := h_input h; h_transient := write (h_transient h) k v;
                        h_asoh := h_asoh h; h_output := h_output h |}
    end.
  Definition set_hist_out (h : option (history In Tr As Out)) (k : nat) (v : Out) :=
    match h with
    | None => None
    | Some h => Some {| h_input := h_input h; h_transient := h_transient h;
                        h_asoh := h_asoh h; h_output := write (h_output h) k v |}
    end.

  Definition p_op (p : pstate) (o : op In Tr As Out) : pstate * list (res (Tr * Out)) :=
    let s := p_sim p in
    match o with
    | NewIn v => ({| p_in := p_in p ++ [v]; p_sim := s; p_ret := p_ret p; p_shared := p_shared p |}, [])
    | SetIn i v => ({| p_in := write (p_in p) i v; p_sim := s; p_ret := p_ret p; p_shared := p_shared p |}, [])
    | SetTr _ _ | SetAs _ _ => (p, [])
    | SetRetTr i v =>
        (if Nat.ltb i (p_ret p) then
           {| p_in := p_in p;
              p_sim := {| transient := if match p_shared p with Some j => Nat.eqb i j | None => false end
                                       then v else transient s;
                          asoh := asoh s; previous_input := previous_input s;
                          measurement := measurement s; hist := set_hist_tr (hist s) (S i) v |};
              p_ret := p_ret p; p_shared := p_shared p |}
         else p, [])
    | SetRetOut i v =>
        (if Nat.ltb i (p_ret p) then
           {| p_in := p_in p;
              p_sim := {| transient := transient s; asoh := asoh s; previous_input := previous_input s;
                          measurement := measurement s; hist := set_hist_out (hist s) (S i) v |};
              p_ret := p_ret p; p_shared := p_shared p |}
         else p, [])
    | DoStep i =>
        match nth_error (p_in p) i with
        | None => (p, [])
        | Some u =>
          let (s', r) := step M D s u in
          match r with
          | Ok _ => ({| p_in := p_in p; p_sim := s'; p_ret := S (p_ret p); p_shared := Some (p_ret p) |}, [r])
          | Err _ =>
            (* the update raised: same state object; a later call raised: a new, unreturned one *)
            ({| p_in := p_in p; p_sim := s'; p_ret := p_ret p;
                p_shared := match snd (cm_update M (previous_input s) u (transient s) (asoh s)) with
                            | Err _ => p_shared p | Ok _ => None end |}, [r])
          end
        end
    end.

  Fixpoint p_run (p : pstate) (os : list (op In Tr As Out)) : pstate * list (res (Tr * Out)) :=
    match os with
    | [] => (p, [])
    | o :: os' => let (p1, r1) := p_op p o in let (p2, r2) := p_run p1 os' in (p2, r1 ++ r2)
    end.

  (** The simulator read off the memory. *)
  Definition view_hist (h : heap In Tr As Out) (hh : option hhist) (v : option (history In Tr As Out)) : Prop :=
    match hh, v with
    | None, None => True
    | Some a, Some b =>
        reads (hin h) (hh_in a) = map Some (h_input b) /\ reads (htr h) (hh_tr a) = map Some (h_transient b) /\
        reads (has h) (hh_as a) = map Some (h_asoh b) /\ reads (hout h) (hh_out a) = map Some (h_output b)
    | _, _ => False
    end.
  Definition view (w : world In Tr As Out) (s : sim In Tr As Out) : Prop :=
    read (htr (wh w)) (s_tr (ws w)) = Some (transient s) /\
    read (has (wh w)) (s_as (ws w)) = Some (asoh s) /\
    read (hin (wh w)) (s_in (ws w)) = Some (previous_input s) /\
    read (hout (wh w)) (s_out (ws w)) = Some (measurement s) /\
    view_hist (wh w) (s_hist (ws w)) (hist s).
End Spec.
Arguments pstate : clear implicits.

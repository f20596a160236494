(** The loss as an object in memory (C72: what an evaluation writes to). *)
From Verif Require Import SimHeap SimHeap_proofs.
From Coq Require Import String List Arith Bool Reals Lia.
Import ListNotations.
From Verif Require Import Res Arr NdArray Container Health Simulator Interface Offline LossHeap LossHeap_proofs.
Local Open Scope string_scope.
Local Open Scope list_scope.
Notation mem := (heap (container R) (container R) (hv R) (container R)).

(** No object that existed before an evaluation is modified by it, also if it raises;
    in particular not the guesses.  The outcome is the one of the value model. *)
Theorem C72_evaluation_modifies_nothing : forall is_finite (h : mem) l x va vt,
  read (has h) (hl_asoh l) = Some va -> read (htr h) (hl_state l) = Some vt ->
  exists h', h_loss is_finite h l x = Some (h', mean_squared_loss is_finite (Loss (hl_model l) va vt (hl_data l)) x) /\
    (forall b v, read (has h) b = Some v -> read (has h') b = Some v) /\
    (forall b v, read (htr h) b = Some v -> read (htr h') b = Some v) /\
    (forall b v, read (hin h) b = Some v -> read (hin h') b = Some v) /\
    (forall b v, read (hout h) b = Some v -> read (hout h') b = Some v).
Proof.
  intros fin h l x va vt Ra Rt. destruct (h_loss_spec fin h l x va vt Ra Rt) as (h' & E & [_ K1] & [_ K2] & [_ K3] & [_ K4]).
  exists h'. split; [exact E|].
  repeat split; intros b v Hv; pose proof (read_lt _ _ _ Hv); rewrite ?K1, ?K2, ?K3, ?K4; auto.
Qed.
Print Assumptions C72_evaluation_modifies_nothing.

(** Hence evaluations do not influence each other. *)
Theorem C72_evaluations_are_independent : forall is_finite xs (h : mem) l va vt,
  read (has h) (hl_asoh l) = Some va -> read (htr h) (hl_state l) = Some vt ->
  exists h', h_losses is_finite h l xs =
    Some (h', map (mean_squared_loss is_finite (Loss (hl_model l) va vt (hl_data l))) xs) /\
    read (has h') (hl_asoh l) = Some va /\ read (htr h') (hl_state l) = Some vt.
Proof.
  intros fin xs. induction xs as [|x xs IH]; intros h l va vt Ra Rt; cbn [h_losses map].
  - exists h. auto.
  - destruct (C72_evaluation_modifies_nothing fin h l x va vt Ra Rt) as (h1 & -> & Ka & Kt & _).
    destruct (IH h1 l va vt) as (h2 & -> & R1 & R2); auto. exists h2. auto.
Qed.
Print Assumptions C72_evaluations_are_independent.

(** The loss keeps copies: whatever the caller writes to the objects it had when it
    created the loss, the outcomes are those for the guesses at that time. *)
Theorem C72_caller_cannot_reach_the_guess : forall is_finite (h : mem) m a t data h1 l va vt ws_as ws_tr xs,
  read (has h) a = Some va -> read (htr h) t = Some vt -> h_new h m a t data = Some (h1, l) ->
  Forall (fun bv => fst bv < List.length (has h)) ws_as -> Forall (fun bv => fst bv < List.length (htr h)) ws_tr ->
  let h2 := set_tr (set_as h1 (fold_left (fun s bv => write s (fst bv) (snd bv)) ws_as (has h1)))
                   (fold_left (fun s bv => write s (fst bv) (snd bv)) ws_tr (htr h1)) in
  exists h3, h_losses is_finite h2 l xs = Some (h3, map (mean_squared_loss is_finite (Loss m va vt data)) xs).
Proof.
  intros fin h m a t data h1 l va vt ws_as ws_tr xs Ra Rt E Fa Ft h2.
  unfold h_new, alloc in E. rewrite Ra, Rt in E. injection E as <- <-.
  assert (W : forall X n (ws : list (nat * X)) s, Forall (fun bv => fst bv < n) ws ->
    read (fold_left (fun s bv => write s (fst bv) (snd bv)) ws s) n = read s n).
  { intros X n ws. induction ws as [|[b v] ws IH]; intros s F; [reflexivity|]. inversion F; subst. cbn in *.
    rewrite IH by assumption. apply read_write_other. lia. }
  edestruct (C72_evaluations_are_independent fin xs h2) as (h3 & E & _).
  3:{ exists h3. rewrite E. reflexivity. }
  - cbn. rewrite W by assumption. apply read_alloc_new.
  - cbn. rewrite W by assumption. apply read_alloc_new.
Qed.
Print Assumptions C72_caller_cannot_reach_the_guess.

(** ** A concrete case *)
Module Concrete.
Local Open Scope R_scope.

(** A model that overwrites the health variable it is given. *)
Definition voltage (u t : container R) (a : hv R) : hv R * res (container R) :=
  (HV false ["r"] [("r", FVal (V2 (mkArr 1 [[9]])))],
   match getattr t "soc" with Ok (Some m) => Ok [("terminal_voltage", Some m)] | _ => Err AttributeError end).
Definition model : cmodel := {| cm_update := fun _ _ t a => (a, Ok t); cm_voltage := voltage |}.
Definition guess : hv R := HV false ["r"] [("r", FVal (V2 (mkArr 1 [[2]])))].
Definition state : container R := [("soc", Some (mkArr 1 [[4]]))].
Definition data : Interface.frame R := Frame R ["test_time"; "current"; "voltage"] [[0; 1; 3]; [1; 1; 5]].
Definition start : mem := {| hin := []; htr := [state]; has := [guess]; hout := [] |}.

Example C72_memory_case : exists h1 l h2 v, h_new start model 0%nat 0%nat (Some data) = Some (h1, l) /\
  h_loss (fun _ => true) h1 l (mkArr 2 [[3; 7]]) = Some (h2, Ok [v]) /\
  read (has h2) (hl_asoh l) = Some guess /\ (2 < List.length (has h2))%nat /\
  read (has h2) 2%nat = Some (HV false ["r"] [("r", FVal (V2 (mkArr 1 [[9]])))]).
Proof. do 4 eexists. split; [reflexivity|]. split; [reflexivity|]. repeat split. cbn. lia. Qed.
End Concrete.

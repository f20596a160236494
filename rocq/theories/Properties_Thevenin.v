(** Properties of the interface to the Thevenin package (C75-C77).  [build] and [run] stand
    for the package: any functions, which may raise. *)
From Coq Require Import String List Arith Bool Reals Lia Lra.
Import ListNotations.
From Verif Require Import Res Arr Container Spec_Container Thevenin Spec_Thevenin Thevenin_proofs.
Local Open Scope string_scope.
Local Open Scope list_scope.

(** ** C75 *)

(** The stored temperatures play no role: other temperatures (of the same shape) give the
    same result, or the same exception. *)
Theorem C75_temperature_ignored : forall mdl build run iso prev new t a other,
  acols other = acols (temp t) -> anrows other = anrows (temp t) ->
  update_transient_state mdl build run iso prev new (Transient (soc t) other (eta t)) a =
  update_transient_state mdl build run iso prev new t a.
Proof. exact update_temperature. Qed.
Print Assumptions C75_temperature_ignored.

(** Of the previous inputs only the time plays a role. *)
Theorem C75_previous_inputs : forall mdl build run iso prev prev' new t a,
  time prev' = time prev ->
  update_transient_state mdl build run iso prev' new t a = update_transient_state mdl build run iso prev new t a.
Proof. exact update_previous. Qed.
Print Assumptions C75_previous_inputs.

(** ** C76 *)

(** Member b of the result is the result for member b on its own; there are as many members
    as the largest array of the new inputs, the state and the health parameters has rows. *)
Theorem C76_members_independent : forall mdl build run iso prev new t a c,
  proper_inputs prev -> proper_inputs new -> proper_transient t -> proper_asoh a ->
  update_transient_state mdl build run iso prev new t a = Ok c ->
  (forall k f, has_field c k f -> anrows f = most_rows (all_arrays new t a)) /\
  forall b, b < most_rows (all_arrays new t a) -> exists c1,
    update_transient_state mdl build run iso (one_inputs b prev) (one_inputs b new) (one_transient b t) (one_asoh b a) = Ok c1 /\
    member_values c b = member_values c1 0.
Proof. exact update_alone. Qed.
Print Assumptions C76_members_independent.

(** If it raises, then it also raises for some member on its own. *)
Theorem C76_failures : forall mdl build run iso prev new t a e B,
  proper_inputs prev -> proper_inputs new -> proper_transient t -> proper_asoh a ->
  agree_on B (all_arrays new t a) ->
  update_transient_state mdl build run iso prev new t a = Err e ->
  exists b, b < most_rows (all_arrays new t a) /\
    update_transient_state mdl build run iso (one_inputs b prev) (one_inputs b new) (one_transient b t) (one_asoh b a) = Err e.
Proof. exact update_fails. Qed.
Print Assumptions C76_failures.

(** What the package is asked for member b, and where the answer goes: a model with the
    parameters of that member, started from its state of charge and overpotentials, with the
    opposite current, for the time since the previous inputs. *)
Theorem C76_result_of_member : forall mdl build run iso prev new t a c B,
  proper_inputs prev -> proper_inputs new -> proper_transient t -> proper_asoh a ->
  agree_on B (all_arrays new t a) -> anrows (time prev) = 1 \/ anrows (time prev) = B ->
  shaped a -> List.length (rs a) = S (List.length (cs a)) -> acols (eta t) = List.length (cs a) ->
  update_transient_state mdl build run iso prev new t a = Ok c ->
  forall b, b < most_rows (all_arrays new t a) -> exists p m sol,
    describes_member iso new t a b p /\ build p = Ok m /\
    run m (if Nat.eqb (List.length (cs a)) 0 then None else Some (member b (eta t)))
        (map Ropp (member b (current new))) (value_of b (time new) - value_of b (time prev))%R = Ok sol /\
    member_values c b = sol_soc sol :: sol_temp sol :: map (sol_eta sol) (seq 0 (List.length (cs a))).
Proof. exact update_result. Qed.
Print Assumptions C76_result_of_member.

(** It only succeeds if the state has one overpotential for each RC element, if there are
    RC elements: that also a single one could start several elements does not help, since the
    results of the elements do not fit in. *)
Theorem C76_overpotentials : forall mdl build run iso prev new t a c,
  proper_inputs prev -> proper_inputs new -> proper_transient t -> proper_asoh a ->
  update_transient_state mdl build run iso prev new t a = Ok c -> cs a <> [] -> acols (eta t) = List.length (cs a).
Proof.
  intros mdl build run iso prev new t a c PP PN PT PA H NE.
  pose proof PT as ((_ & Ls) & _ & (We & Le) & Cs & Ct).
  destruct (update_rows mdl build run iso prev new t a c Ls H) as (rows & LR & -> & HR).
  assert (B : 0 < most_rows (all_arrays new t a)).
  { unfold all_arrays, most_rows. cbn. lia. }
  destruct (HR 0 B) as [E _]. unfold update_member in E.
  apply bind_ok in E as ([m e] & Em & E). apply bind_ok in E as (x1 & _ & E). apply bind_ok in E as (x2 & _ & E).
  apply bind_ok in E as (x3 & _ & E). apply bind_ok in E as (sol & _ & E).
  rewrite clen_transient, Cs, Ct in E. destruct (Nat.ltb_spec (1 + 1 + acols (eta t)) (2 + List.length (cs a))) as [|Hw]; [discriminate|].
  unfold make_model in Em. cbv zeta in Em. do 10 (apply bind_ok in Em as (? & _ & Em)).
  assert (N : 0 < List.length (cs a)) by (destruct (cs a); [contradiction|cbn; lia]).
  destruct (Nat.ltb_spec 0 (List.length (cs a))); [|lia]. apply bind_ok in Em as (er & Er & Em).
  assert (Lr : List.length er = acols (eta t)).
  { unfold row_mod in Er. destruct (Nat.eqb (anrows (eta t)) 0); [discriminate|].
    unfold row in Er. destruct (nth_error (arows (eta t)) (0 mod anrows (eta t))) as [r|] eqn:Hr; [|discriminate].
    cbn in Er. assert (r = er) by congruence. subst r. apply nth_error_In in Hr. unfold wf_arr in We. rewrite Forall_forall in We. now apply We. }
  destruct (Nat.eqb_spec (List.length er) (List.length (cs a))) as [El|El]; [lia|].
  destruct er as [|v [|w er]]; try discriminate. cbn [List.length] in *. lia.
Qed.
Print Assumptions C76_overpotentials.

(** ** C77 *)

(** Health parameters are accepted iff there is one more resistor than capacitors and all
    arrays agree on the number of members; otherwise there is a ValidationError. *)
Theorem C77_construction : forall a, proper_asoh a ->
  (make_asoh a = Ok a <-> List.length (rs a) = S (List.length (cs a)) /\ exists B, agree_on B (asoh_arrays a)) /\
  (make_asoh a = Ok a \/ make_asoh a = Err ValidationError).
Proof. exact make_asoh_ok. Qed.
Print Assumptions C77_construction.

(** Polynomials of member b. *)
Theorem C77_soc_polynomial : forall coeffs b x,
  proper coeffs -> 1 <= acols coeffs -> anrows coeffs = 1 \/ b < anrows coeffs ->
  at_soc (poly_row coeffs b) x = Ok (polynomial (member b coeffs) x).
Proof. exact at_soc_value. Qed.
Print Assumptions C77_soc_polynomial.

Theorem C77_temperature_polynomial : forall v b x temperature,
  Forall proper (tpoly_arrays v) -> shaped_tpoly v ->
  Forall (fun m => anrows m = 1 \/ b < anrows m) (tpoly_arrays v) ->
  tpoly_member v b x temperature =
    Ok (polynomial (member b (soc_coeffs v)) x + polynomial (member b (t_coeffs v)) (temperature - value_of b (t_ref v)))%R.
Proof. intros v b x y F S G. now apply tpoly_member_value. Qed.
Print Assumptions C77_temperature_polynomial.

(** The terminal voltage of member b: open-circuit voltage, plus the current times the series
    resistance, less the overpotentials. *)
Theorem C77_terminal_voltage : forall u t a r0 B, 1 <= B ->
  proper_inputs u -> proper_transient t -> proper (ocv a) -> 1 <= acols (ocv a) ->
  nth_error (rs a) 0 = Some r0 -> Forall proper (tpoly_arrays r0) -> shaped_tpoly r0 ->
  agree_on B ([soc t; temp t; eta t; current u; ocv a] ++ tpoly_arrays r0) ->
  exists m, calculate_terminal_voltage u t a = Ok [("terminal_voltage", Some m)] /\ wf_arr m /\ acols m = 1 /\
    anrows m = most_rows ([soc t; temp t; eta t; current u; ocv a] ++ tpoly_arrays r0) /\
    forall b, b < B -> member b m =
      [(polynomial (member b (ocv a)) (value_of b (soc t)) +
        value_of b (current u) * tpoly_value b r0 (value_of b (soc t)) (value_of b (temp t)) -
        fold_right Rplus 0 (member b (eta t)))%R].
Proof. exact voltage_per. Qed.
Print Assumptions C77_terminal_voltage.

(** The state made for a circuit: the given state of charge and temperature, one overpotential
    for each RC element, all zero; so the voltage has no part from them. *)
Theorem C77_initial_state : forall u a r0 x temperature B, 1 <= B -> make_asoh a = Ok a -> proper_asoh a -> shaped a ->
  nth_error (rs a) 0 = Some r0 -> agree_on B (asoh_arrays a) ->
  proper_inputs u -> agree_on B [current u] ->
  let t := from_asoh a x temperature in
  proper_transient t /\ acols (eta t) = List.length (cs a) /\ List.length (rs a) = S (acols (eta t)) /\
  (forall b, value_of b (soc t) = x /\ value_of b (temp t) = temperature /\ member b (eta t) = repeat 0%R (List.length (cs a))) /\
  exists m, calculate_terminal_voltage u t a = Ok [("terminal_voltage", Some m)] /\
    forall b, b < B -> member b m =
      [(polynomial (member b (ocv a)) x + value_of b (current u) * tpoly_value b r0 x temperature)%R].
Proof.
  intros u a r0 x temperature B HB Hm Pa Sh Hr Ag Pu Au t.
  assert (Pt : proper_transient t).
  { unfold t, from_asoh, proper_transient, proper, wf_arr. cbn. repeat split; repeat constructor. apply repeat_length. }
  destruct (proj1 (proj1 (C77_construction a Pa)) Hm) as [L _].
  assert (Mb : forall b, value_of b (soc t) = x /\ value_of b (temp t) = temperature /\ member b (eta t) = repeat 0%R (List.length (cs a))) by (intros b; repeat split).
  split; [exact Pt|]. split; [reflexivity|]. split; [exact L|]. split; [exact Mb|].
  pose proof (nth_error_In _ _ Hr) as Hin.
  assert (Sub : forall m, In m (tpoly_arrays r0) -> In m (asoh_arrays a)).
  { intros m Hi. unfold asoh_arrays. apply in_or_app. right. apply in_or_app. left. apply in_flat_map. now exists r0. }
  assert (Oc : In (ocv a) (asoh_arrays a)) by (unfold asoh_arrays; cbn; tauto).
  unfold proper_asoh in Pa. unfold agree_on in *. rewrite Forall_forall in Pa, Ag.
  destruct Sh as (_ & _ & _ & _ & _ & So & Sr & _). rewrite Forall_forall in Sr.
  destruct (C77_terminal_voltage u t a r0 B HB Pu Pt (Pa _ Oc) So Hr) as (m & E & _ & _ & _ & V).
  - apply Forall_forall. intros m Hi. apply Pa, Sub, Hi.
  - apply Sr, Hin.
  - apply Forall_forall. intros m Hi. apply in_app_or in Hi as [Hi|Hi]; [|now apply Ag, Sub].
    cbn in Hi. destruct Hi as [<-|[<-|[<-|[<-|[<-|[]]]]]]; [now left|now left|now left|exact (Forall_inv Au)|now apply Ag].
  - exists m. split; [exact E|]. intros b Hb. rewrite (V b Hb). destruct (Mb b) as (-> & -> & ->).
    f_equal. assert (Z : forall n, fold_right Rplus 0%R (repeat 0%R n) = 0%R) by (induction n as [|n IH]; cbn; [reflexivity|rewrite IH; apply Rplus_0_l]).
    rewrite Z. apply Rminus_0_r.
Qed.
Print Assumptions C77_initial_state.

(** * A concrete case: two members, two resistors, a capacitor, and a package that stores
    what it is given. *)
Module Concrete.
Local Open Scope R_scope.
Definition one (x : R) : arr R := mkArr 1 [[x]].
Definition two (x y : R) : arr R := mkArr 1 [[x]; [y]].
Definition r0 : tpoly := TPoly (one 298) (mkArr 2 [[1; 2]]) (mkArr 2 [[0; 1]; [0; 3]]).
Definition r1 : tpoly := TPoly (one 298) (one 5) (one 0).
Definition c1 : tpoly := TPoly (one 298) (one 7) (one 0).
Definition health : asoh := Asoh (one 10) (one 1) (one 100) (one 12) (one 1) (mkArr 3 [[3; 1; 1]]) [r0; r1] [c1].
Definition state : transient := Transient (two 0 1) (one 300) (two 4 6).
Definition u (s i : R) : inputs := Inputs (one s) (one i) (one 298).

(** A package whose state of charge changes by the charge over the capacity; the
    overpotentials stay and the temperature is the ambient one. *)
Definition build (p : params) : res params := Ok p.
Definition run (m : params) (e : option (list R)) (i : list R) (duration : R) : res solution :=
  Ok (Solution (soc0 m - nth 0 i 0 * duration / p_capacity m) (p_tinf m)
               (fun j => nth j (match e with Some l => l | None => [] end) 0)).

Example hypotheses :
  proper_inputs (u 0 1) /\ proper_inputs (u 2 1) /\ proper_transient state /\ proper_asoh health /\
  agree_on 2 (all_arrays (u 2 1) state health) /\ most_rows (all_arrays (u 2 1) state health) = 2%nat /\
  shaped health /\ List.length (rs health) = S (List.length (cs health)) /\ acols (eta state) = List.length (cs health).
Proof.
  unfold proper_inputs, proper_transient, proper_asoh, agree_on, shaped, shaped_tpoly, proper, wf_arr.
  repeat match goal with |- _ /\ _ => split end; cbn; try reflexivity; try lia;
    repeat (apply Forall_cons; [cbn; repeat split; auto; try lia; repeat constructor|]); try apply Forall_nil.
Qed.

Example C75_case : exists s0 s1,
  update_transient_state params build run false (u 0 1) (u 2 1) (Transient (soc state) (one 350) (eta state)) health =
    Ok [("soc", Some (two s0 s1)); ("temp", Some (two 298 298)); ("eta", Some (two 4 6))] /\
  s0 = 2 / 10 /\ s1 = 1 + 2 / 10.
Proof.
  eexists _, _. split; [cbn; reflexivity|]. split; cbn; lra.
Qed.

Example C76_case : exists c,
  update_transient_state params build run false (u 0 1) (u 2 1) state health = Ok c /\
  nth 0 (member_values c 0) 0 = 2 / 10 /\ nth 0 (member_values c 1) 0 = 1 + 2 / 10 /\
  nth 2 (member_values c 1) 0 = 6.
Proof.
  eexists. split; [cbn; reflexivity|]. cbn. split; [lra|]. split; [lra|reflexivity].
Qed.

Example C77_case :
  make_asoh health = Ok health /\
  make_asoh (Asoh (one 10) (one 1) (one 100) (one 12) (one 1) (one 3) [r0; r1] []) = Err ValidationError /\
  eta (from_asoh health 1 300) = one 0 /\
  (** at SOC 1, 300 K: 1 + 2 + 3 * 2 for the second member *)
  tpoly_value 1 r0 1 300 = 9 /\ polynomial [3; 1; 1] 2 = 9.
Proof.
  split; [reflexivity|]. split; [reflexivity|]. split; [reflexivity|]. unfold tpoly_value, polynomial, value_of. cbn. split; lra.
Qed.
End Concrete.

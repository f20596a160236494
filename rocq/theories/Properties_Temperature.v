(** C119: missing temperatures. *)
From Coq Require Import String List Arith Bool Reals Lia Lra.
Import ListNotations.
From Verif Require Properties_ECM_joint Interface_ECM_case.
From Verif Require Import Res Arr Arr_lemmas NdArray Container Spec_Container Container_proofs Health Spec_Health NdR Interp ECM Spec_ECM
  Simulator Spec_Simulator Properties_Simulator Interface Spec_Interface Offline Spec_Offline Offline_proofs Properties_Offline
  Batdata Properties_Batdata ECM_objects Spec_ECM_objects ECM_circuit Spec_Fit Fit_ECM Properties_Fit Simulated_data Spec_Temperature.
Local Open Scope string_scope.
Local Open Scope list_scope.

Section Cells.
Variable spline : nat -> list R -> res (list R -> R -> R).
Variables (e : ecm_asoh) (T : R).
Hypothesis reference : measured_at T e.
Notation c := (Spec_ECM.cell_of spline e 0).

Lemma res_neutral r v : (forall x, res_tref r = Some x -> x = T) -> res_at spline r 0 v (Some T) = res_at spline r 0 v None.
Proof.
  intros H. unfold res_at. replace (match res_tref r with Some x => x | None => T end) with T.
  - replace (- num (res_fac r) 0 * (T - T))%R with 0%R by ring. rewrite exp_0. ring.
  - destruct (res_tref r) as [x|]; [symmetry; now apply H|reflexivity].
Qed.
Lemma rc_same v u : forall els is, (forall el x, In el els -> res_tref (rc_r el) = Some x -> x = T) ->
  rc_sum is (map (fun el => (res_at spline (rc_r el) 0, sih_at spline (rc_c el) 0)) els) v (uT (at_least T u))
  = rc_sum is (map (fun el => (res_at spline (rc_r el) 0, sih_at spline (rc_c el) 0)) els) v (uT u).
Proof.
  destruct u as [tm i [t|]]; [reflexivity|]. cbn [at_least uT].
  induction els as [|el els IH]; intros is H; [now destruct is|]. destruct is as [|x is]; [reflexivity|]. cbn [map rc_sum fst].
  rewrite IH by (intros; eapply H; [right|]; eauto). rewrite res_neutral; [reflexivity|]. intros y. apply H. now left.
Qed.
Lemma voltage_same u s : voltage c (at_least T u) s = voltage c u s.
Proof.
  destruct reference as (Ho & Hr & Hc). unfold voltage. cbn [OCV_ R0_ C0_ RC_ cell_of]. rewrite rc_same by exact Hc.
  change (ui (at_least T u)) with (ui u). do 2 f_equal. destruct u as [tm i [t|]]; [reflexivity|]. cbn [at_least uT ui].
  rewrite res_neutral by exact Hr. unfold ocv_at. rewrite Ho. do 2 f_equal. ring.
Qed.
Lemma elements_same (f : R -> R -> R) p s : map (fun x => f (fst (snd x) (xsoc s) (uT (at_least T p)) * snd (snd x) (xsoc s))%R (fst x)) (combine (xi s) (RC_ c))
  = map (fun x => f (fst (snd x) (xsoc s) (uT p) * snd (snd x) (xsoc s))%R (fst x)) (combine (xi s) (RC_ c)).
Proof.
  destruct reference as (_ & _ & Hc). cbn [RC_ cell_of]. destruct p as [tm i [t|]]; [reflexivity|]. cbn [at_least uT].
  generalize (xi s). revert Hc. generalize (rcs e). induction l as [|el els IH]; intros Hc is; [now destruct is|].
  destruct is as [|x is]; [reflexivity|]. cbn [map combine fst snd].
  rewrite IH by (intros; eapply Hc; [right|]; eauto). rewrite res_neutral; [reflexivity|]. intros y. apply Hc. now left.
Qed.
Lemma next_same mode p u s : next mode c (at_least T p) (at_least T u) s = next mode c p u s.
Proof.
  destruct mode; cbn [next]; unfold next_constant, next_linear; cbv zeta.
  - f_equal. exact (elements_same (fun tau => rc_relax tau (ut u - ut p) (ui u)) p s).
  - f_equal. exact (elements_same (fun tau => rc_ramp tau (ut u - ut p) ((ui u - ui p) / (ut u - ut p)) (ui u)) p s).
Qed.

(** A missing temperature has the same effect as the temperature at which the parameters of
    the circuit were measured, on all states and voltages. *)
Theorem C119_missing_is_reference : forall mode s first later,
  Spec_ECM.run mode c (at_least T first) s (map (at_least T) later) = Spec_ECM.run mode c first s later /\
  circuit_voltages mode c s (at_least T first) (map (at_least T) later) = circuit_voltages mode c s first later.
Proof.
  intros mode s first later.
  assert (H : forall l p s, Spec_ECM.run mode c (at_least T p) s (map (at_least T) l) = Spec_ECM.run mode c p s l).
  { induction l as [|u l IH]; intros p s0; [reflexivity|]. cbn [map Spec_ECM.run]. now rewrite next_same, IH. }
  split; [apply H|]. unfold circuit_voltages. rewrite voltage_same, H. f_equal.
  generalize (Spec_ECM.run mode c first s later). induction later as [|u l IH]; intros ss; [reflexivity|].
  destruct ss as [|s1 ss]; [reflexivity|]. cbn [map combine fst snd]. now rewrite voltage_same, IH.
Qed.
End Cells.
Print Assumptions C119_missing_is_reference.

Section Circuit.
Variable is_finite : R -> bool.
Variable nan : R.
Variable spline : nat -> list R -> res (list R -> R -> R).
Variable X : settings.
Variable mode : behavior.
Notation M := (ecm_cell spline X mode).
Variables (a : hv R) (e : ecm_asoh) (s : cstate) (x0 : R * R * option R) (xs : list (R * R * option R)).
Hypothesis Ca : circuit_of X a e.
Hypothesis Oa : asoh_ok 1 e.
Hypothesis Ua : usable_asoh spline e.
Hypothesis Ln : List.length (xi s) = List.length (rcs e).
Hypothesis HC : xq s <> None -> c0 e <> None.
Hypothesis HT : tempered is_finite (x0 :: xs).
Hypothesis HD : mode = Linear -> distinct_times (numbers x0) (map numbers xs).
Notation truth := (Spec_ECM.cell_of spline e 0).
(** The voltages that are simulated and exported, and those of the same circuit and state with
    the temperatures that are read from the exported data. *)
Notation simulated := (circuit_voltages mode truth s (numbers x0) (map numbers xs)).
Notation reread := (circuit_voltages mode truth s (numbers (known x0)) (map numbers (map known xs))).

Lemma predicted_circuit y0 ys : (mode = Linear -> distinct_times (numbers y0) (map numbers ys)) ->
  predicted M a (state_with s) (given R y0) (map (given R) ys) (circuit_voltages mode truth s (numbers y0) (map numbers ys)).
Proof.
  intros D. pose proof (circuit_read X a e Ca) as Ra.
  destruct (cell_voltage_total spline X mode y0 s a e Ra Oa Ua Ln HC) as (a0 & y & V).
  destruct (cell_voltage spline X mode y0 s a a0 y e Ra Oa Ln V) as (Ea0 & Ey).
  set (e0 := after_voltage (input_with y0) (ecm_with s) e) in *.
  assert (L0 : List.length (xi s) = List.length (rcs e0)) by (unfold e0; now rewrite ECM_batch.length_rcs_voltage).
  assert (C0 : xq s <> None -> c0 e0 <> None).
  { intros H. specialize (HC H). unfold e0. cbn [after_voltage c0]. destruct (q0 (ecm_with s)); [|exact HC]. destruct (c0 e); [discriminate|contradiction]. }
  destruct (cell_trajectory spline X mode ys y0 s a0 e0 Ea0 (ECM_batch.asoh_after_voltage 1 _ _ e Oa) (ECM_total.usable_voltage spline _ _ e Ua) L0 C0 D) as (st & Tr & Eo).
  unfold e0 in Eo. rewrite ECM_batch.cell_after_voltage in Eo.
  exists a0, y, st. split; [exact V|]. split; [exact Tr|]. rewrite Eo, Ey. apply (terminals_single (_ :: _)).
Qed.

(** The loss of the true values on the data of a simulation compares these two. *)
Theorem C119_loss_of_truth : forall sim sim' ys extra d ex guess_a guess_t h r,
  init M a (state_with s) (given R x0) true = Ok sim -> evolve M no_degradation sim (map (given R) xs) = (sim', Ok ys) ->
  to_batdata R nan sim' extra = Ok [(d, ex)] ->
  update_parameters guess_a (V2 (row_of h)) (updatable_names guess_a) = (a, Ok tt) ->
  make_copy guess_t (V2 (row_of r)) = state_with s -> List.length r = clen guess_t ->
  mean_squared_loss is_finite (Loss M guess_a guess_t (Some d)) (row_of (r ++ h)) = Ok [mean_square_difference reread simulated] /\
  (mean_square_difference reread simulated = 0%R <-> reread = simulated).
Proof.
  intros sim sim' ys extra d ex ga gt h r I Ev Ed Hh Hr Lr.
  destruct (simulated_circuit is_finite nan spline X mode a e s x0 xs extra Ca Oa Ua Ln HC HT HD) as (sm & sm' & ys' & d' & ex' & I' & Ev' & Ed' & _ & Nc & Fl & Rd).
  rewrite I in I'. apply (f_equal (fun r => match r with Ok x => x | Err _ => sim end)) in I'. subst sm.
  rewrite Ev in Ev'. apply (f_equal fst) in Ev'. cbn [fst] in Ev'. subst sm'.
  rewrite Ed in Ed'. apply (f_equal (fun r => match r with Ok [(x, _)] => x | _ => d end)) in Ed'. subst d'.
  destruct (truth_parts gt h r Lr) as [P1 P2].
  pose proof (voltages_length mode truth s (numbers x0) (map numbers xs)) as Lv. rewrite map_length in Lv.
  assert (F : Forall2 (observed is_finite (f_columns R d)) (f_rows R d) (combine (map (fun x => given R (known x)) (x0 :: xs)) simulated)).
  { revert Rd. generalize (f_rows R d) (map (fun x => given R (known x)) (x0 :: xs)) simulated. clear.
    intros rs. induction rs as [|row rows IH]; intros us vs H; cbn in H.
    - destruct us as [|u us], vs as [|v vs]; try discriminate; constructor.
    - apply bind_ok in H as ([u y] & Hu & H). apply bind_ok in H as (rest & Hrest & H). injection H as H.
      destruct us as [|u' us], vs as [|v vs]; try discriminate. cbn [map combine] in H. injection H as <- -> ->.
      cbn [combine]. constructor; [|now apply IH].
      apply row_inputs in Hu as (v' & Ho & E). unfold terminal, one, scalar in E. injection E as ->. exact Ho. }
  assert (D : mode = Linear -> distinct_times (numbers (known x0)) (map numbers (map known xs))).
  { intros m. specialize (HD m). clear - HD. revert x0 HD. induction xs as [|x l IH]; intros y HD; [exact I|]. destruct HD as [H1 H2].
    cbn [map distinct_times]. split; [|now apply IH]. now destruct x as [[? ?] ?], y as [[? ?] ?]. }
  assert (C : compared is_finite (Loss M ga gt (Some d)) (row_of (r ++ h)) simulated reread).
  { unfold circuit_voltages in F at 1, Lv. cbn [map combine] in F. cbn [List.length] in Lv. injection Lv as Lv.
    match type of F with Forall2 _ _ (_ :: combine _ ?ws) => set (vs := ws) in * end.
    exists d, (f_rows R d), a, (given R (known x0), voltage truth (numbers x0) s), (combine (map (fun x => given R (known x)) xs) vs).
    cbn [l_data l_asoh l_state l_model]. split; [reflexivity|]. split; [reflexivity|]. split; [rewrite P2; exact Hh|]. split; [exact F|]. cbn [fst snd].
    rewrite combine_fst by (now rewrite map_length). split.
    - rewrite P1, Hr. rewrite <- (map_map known (given R)). now apply predicted_circuit.
    - cbn [map snd]. rewrite combine_snd by (now rewrite map_length). reflexivity. }
  destruct (C72_one_vector is_finite (Loss M ga gt (Some d)) (row_of (r ++ h)) simulated reread) as (v & E & -> & _ & _ & Z); [repeat constructor|reflexivity|exact C|].
  split; [exact E|exact Z].
Qed.

(** Without temperatures, a circuit that was measured at 25 degrees is fitted exactly by the
    values that made the data. *)
Theorem C119_fit : measured_at 25%R e -> forall sim sim' ys extra d ex guess_a guess_t h r,
  init M a (state_with s) (given R x0) true = Ok sim -> evolve M no_degradation sim (map (given R) xs) = (sim', Ok ys) ->
  to_batdata R nan sim' extra = Ok [(d, ex)] ->
  update_parameters guess_a (V2 (row_of h)) (updatable_names guess_a) = (a, Ok tt) ->
  make_copy guess_t (V2 (row_of r)) = state_with s -> List.length r = clen guess_t ->
  mean_squared_loss is_finite (Loss M guess_a guess_t (Some d)) (row_of (r ++ h)) = Ok [0%R] /\ ys = map terminal (tl simulated).
Proof.
  intros Ref sim sim' ys extra d ex ga gt h r I Ev Ed Hh Hr Lr. split.
  - destruct (C119_loss_of_truth sim sim' ys extra d ex ga gt h r I Ev Ed Hh Hr Lr) as [E Z]. rewrite E. f_equal. f_equal. apply Z.
    assert (K : forall x, numbers (known x) = at_least 25%R (numbers x)) by (now intros [[? ?] [?|]]).
    rewrite K. replace (map numbers (map known xs)) with (map (at_least 25%R) (map numbers xs)).
    + now apply C119_missing_is_reference.
    + rewrite !map_map. apply map_ext. intros x. now rewrite K.
  - destruct (simulated_circuit is_finite nan spline X mode a e s x0 xs extra Ca Oa Ua Ln HC HT HD) as (sm & sm' & ys' & d' & ex' & I' & Ev' & _ & Em & _).
    rewrite I in I'. apply (f_equal (fun r => match r with Ok x => x | Err _ => sim end)) in I'. subst sm.
    rewrite Ev in Ev'. apply (f_equal (fun r => match snd r with Ok y => y | Err _ => ys end)) in Ev'. cbn [snd] in Ev'. subst ys'.
    unfold circuit_voltages in *. cbn [map tl] in *. now injection Em.
Qed.
End Circuit.
Print Assumptions C119_loss_of_truth.
Print Assumptions C119_fit.

(** * Cases: two cells without temperatures, with different reference temperatures of the
    open-circuit voltage *)
Module Concrete.
Import Interface_ECM_case Properties_ECM_joint.Concrete Properties_Fit.Concrete.
Definition later : list (R * R * option R) := [(60, 1, None); (120, 1, None)]%R.
Definition thermal (reference r : R) : hv R :=
  HV false ["r0"; "ce"; "rc_elements"]
    [("q_t", FSub (HV false [] [("base_values", row1 [10%R])]));
     ("ce", row1 [1%R]);
     ("ocv", FSub (HV false [] [("ocv_ref", FSub (curve [] [3%R; 4%R] [("reference_temperature", row1 [reference])]));
                                ("ocv_ent", FSub (curve [] [(1/1000)%R] []))]));
     ("r0", FSub (resistor r));
     ("c0", FOther);
     ("rc_elements", FTuple [element 1%R; element 2%R]);
     ("h0", FSub (curve [] [0%R] [("gamma", row1 [50%R])]))].
Lemma thermal_circuit reference r : exists e, circuit_of X (thermal reference r) e /\ asoh_ok 1 e /\ usable_asoh no_spline e /\ List.length (rcs e) = 2%nat /\
  num (ocv_tref (oc e)) 0 = reference /\ c2 (sv (ocv_ent (oc e))) = 1%nat /\ num (sv (ocv_ent (oc e))) 0 = (1/1000)%R /\
  res_tref (r0 e) = Some 25%R /\ num (res_fac (r0 e)) 0 = 0%R /\ Forall (fun c => res_tref (rc_r c) = Some 25%R) (rcs e).
Proof.
  eexists. split; [apply read_asoh_at; reflexivity|].
  split; [cbn; unfold asoh_ok, res_ok, rows_ok, column; cbn; repeat (split || constructor || lia || auto)|].
  split.
  { unfold usable_asoh, usable, grid. cbn.
    split; [right; split; [discriminate|split; [reflexivity|discriminate]]|].
    split; [now left|]. split; [now left|]. split; [discriminate|]. split; [exact I|]. split; [|now left].
    constructor; [|constructor; [|constructor]]; (split; [now left|split; [now left|discriminate]]). }
  split; [reflexivity|]. split; [reflexivity|]. split; [reflexivity|]. split; [reflexivity|]. split; [reflexivity|]. split; [reflexivity|].
  cbn. repeat constructor.
Qed.

(** Both are simulated from the true state and exported; the cell measured at 25 degrees is
    fitted by the values that made its data, the other one is not. *)
Definition loss_of_truth (reference : R) (v : R) : Prop :=
  exists e sim sim' ys d ex,
  circuit_of X (thermal reference 2) e /\ asoh_ok 1 e /\ usable_asoh no_spline e /\
  List.length (xi true_state) = List.length (rcs e) /\ (xq true_state <> None -> c0 e <> None) /\ tempered (fun _ => true) ((0, 1, None)%R :: later) /\
  init (ecm_cell no_spline X Constant) (thermal reference 2) (state_with true_state) (given R (0, 1, None)%R) true = Ok sim /\
  evolve (ecm_cell no_spline X Constant) no_degradation sim (map (given R) later) = (sim', Ok ys) /\
  to_batdata R 0%R sim' false = Ok [(d, ex)] /\
  update_parameters (thermal reference 5) (V2 (row_of [1; 2; 1; 2]%R)) (updatable_names (thermal reference 5)) = (thermal reference 2, Ok tt) /\
  make_copy (state_with guessed_state) (V2 (row_of [1/4; 0; 0; 0]%R)) = state_with true_state /\
  mean_squared_loss (fun _ => true) (Loss (ecm_cell no_spline X Constant) (thermal reference 5) (state_with guessed_state) (Some d))
    (row_of ([1/4; 0; 0; 0] ++ [1; 2; 1; 2])%R) = Ok [v].
Example C119_case : loss_of_truth 25%R 0%R.
Proof.
  destruct (thermal_circuit 25%R 2%R) as (e & C & O & U & L & T & _ & _ & T0 & _ & TR).
  assert (HC : xq true_state <> None -> c0 e <> None) by (intros H; now destruct H).
  assert (Ln : List.length (xi true_state) = List.length (rcs e)) by (now rewrite L).
  assert (HT : tempered (fun _ => true) ((0, 1, None)%R :: later)) by (right; repeat constructor).
  assert (HD : Constant = Linear -> distinct_times (numbers (0, 1, None)%R) (map numbers later)) by discriminate.
  destruct (simulated_circuit (fun _ => true) 0%R no_spline X Constant _ e true_state _ later false C O U Ln HC HT HD) as (sim & sim' & ys & d & ex & I & Ev & Ed & _).
  exists e, sim, sim', ys, d, ex. repeat (split; [assumption|]). split; [reflexivity|]. split; [reflexivity|].
  refine (proj1 (C119_fit (fun _ => true) 0%R no_spline X Constant _ e true_state _ later C O U Ln HC HT HD _ sim sim' ys false d ex _ _ _ _ I Ev Ed _ _ _)); try reflexivity.
  split; [exact T|]. split; [intros x H; congruence|]. intros c x Hc H. rewrite Forall_forall in TR. specialize (TR c Hc). congruence.
Qed.
Theorem C119_other_reference_refuted : exists v, loss_of_truth 30%R v /\ v <> 0%R.
Proof.
  destruct (thermal_circuit 30%R 2%R) as (e & C & O & U & L & T & E1 & E2 & T0 & TF & TR).
  assert (HC : xq true_state <> None -> c0 e <> None) by (intros H; now destruct H).
  assert (Ln : List.length (xi true_state) = List.length (rcs e)) by (now rewrite L).
  assert (HT : tempered (fun _ => true) ((0, 1, None)%R :: later)) by (right; repeat constructor).
  assert (HD : Constant = Linear -> distinct_times (numbers (0, 1, None)%R) (map numbers later)) by discriminate.
  destruct (simulated_circuit (fun _ => true) 0%R no_spline X Constant _ e true_state _ later false C O U Ln HC HT HD) as (sim & sim' & ys & d & ex & I & Ev & Ed & _).
  destruct (C119_loss_of_truth (fun _ => true) 0%R no_spline X Constant _ e true_state _ later C O U Ln HC HT HD sim sim' ys false d ex
    (thermal 30 5) (state_with guessed_state) [1; 2; 1; 2]%R [1/4; 0; 0; 0]%R I Ev Ed eq_refl eq_refl eq_refl) as [E Z].
  eexists. split.
  - exists e, sim, sim', ys, d, ex. repeat (split; [assumption|]). split; [reflexivity|]. split; [reflexivity|]. exact E.
  - intros K. apply Z in K. apply (f_equal (hd 0%R)) in K. unfold circuit_voltages in K. cbn [hd] in K. unfold voltage in K.
    cbn [numbers known uT ui true_state xsoc xq xi xh OCV_ R0_ RC_ cell_of] in K.
    assert (RS : forall els, (forall c, In c els -> res_tref (rc_r c) = Some 25%R) -> forall v,
      rc_sum [0; 0]%R (map (fun c => (res_at no_spline (rc_r c) 0, sih_at no_spline (rc_c c) 0)) els) v (Some 25%R) = 0%R /\
      rc_sum [0; 0]%R (map (fun c => (res_at no_spline (rc_r c) 0, sih_at no_spline (rc_c c) 0)) els) v None = 0%R).
    { intros els _ v. destruct els as [|c1 [|c2 els]]; cbn [map rc_sum]; split; try lra. }
    rewrite Forall_forall in TR. destruct (RS (rcs e) TR (1/4)%R) as [R1 R2]. rewrite R1, R2 in K. clear RS R1 R2.
    unfold ocv_at in K. rewrite T in K. unfold res_at in K. rewrite T0, TF in K. unfold sih_at at 2 in K. rewrite E1, E2 in K. cbn [Nat.eqb] in K.
    replace (- 0 * (25 - 25))%R with 0%R in K by ring. rewrite exp_0 in K. lra.
Qed.
End Concrete.
Print Assumptions Concrete.C119_other_reference_refuted.

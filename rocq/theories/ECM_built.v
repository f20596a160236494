(** The wrapper that the constructor of the joint estimator makes around the equivalent
    circuit model of one cell. *)
From Coq Require Import Reals String List Arith Bool Lia.
Import ListNotations.
From Verif Require Import Res Arr Arr_lemmas Names NdArray Container Container_proofs Spec_Container Health Spec_Health Health_misc NdR Interp Simulator ECM Spec_ECM
  ECM_update ECM_voltage ECM_batch ECM_total ECM_rows ECM_objects ECM_store
  Wrappers Spec_Wrappers Spec_ECM_objects ECM_circuit ECM_objects_proofs ECM_joint_proofs Spec_ECM_batch ECM_batch_total Spec_ECM_select ECM_select_proofs
  Spec_ECM_run Properties_Container Properties_Health Properties_Wrappers Wrappers_proofs Joint_shapes Estimators.
Local Open Scope string_scope.
Local Open Scope list_scope.
Local Open Scope nat_scope.

Section S.
Variable spline : nat -> list R -> res (list R -> R -> R).
Variable X : settings.

Lemma field_t2 (c : container R) k f : well_formed c -> has_batch c 1 -> In (k, Some f) c -> r2 (t2_of f) = 1 /\ c2 (t2_of f) = acols f.
Proof. intros _ [H _] I. cbn. split; [|reflexivity]. destruct (H k f I); auto. Qed.

Lemma read_input_held u temp : well_formed u -> has_batch u 1 -> layout R u = input_layout temp ->
  exists iu, read_input u = Ok iu /\ input_ok iu.
Proof.
  intros W B L. pose proof (field_t2 u) as F. unfold layout, input_layout in L.
  destruct u as [|[k1 o1] [|[k2 o2] [|[k3 o3] [|]]]]; try discriminate L. cbn in L.
  destruct o1 as [a1|], o2 as [a2|]; try (destruct o3; discriminate L). cbn in L. injection L as -> C1 -> C2 -> C3.
  destruct (F "time" a1 W B) as [A1 _]; [now left|]. destruct (F "current" a2 W B) as [A2 _]; [right; now left|].
  destruct o3 as [a3|].
  - destruct temp; [|discriminate C3]. injection C3 as C3. destruct (F "temperature" a3 W B) as [A3 _]; [right; right; now left|].
    eexists. split; [reflexivity|]. repeat split; assumption.
  - eexists. split; [reflexivity|]. repeat split; assumption.
Qed.

Lemma read_state_held t capacitor n : well_formed t -> has_batch t 1 -> layout R t = state_layout capacitor n ->
  exists st, read_state t = Ok st /\ state_ok 1 n st /\ (q0 st <> None -> capacitor = true).
Proof.
  intros W B L. pose proof (field_t2 t) as F. unfold layout, state_layout in L.
  destruct t as [|[k1 o1] [|[k2 o2] [|[k3 o3] [|[k4 o4] [|]]]]]; try discriminate L. cbn in L.
  destruct o1 as [a1|]; try discriminate L. destruct o3 as [a3|]; [|discriminate L]. destruct o4 as [a4|]; [|discriminate L].
  cbn in L. injection L as -> C1 -> C2 -> C3 -> C4.
  destruct (F "soc" a1 W B) as [A1 _]; [now left|].
  destruct (F "i_rc" a3 W B) as [A3 _]; [right; right; now left|].
  destruct (F "hyst" a4 W B) as [A4 _]; [right; right; right; now left|].
  assert (K : opt (Spec_ECM.column 1) (option_map t2_of o2)).
  { destruct o2 as [a2|]; [|exact I]. destruct capacitor; [|discriminate C2]. injection C2 as C2.
    destruct (F "q0" a2 W B) as [A2 _]; [right; now left|]. split; [now left|exact C2]. }
  eexists. split; [reflexivity|]. split; [|destruct o2; [destruct capacitor; [auto|discriminate C2]|intros []; reflexivity]].
  split; [split; [now left|exact C1]|]. split; [exact K|].
  split; [split; [now left|exact C3]|]. split; [now left|exact C4].
Qed.

Variables (mode : behavior) (capacitor temp : bool) (a : hv R) (t u : container R) (e : ecm_asoh) (p : cinput).
Hypothesis H1 : one_cell spline X capacitor temp a t u e p.

Lemma several_after s : several s -> several (after_value s).
Proof. unfold several, after_value. destruct (Nat.eqb (c2 (sv s)) 1); auto. Qed.
Lemma several_before s : several (after_value s) -> several s.
Proof. unfold several, after_value. destruct (Nat.eqb (c2 (sv s)) 1); auto. Qed.

Lemma estimable_voltage w i st : estimable temp w e -> estimable temp w (after_voltage i st e).
Proof.
  intros [E1 E2 E3 E4 E5 E6 E7 E8]. split; rewrite ?length_rcs_voltage; auto.
  - intros S. apply E1. cbn in S. now apply several_before.
  - intros S. apply E2. cbn in S. now apply several_before.
  - intros i0 c N S. unfold after_voltage in N. cbn [rcs] in N.
    destruct (Nat.eqb (c2 (i_rc st)) 0); [now apply (E4 i0 c)|].
    rewrite nth_error_map in N. destruct (nth_error (rcs e) i0) as [c0|] eqn:N0; [|discriminate N]. injection N as <-.
    apply (E4 i0 c0 N0). cbn in S. now apply several_before.
Qed.

Lemma built_wraps w : joint_init R (ecm_cell spline X mode) no_degradation a t u None (identity_operator R)
    (identity_operator R) (identity_operator R) = Ok w ->
  num_outputs R w = 1 /\ hidden_conversion R w = identity_operator R /\ control_conversion R w = identity_operator R /\
  output_conversion R w = identity_operator R /\
  exists e', wraps_ecm spline X mode capacitor temp w e' /\ usable_asoh spline e' /\ (capacitor = true -> c0 e' <> None) /\
    (estimable temp w e -> estimable temp w e').
Proof.
  intros E. destruct H1 as [Wa Ua Ci Us Sh Ca (Wt & Bt & Lt) (Wu & Bu & Lu) _].
  destruct (read_input_held u temp Wu Bu Lu) as (iu & Ru & Ou).
  destruct (read_state_held t _ _ Wt Bt Lt) as (st & Rs & Os & _).
  apply circuit_read in Ci.
  assert (Rd : ready R w).
  { refine (proj1 (C54_constructed R _ _ _ _ _ None _ _ _ w (ecm_only_reads spline X mode) Wa Wt _ _ (unbatched_ge1 _ Ua) I E)).
    - destruct t as [|[k1 [a1|]] t']; try discriminate Lt. exists k1, a1. now left.
    - intros k f Hf. destruct (proj1 Bt k f Hf) as [-> | ->]; lia. }
  unfold joint_init, base_init in E.
  destruct (hv_batch_size a) as [ba|]; [|discriminate]. cbn [bind] in E.
  destruct (Nat.ltb 1 ba); [discriminate|].
  destruct (batch_size t) as [bt|]; [|discriminate]. cbn [bind] in E.
  destruct (Nat.ltb 1 bt); [discriminate|].
  destruct (cm_voltage (ecm_cell spline X mode) u t a) as [a' r] eqn:Ev.
  cbn [ecm_cell cm_voltage] in Ev. rewrite Ru, Rs, Ci in Ev. cbn [bind] in Ev.
  destruct (calculate_terminal_voltage spline iu st e) as [v|] eqn:Evv; cbn [bind] in Ev; injection Ev as <- <-; [|discriminate E].
  assert (Cv : Spec_ECM.column 1 v) by (apply (voltage_rel spline 1 0 Nat.lt_0_1 iu st e v Sh Os Ou Evv)).
  destruct (write_output_rows v 1 (le_n 1) Cv) as (m & Em & _ & _ & Cm & _). cbn [bind] in E. rewrite Em in E. cbn [bind] in E.
  destruct (to_numpy t) as [tm|] eqn:Etm; [|discriminate]. cbn [bind] in E.
  destruct (get_parameters _ _) as [am|]; [|discriminate]. cbn [bind] in E. injection E as <-. cbn [num_outputs hidden_conversion control_conversion output_conversion].
  split; [exact Cm|]. do 3 (split; [reflexivity|]).
  assert (Ci' : read_asoh X (store_voltage iu st a) = Ok (after_voltage iu st e)) by (now rewrite read_after_voltage, Ci).
  exists (after_voltage iu st e). split; [|split; [now apply usable_voltage|split]].
  - split; cbn [cell_of deg_model w_transients w_inputs w_asoh]; rewrite ?length_rcs_voltage; auto.
    + now apply read_asoh_at.
    + now apply asoh_after_voltage.
  - intros C. specialize (Ca C). cbn. destruct (q0 st), (c0 e); cbn; congruence.
  - apply estimable_voltage.
Qed.

Lemma built_exists : exists w b am tm, joint_init R (ecm_cell spline X mode) no_degradation a t u None (identity_operator R)
    (identity_operator R) (identity_operator R) = Ok w /\
  base_estimator R (Wrappers.cell_of R w) (w_asoh R w) (w_transients R w) (w_inputs R w) (asoh_inputs R w) = Ok b /\
  get_parameters a (updatable_names a) = Ok am /\
  w_inputs R w = u /\ to_numpy (w_transients R w) = Ok tm /\ get_parameters (w_asoh R w) (asoh_inputs R w) = Ok am /\
  List.length (concat (arows tm) ++ concat (arows am))%list = num_hidden_dimensions R w /\
  num_hidden_dimensions R w = 2 + cap_width capacitor + List.length (rcs e) + acols am.
Proof.
  destruct H1 as [Wa Ua Ci Us Sh Ca (Wt & Bt & Lt) (Wu & Bu & Lu) _].
  destruct (read_input_held u temp Wu Bu Lu) as (iu & Ru & Ou).
  destruct (read_state_held t _ _ Wt Bt Lt) as (st & Rs & Os & Qs).
  apply circuit_read in Ci.
  assert (V : forall e', asoh_ok 1 e' -> usable_asoh spline e' -> List.length (rcs e') = List.length (rcs e) -> (capacitor = true -> c0 e' <> None) ->
    exists v, calculate_terminal_voltage spline iu st e' = Ok v /\ Spec_ECM.column 1 v).
  { intros e' O' U' L' C'. rewrite <- L' in Os.
    pose proof (proj2 (voltage_iff spline 1 (le_n 1) iu st e' O' U' Os Ou (fun q => C' (Qs q)))
      (proj2 (evaluable_1 _ _ _ (fun x (h : rows_ok 1 x) => match h with or_introl h => h | or_intror h => h end) O'))) as [v Ev].
    exists v. split; [exact Ev|]. apply (voltage_rel spline 1 0 Nat.lt_0_1 iu st e' v O' Os Ou Ev). }
  destruct (V e Sh Us eq_refl Ca) as (v & Ev & Cv).
  assert (Ci' : read_asoh X (store_voltage iu st a) = Ok (after_voltage iu st e)) by (now rewrite read_after_voltage, Ci).
  destruct (V (after_voltage iu st e)) as (v2 & Ev2 & _); auto using asoh_after_voltage, usable_voltage, length_rcs_voltage.
  { intros C. specialize (Ca C). cbn. destruct (q0 st), (c0 e); cbn; congruence. }
  destruct (write_output_rows v 1 (le_n 1) Cv) as (m & Em & _ & _ & Cm & _).
  assert (Ka : keeps R a (store_voltage iu st a)) by apply keeps_store_voltage.
  assert (Ka2 : keeps R a (store_voltage iu st (store_voltage iu st a))) by (eapply keeps_trans; apply keeps_store_voltage).
  assert (NE : nonempty t) by (destruct t as [|[k1 [a1|]] t']; try discriminate Lt; exists k1, a1; now left).
  assert (R1 : forall k f, has_field t k f -> anrows f = 1) by (intros k f Hf; destruct (proj1 Bt k f Hf); auto).
  destruct (initial_values R a (store_voltage iu st a) t Wa Ua Ka Wt NE R1) as (am & tm & G1 & G2 & G3 & N1 & N2).
  assert (B1 : batch_size t = Ok 1).
  { apply C04_batch_size_iff; [|exact Bt]. intros k f Hf. rewrite (R1 k f Hf). lia. }
  pose proof (unbatched_size R a Wa Ua) as Ba.
  exists (Wrapper R (ecm_cell spline X mode) (store_voltage iu st a) t u (updatable_names (store_voltage iu st a)) no_degradation
    (identity_operator R) (identity_operator R) (identity_operator R) (acols tm) (acols am) (acols m)).
  eexists _, am, tm. split; [|split; [|split; [exact G1|split; [|split; [exact G3|split; [exact G2|split]]]]]].
  - unfold joint_init, base_init. rewrite Ba. cbn [bind]. rewrite B1. cbn [bind Nat.ltb Nat.leb ecm_cell cm_voltage].
    rewrite Ru, Rs, Ci. cbn [bind]. rewrite Ev. cbn [bind]. rewrite Em. cbn [bind]. rewrite G3. cbn [bind]. rewrite G2. reflexivity.
  - unfold base_estimator. cbn [Wrappers.cell_of w_asoh w_transients w_inputs asoh_inputs ecm_cell cm_voltage].
    rewrite Ru, Rs, Ci'. cbn [bind]. rewrite Ev2. cbn [bind]. rewrite B1. cbn [bind Nat.eqb negb].
    rewrite (keeps_batch R _ _ Ka2), Ba. reflexivity.
  - reflexivity.
  - rewrite app_length. unfold num_hidden_dimensions. cbn [num_transients num_asoh]. now f_equal.
  - unfold num_hidden_dimensions. cbn [num_transients num_asoh]. f_equal.
    transitivity (width t); [|now apply width_state].
    destruct (C01_encode_rows R t 1) as (tm' & Et & _ & _ & Ct & _); auto.
    { intros k f Hf. rewrite (R1 k f Hf). lia. }
    rewrite Et in G3. injection G3 as <-. exact Ct.
Qed.
End S.

(** Names and numbers of what an estimator around the equivalent circuit model estimates. *)
From Coq Require Import Reals String List Arith Lia.
Import ListNotations.
From Verif Require Import Res Arr NdArray Container Spec_Container Container_proofs Health Spec_Health NdR Interp Simulator ECM Spec_ECM ECM_objects
  Wrappers Spec_Wrappers Wrappers_proofs Estimators Interface_ECM Spec_ECM_objects Spec_ECM_run ECM_settled ECM_objects_proofs ECM_circuit ECM_voltage ECM_joint_proofs ECM_explicit ECM_built Properties_Health Properties_Wrappers.
Local Open Scope string_scope.
Local Open Scope list_scope.
Local Open Scope nat_scope.

Section Names.
Variable spline : nat -> list R -> res (list R -> R -> R).
Variable X : settings.
Variables (mode : behavior) (capacitor temp : bool) (a : hv R) (t u : container R) (cell : ecm_asoh) (p : cinput).
Hypothesis cellP : one_cell spline X capacitor temp a t u cell p.
Notation M := (ecm_cell spline X mode).
Notation id := (identity_operator R).

Lemma names_of_base h e2 b : settles X a h -> one_cell spline X capacitor temp h t u e2 p -> base_estimator R M h t u (updatable_names a) = Ok b ->
  exists ts hs am, all_names t = Ok ts /\ hv_expand_names a (updatable_names a) = Ok hs /\ get_parameters a (updatable_names a) = Ok am /\
    state_names R b = Ok (ts ++ hs) /\ List.length ts = width t /\ List.length hs = acols am /\
    b_num_outputs R b = 1 /\ b_inputs R b = u /\ b_transients R b = t /\ names_of_outputs R M u t h = ["terminal_voltage"].
Proof.
  intros S cellH E.
  destruct (built_exists spline X mode capacitor temp a t u cell p cellP) as (w & b0 & am & tm & Ew & Eb & Ea & _ & _ & Ga & _).
  assert (Nt : nonempty t).
  { destruct (on_state _ _ _ _ _ _ _ _ _ cellP) as (_ & _ & L). clear - L. destruct t as [|[k [f|]] t']; try discriminate L. exists k, f. now left. }
  assert (Pt : forall k f, has_field t k f -> 1 <= anrows f).
  { destruct (on_state _ _ _ _ _ _ _ _ _ cellP) as (_ & B & _). intros k f H. destruct (proj1 B k f H) as [Z|Z]; rewrite Z; apply le_n. }
  destruct (C54_constructed R M no_degradation a t u None id id id w (ecm_only_reads spline X mode) (on_tree _ _ _ _ _ _ _ _ _ cellP)
    (proj1 (on_state _ _ _ _ _ _ _ _ _ cellP)) Nt Pt (unbatched_ge1 _ (on_unbatched _ _ _ _ _ _ _ _ _ cellP)) I Ew) as (Rd & _ & _ & Un).
  destruct (joint_init_base spline X mode t u a w Ew) as [Bi _].
  destruct (base_init_settles spline X mode capacitor temp t u p a cell _ _ cellP Bi) as (Sw & _).
  destruct Rd as [_ _ _ _ _ _ (ms & Hm & Em)].
  assert (Na : num_asoh R w = acols am).
  { clear - Ew Ga. unfold joint_init in Ew. destruct (base_init R M a t u) as [[a' k]|]; [|discriminate Ew]. cbn [bind] in Ew.
    destruct (to_numpy t); [|discriminate Ew]. cbn [bind] in Ew.
    match type of Ew with (let! _ := ?g in _) = _ => destruct g eqn:G end; [|discriminate Ew].
    injection Ew as <-. cbn [asoh_inputs w_asoh num_asoh] in *. congruence. }
  rewrite Un in Hm.
  assert (Ha : Forall2 (holds a) (updatable_names a) ms).
  { clear - Hm Sw cellP. induction Hm; constructor; auto.
    now apply (keeps_holds R a (w_asoh R w) _ _ (on_tree _ _ _ _ _ _ _ _ _ cellP) (proj1 Sw)). }
  pose proof (C14_expanded_names R a _ _ (on_tree _ _ _ _ _ _ _ _ _ cellP) Ha) as Xa.
  unfold base_estimator in E.
  assert (V : exists v, snd (cm_voltage M u t h) = Ok (write_output v) /\ settles X h (fst (cm_voltage M u t h)) /\ c2 v = 1).
  { clear - E cellH. destruct cellH as [Wa Ua Ci Us Sh Ca (Wt & Bt & Lt) (Wu & Bu & Lu) _].
    destruct (read_input_held u temp Wu Bu Lu) as (iu & Ru & Ou).
    destruct (read_state_held t _ _ Wt Bt Lt) as (st & Rs & Os & _). apply circuit_read in Ci.
    cbn [cm_voltage ecm_cell] in *. rewrite Ru, Rs, Ci in *. cbn [bind] in *.
    destruct (calculate_terminal_voltage spline iu st e2) as [v|] eqn:Evv; cbn [bind] in *; [|discriminate E].
    exists v. split; [reflexivity|]. split; [apply settles_voltage|].
    apply (voltage_rel spline 1 0 Nat.lt_0_1 iu st e2 v Sh Os Ou Evv). }
  assert (No : names_of_outputs R M u t h = ["terminal_voltage"]).
  { destruct V as (v & Ev & _ & Cv). unfold names_of_outputs. rewrite Ev. cbn [bind]. unfold write_output, array_of. cbn. now rewrite Cv. }
  destruct V as (v & Ev & Sv & Cv). destruct (cm_voltage M u t h) as [a' r]. cbn [fst snd] in Ev, Sv. subst r. cbn [bind] in E.
  assert (Sa : keeps R a a') by (eapply keeps_trans; [apply (proj1 S)|apply (proj1 Sv)]).
  destruct (batch_size t) as [bt|]; [|discriminate]. cbn [bind] in E. destruct (negb (Nat.eqb bt 1)); [discriminate|].
  destruct (hv_batch_size a') as [ba|]; [|discriminate]. cbn [bind] in E. destruct (negb (Nat.eqb ba 1)); [discriminate|].
  cbn [bind] in E. injection E as <-.
  assert (Ha' : Forall2 (holds a') (updatable_names a) ms).
  { clear - Ha Sa cellP. induction Ha; constructor; auto. now apply (keeps_holds R a a' _ _ (on_tree _ _ _ _ _ _ _ _ _ cellP) Sa). }
  pose proof (C14_expanded_names R a' _ _ (proj1 Sa (on_tree _ _ _ _ _ _ _ _ _ cellP)) Ha') as Xa'. rewrite <- Xa in Xa'.
  assert (E1 : all_names t = Ok (names_present t)) by (apply all_names_eq; apply (on_state _ _ _ _ _ _ _ _ _ cellP)).
  eexists _, _, am. split; [exact E1|]. split; [exact Xa|]. split; [exact Ea|].
  unfold state_names. cbn [b_transients b_asoh b_names b_num_outputs b_inputs]. rewrite E1, Xa', Xa. cbn [bind].
  split; [reflexivity|]. split; [apply names_present_length|]. split.
  { rewrite <- Na, Em. clear - Ha. induction Ha as [|x m l ms' _ _ IH]; [reflexivity|].
    cbn [combine map List.concat]. rewrite app_length, IH. cbn [map fst snd].
    change (list_sum (acols m :: map acols ms')) with (acols m + list_sum (map acols ms')). f_equal.
    destruct (Nat.eqb_spec (acols m) 1) as [->|]; [reflexivity|]. now rewrite map_length, seq_length. }
  split; [|now auto]. unfold write_output, array_of, clen. cbn. now rewrite Cv.
Qed.
End Names.

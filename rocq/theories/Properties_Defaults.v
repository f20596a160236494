(** C123: short descriptions of circuits. *)
From Coq Require Import String List Arith Bool Lia Reals Lra.
Import ListNotations.
From Verif Require Import Res Arr NdArray NdArray_proofs Container Health Json Spec_Json Json_proofs Json_classes Json_objects.
From Verif Require Import NdR Interp Simulator ECM Spec_ECM Spec_Defaults.
Local Open Scope string_scope.
Local Open Scope nat_scope.

(** * Reading *)
Lemma read_as (nn : R -> bool) name k fields check kvs vs : instance nn (Cls name k fields check) (Obj name k [] vs) ->
  last_assoc "updatable" kvs = None ->
  Forall2 (fun (f : string * (ftype R * option (value R))) kv => fst f = fst kv /\
    match last_assoc (fst f) kvs with
    | None => snd (snd f) = Some (snd kv)
    | Some jv => load_field nn (fst (snd f)) jv = Ok (snd kv)
    end) fields vs ->
  load nn (Cls name k fields check) (JObj kvs) = Ok (Obj name k [] vs).
Proof.
  intros I U F. inversion I as [name' k' fields' check' upd vs' ND NU NDu PL Ft B CH E1 E2]; subst.
  rewrite load_eq. replace (load_upd k kvs) with (Ok (@nil string)) by (destruct k; cbn; rewrite ?U; reflexivity). cbn [bind].
  erewrite mapR_Forall2 with (ys := vs).
  2:{ apply (Forall2_impl_in _ _ _ _ F). intros [key [t d]] [key' v] _ _ [Ek H]. cbn in Ek, H |- *. subst key'.
      destruct (last_assoc key kvs); [now rewrite H|]. now rewrite H. }
  cbn [bind]. unfold validated.
  replace (match k with Plain => Ok tt | _ => let! _ := validation (check_batch_size (to_hv (Obj name k [] vs))) in Ok tt end) with (Ok tt).
  { cbn. now rewrite CH. }
  destruct k; [reflexivity| |]; destruct B as (b & Eb & P); try discriminate;
    unfold check_batch_size; rewrite Eb; cbn; destruct b; [lia|reflexivity|lia|reflexivity].
Qed.

Lemma np_numbers l : np_array (numbers l) = Ok (mkNd [List.length l] l).
Proof.
  assert (E := np_array_tolist [List.length l] l I). unfold numbers.
  replace (JArr (map JNum l)) with (tolist_from [List.length l] l); [apply E; cbn; lia|].
  cbn [tolist_from]. f_equal. change (size_of []) with 1. clear E. induction l as [|x l IH]; [reflexivity|].
  cbn [List.length rows_of map]. cbn. f_equal. exact IH.
Qed.
Lemma curve_entries l : t2_nd (sv (curve l)) = mkNd [1; List.length l] l.
Proof.
  unfold t2_nd, curve. cbn. f_equal. rewrite app_nil_r. apply (nth_ext _ _ 0%R 0%R).
  - now rewrite map_length, seq_length.
  - intros n H. rewrite map_length, seq_length in H.
    rewrite (nth_indep _ 0%R (nth (List.length l) l 0%R)), (map_nth (fun j => nth j l 0%R)), seq_nth by (rewrite ?map_length, ?seq_length; lia). reflexivity.
Qed.
Lemma frac_1 n : fracR n 1 = INR n.
Proof. unfold fracR. cbn [INR]. field. Qed.
Lemma frac_25 : fracR 25 1 = 25%R.
Proof. rewrite frac_1. cbn. lra. Qed.
Lemma frac_0 : fracR 0 1 = 0%R.
Proof. now rewrite frac_1. Qed.
Lemma one_1 : fracR 1 1 = 1%R.
Proof. now rewrite frac_1. Qed.

Notation fixed := (fun _ : string => @nil string).
Lemma fixed_nodup : forall p, NoDup (fixed p).
Proof. constructor. Qed.
Notation nn := nonnegR.
Lemma list_field l : load_field nn TList (numbers l) = Ok (VArr (t2_nd (sv (curve l)))).
Proof. cbn [load_field]. unfold load_param. rewrite np_numbers. cbn [bind]. rewrite curve_entries. reflexivity. Qed.
Ltac given := constructor; [split; [reflexivity|]; try reflexivity|].
Lemma read_capacitance p l : load nn Capacitance (curve_text l) = Ok (capacitance_obj fixed p (curve l)).
Proof.
  apply read_as; [apply (fun H1 H2 => proj1 (capacitance_instance fixed fixed_nodup 1 (le_n 1) p (curve l) H1 H2)); [now left|reflexivity]|reflexivity|].
  given; [apply list_field|]. given. given. constructor.
Qed.
Lemma plain_ok l : res_ok 1 (plain_resistance l).
Proof. split; [now left|split; [now left|reflexivity]]. Qed.
Lemma read_resistance p l : load nn (Resistance fracR) (curve_text l) = Ok (resistance_obj fixed p (plain_resistance l)).
Proof.
  apply read_as; [apply (fun H1 H2 => proj1 (resistance_instance fixed fixed_nodup 1 (le_n 1) p (plain_resistance l) H1 H2)); [apply plain_ok|reflexivity]|reflexivity|].
  given; [apply list_field|]. given. given. given; [cbn; now rewrite frac_25|]. given; [|constructor].
  cbn. unfold one. now rewrite frac_0.
Qed.
Lemma read_rc p x : load nn (RCComponent fracR) (JObj [("r", curve_text (fst x)); ("c", curve_text (snd x))])
  = Ok (rc_obj fixed p {| rc_r := plain_resistance (fst x); rc_c := curve (snd x) |}).
Proof.
  apply read_as; [apply (fun H1 H2 H3 H4 => proj1 (rc_instance fixed fixed_nodup 1 (le_n 1) p {| rc_r := plain_resistance (fst x); rc_c := curve (snd x) |} H1 H2 H3 H4)); [apply plain_ok|now left|reflexivity|reflexivity]|reflexivity|].
  given.
  - change (last_assoc _ _) with (Some (curve_text (fst x))). cbn [fst snd load_field]. now rewrite (read_resistance (p ++ ".r")).
  - given; [|constructor]. change (last_assoc _ _) with (Some (curve_text (snd x))). cbn [fst snd load_field]. now rewrite (read_capacitance (p ++ ".c")).
Qed.
Lemma read_rcs rc : forall i, mapR (load nn (RCComponent fracR)) (map (fun x => JObj [("r", curve_text (fst x)); ("c", curve_text (snd x))]) rc)
  = Ok (rc_objs fixed i (map (fun x => {| rc_r := plain_resistance (fst x); rc_c := curve (snd x) |}) rc)).
Proof.
  induction rc as [|x rc IH]; intros i; [reflexivity|]. cbn [map mapR rc_objs].
  rewrite (read_rc ("rc_elements." ++ Names.nat_str i)), (IH (S i)). reflexivity.
Qed.
Lemma read_ocv v : load nn (OpenCircuitVoltage fracR) (JObj [("ocv_ref", curve_text v)])
  = Ok (ocv_obj fixed {| ocv_ref := curve v; ocv_tref := one_number 25; ocv_ent := curve [0%R] |}).
Proof.
  apply read_as; [apply (fun H1 H2 H3 H4 H5 => proj1 (ocv_instance fixed fixed_nodup 1 (le_n 1)
    {| ocv_ref := curve v; ocv_tref := one_number 25; ocv_ent := curve [0%R] |} H1 H2 H3 H4 H5)); try (now left); try reflexivity; split; [now left|reflexivity]|reflexivity|].
  given.
  - change (last_assoc _ _) with (Some (curve_text v)). cbn [fst snd load_field].
    set (o := Obj "ReferenceOCV" Interpolated [] (sih_fields (curve v) ++ [("reference_temperature", VArr (t2_nd (one_number 25)))])%list).
    enough (E : load nn (ReferenceOCV fracR) (curve_text v) = Ok o) by (rewrite E; reflexivity).
    apply read_as; [|reflexivity|].
    + destruct (ocv_instance fixed fixed_nodup 1 (le_n 1) {| ocv_ref := curve v; ocv_tref := one_number 25; ocv_ent := curve [0%R] |}) as [I _];
        try (now left); try reflexivity; [split; [now left|reflexivity]|].
      inversion I as [name' k' fields' check' upd vs' ND NU NDu PL F B CH E1 E2]; subst. inversion F as [|f1 kv fs kvs [G0 G] F']; subst. cbn in G. now inversion G.
    + given; [apply list_field|]. given. given. given; [|constructor]. cbn. unfold one. now rewrite frac_25.
  - given; [|constructor]. cbn. unfold no_entropy. now rewrite frac_0.
Qed.

(** Every text of this kind is accepted, as the circuit it stands for. *)
Theorem C123_circuit : forall q v r rc, load nonnegR (ECMASOH fracR) (short_text q v r rc) = Ok (asoh_obj (fun _ => []) (documented q v r rc)).
Proof.
  intros. apply read_as; [|reflexivity|].
  - apply (asoh_instance fixed fixed_nodup 1 (le_n 1) (documented q v r rc)).
    + repeat split; cbn; auto; try (now left).
      apply Forall_map, Forall_forall. intros x _. split; [apply plain_ok|now left].
    + repeat split. cbn. lra.
    + repeat split. cbn. apply Forall_map, Forall_forall. intros x _. split; reflexivity.
  - given.
    given; [cbn; unfold one; now rewrite one_1|].
    given; [change (last_assoc _ _) with (Some (JObj [("ocv_ref", curve_text v)])); cbn [fst snd load_field]; now rewrite read_ocv|].
    given; [change (last_assoc _ _) with (Some (curve_text r)); cbn [fst snd load_field]; now rewrite (read_resistance "r0")|].
    given.
    given; [|given; [cbn; unfold no_hysteresis; now rewrite frac_0|constructor]].
    change (last_assoc _ _) with (Some (JArr (map (fun x => JObj [("r", curve_text (fst x)); ("c", curve_text (snd x))]) rc))).
    cbn [fst snd load_field]. now rewrite (read_rcs rc 0).
Qed.

(** Other texts: empty ones are a state of charge of zero at rest without RC elements, and
    an input without current at time zero. *)
Definition discharged : ecm_state := {| soc := one_number 0; q0 := None; i_rc := {| r2 := 1; c2 := 0; a2 := fun _ _ => 0%R |}; hyst := one_number 0 |}.
Theorem C123_state : load nonnegR (ECMTransientVector fracR) (JObj []) = Ok (state_obj discharged).
Proof. cbn. unfold one. rewrite frac_0. reflexivity. Qed.
Theorem C123_input : load nonnegR (ECMInput fracR) (JObj []) = Ok (Obj "ECMInput" Plain []
  [("time", VArr (mkNd [1; 1] [0%R])); ("current", VArr (mkNd [1; 1] [0%R])); ("temperature", VNone)]).
Proof. cbn. unfold one. rewrite frac_0. reflexivity. Qed.

(** A Thevenin circuit of which only the capacity is given: one resistor of 0.1 ohm, a
    voltage of 3.5 V at any state of charge and temperature, and thermal parameters; its
    state, at 298 K. *)
Theorem C123_thevenin : forall q, load nonnegR (TheveninASOH fracR) (JObj [("capacity", JNum q)]) = Ok (Obj "TheveninASOH" Health []
  [("capacity", VArr (mkNd [1; 1] [q])); ("mass", VArr (mkNd [1; 1] [1/10]%R)); ("c_p", VArr (mkNd [1; 1] [1150%R]));
   ("h_thermal", VArr (mkNd [1; 1] [12%R])); ("a_therm", VArr (mkNd [1; 1] [1%R]));
   ("ocv", VSub (Obj "SOCPolynomialVariable" Health [] [("coeffs", VArr (mkNd [1; 1] [35/10]%R))]));
   ("r", VTuple [Obj "SOCTempPolynomialVariable" Health []
      [("t_ref", VArr (mkNd [1; 1] [298%R])); ("soc_coeffs", VArr (mkNd [1; 1] [1/10]%R)); ("t_coeffs", VArr (mkNd [1; 1] [0%R]))]]);
   ("c", VTuple [])]).
Proof.
  assert (D : forall n d x y, INR n = x -> INR d = y -> fracR n d = (x / y)%R) by (intros ? ? ? ? <- <-; reflexivity).
  assert (E0 : forall n x, INR n = x -> fracR n 1 = x) by (intros n x <-; apply frac_1).
  assert (E : fracR 1 10 = (1/10)%R) by (apply D; cbn; lra). assert (E' : fracR 35 10 = (35/10)%R) by (apply D; cbn; lra).
  assert (M : fracR 1150 1 = 1150%R) by (apply E0; rewrite INR_IZR_INZ; reflexivity).
  assert (H : fracR 12 1 = 12%R) by (apply E0; cbn; lra). assert (T : fracR 298 1 = 298%R) by (apply E0; rewrite INR_IZR_INZ; reflexivity).
  intros q. unfold TheveninASOH, one, soc_polynomial, soc_temp_polynomial. rewrite E, E', M, H, T, one_1, frac_0. reflexivity.
Qed.
Theorem C123_thevenin_state : load nonnegR (TheveninTransient fracR) (JObj []) = Ok (Obj "TheveninTransient" Plain []
  [("soc", VArr (mkNd [1; 1] [0%R])); ("temp", VArr (mkNd [1; 1] [298%R])); ("eta", VArr (mkNd [1; 0] []))]).
Proof.
  unfold TheveninTransient, one. rewrite frac_0. replace (fracR 298 1) with 298%R by (rewrite frac_1, INR_IZR_INZ; reflexivity). reflexivity.
Qed.

(** * What the circuit does *)
Section Cells.
Variable spline : nat -> list R -> res (list R -> R -> R).
Variables (q : R) (v r : list R) (rc : list (list R * list R)).
Notation c := (cell_of spline (documented q v r rc) 0).
Definition untold (u : cinput) : cinput := {| ut := ut u; ui := ui u; uT := None |}.

Lemma curve_0 s : sih_at spline (curve [0%R]) 0 s = 0%R.
Proof. reflexivity. Qed.
Lemma plain_at l s T : res_at spline (plain_resistance l) 0 s T = sih_at spline (curve l) 0 s.
Proof.
  destruct T as [t|]; [|reflexivity]. unfold res_at. cbn [res_sih res_fac plain_resistance].
  change (num (one_number 0) 0) with 0%R. replace (- 0 * _)%R with 0%R by ring. rewrite exp_0. ring.
Qed.
Lemma sum_untold s T : forall is l, rc_sum is (map (fun x => (res_at spline (rc_r x) 0, sih_at spline (rc_c x) 0))
    (map (fun x => {| rc_r := plain_resistance (fst x); rc_c := curve (snd x) |}) l)) s T
  = rc_sum is (map (fun x => (res_at spline (rc_r x) 0, sih_at spline (rc_c x) 0))
    (map (fun x => {| rc_r := plain_resistance (fst x); rc_c := curve (snd x) |}) l)) s None.
Proof. induction is as [|i is IH]; intros [|x l]; cbn [map rc_sum fst rc_r rc_c]; try reflexivity. rewrite IH. now rewrite !plain_at. Qed.

(** The temperature does not matter. *)
Theorem C123_temperature : (forall u s, voltage c u s = voltage c (untold u) s) /\
  forall mode p u s, next mode c p u s = next mode c (untold p) (untold u) s.
Proof.
  split.
  - intros u s. unfold voltage. cbn [OCV_ R0_ C0_ RC_ cell_of untold uT ui]. cbn [r0 oc rcs documented]. rewrite sum_untold. rewrite !plain_at.
    do 4 f_equal. unfold ocv_at. cbn [ocv_ref ocv_ent ocv_tref]. destruct (uT u); [rewrite curve_0; ring|reflexivity].
  - assert (E : forall (f : R -> R -> R) s T is l, map (fun x => f (fst (snd x) s T * snd (snd x) s)%R (fst x)) (combine is (map (fun x => (res_at spline (rc_r x) 0, sih_at spline (rc_c x) 0))
        (map (fun x => {| rc_r := plain_resistance (fst x); rc_c := curve (snd x) |}) l)))
      = map (fun x => f (fst (snd x) s None * snd (snd x) s)%R (fst x)) (combine is (map (fun x => (res_at spline (rc_r x) 0, sih_at spline (rc_c x) 0))
        (map (fun x => {| rc_r := plain_resistance (fst x); rc_c := curve (snd x) |}) l)))).
    { intros f s T. induction is as [|i is IH]; intros [|x l]; cbn [map combine fst snd rc_r rc_c]; try reflexivity. rewrite IH. now rewrite !plain_at. }
    intros [|] p u s; cbn [next].
    + unfold next_constant. cbn [RC_ cell_of untold ut ui uT]. f_equal. apply (E (fun tau x => rc_relax tau _ _ x)).
    + unfold next_linear. cbn [RC_ cell_of untold ut ui uT]. f_equal. apply (E (fun tau x => rc_ramp tau _ _ _ x)).
Qed.

(** What the circuit is: it loses no charge, and its overpotentials are those of its
    resistances; it has no hysteresis of its own. *)
Theorem C123_cell : Qs c = (3600 * q)%R /\ CE c = 1%R /\
  (forall s T, OCV_ c s T = sih_at spline (curve v) 0 s) /\ (forall s T, R0_ c s T = sih_at spline (curve r) 0 s) /\
  List.length (RC_ c) = List.length rc /\
  (forall k x, nth_error rc k = Some x -> exists e, nth_error (RC_ c) k = Some e /\
     (forall s T, fst e s T = sih_at spline (curve (fst x)) 0 s) /\ forall s, snd e s = sih_at spline (curve (snd x)) 0 s) /\
  forall mode p u s, xh (next mode c p u s) = xh s.
Proof.
  split; [reflexivity|]. split; [reflexivity|]. split.
  { intros s [t|]; [|reflexivity]. cbn [OCV_ cell_of oc documented]. unfold ocv_at. cbn [ocv_ref ocv_ent ocv_tref]. rewrite curve_0. ring. }
  split; [intros; apply plain_at|]. split; [cbn; now rewrite !map_length|]. split.
  { intros k x H. cbn [RC_ cell_of rcs documented]. rewrite map_map.
    rewrite (map_nth_error _ _ _ H). eexists; split; [reflexivity|]. split; intros; [apply plain_at|reflexivity]. }
  assert (Z : forall s i, asymptote c s i = 0%R).
  { intros s i. unfold asymptote. change (M_ c s) with 0%R. destruct (Rle_dec _ _); unfold Rdiv; ring. }
  assert (A : forall h, approach 0 0 h = h). { intros h. unfold approach. rewrite Ropp_0, exp_0. ring. }
  assert (P : forall x I h, ramp_piece 0 0 x I h = h).
  { intros x I h. unfold ramp_piece. destruct (Rlt_dec 0 I); rewrite Rmult_0_l, ?Ropp_0; apply A. }
  assert (K : forall eta, (eta * G_ c / Qs c)%R = 0%R). { intros eta. change (G_ c) with 0%R. unfold Rdiv. ring. }
  intros [|] p u s; cbn [next].
  - unfold next_constant. cbn [xh]. rewrite Z, K, Rmult_0_l. apply A.
  - unfold next_linear. cbn [xh]. rewrite Z, K, Ropp_0. destruct (Rle_dec _ _); rewrite ?P; reflexivity.
Qed.
End Cells.
Print Assumptions C123_circuit.
Print Assumptions C123_state.
Print Assumptions C123_input.
Print Assumptions C123_thevenin.
Print Assumptions C123_thevenin_state.
Print Assumptions C123_temperature.
Print Assumptions C123_cell.

(** * A case: two RC elements *)
Example C123_case : exists o, load nonnegR (ECMASOH fracR) (short_text 10 [3; 4]%R [1]%R [([2], [5]); ([1; 2], [7])]%R) = Ok o /\
  map fst (iter_parameters false true (to_hv o)) =
    ["q_t.base_values"; "ce"; "ocv.ocv_ref.base_values"; "ocv.ocv_ref.reference_temperature"; "ocv.ocv_ent.base_values";
     "r0.base_values"; "r0.temperature_dependence_factor"; "rc_elements.0.r.base_values"; "rc_elements.0.r.temperature_dependence_factor";
     "rc_elements.0.c.base_values"; "rc_elements.1.r.base_values"; "rc_elements.1.r.temperature_dependence_factor";
     "rc_elements.1.c.base_values"; "h0.base_values"; "h0.gamma"].
Proof. eexists. split; [apply C123_circuit|]. reflexivity. Qed.
Print Assumptions C123_case.

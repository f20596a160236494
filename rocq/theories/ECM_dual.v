(** The two wrappers of a dual estimator around the equivalent circuit model of one cell:
    both treat the rows of a batch separately, whatever the estimates are. *)
From Coq Require Import Reals String List Arith Bool Lia.
Import ListNotations.
From Verif Require Import Res Arr Arr_lemmas Names NdArray Container Container_proofs Spec_Container Health Spec_Health Health_lemmas Health_resolve Health_misc
  NdR Interp Simulator ECM Spec_ECM
  ECM_update ECM_voltage ECM_batch ECM_total ECM_rows ECM_objects ECM_store
  Wrappers Spec_Wrappers Spec_ECM_objects ECM_circuit ECM_objects_proofs ECM_joint_proofs Spec_ECM_batch ECM_batch_total Spec_ECM_select ECM_select_proofs
  Spec_ECM_run Properties_Container Properties_Health Properties_Wrappers Wrappers_proofs Joint_shapes Estimators ECM_separate ECM_built ECM_settled Properties_ECM_joint.
Local Open Scope string_scope.
Local Open Scope list_scope.
Local Open Scope nat_scope.

(** * Copies of containers *)
Lemma copy_loop {A} (c : container A) (v : arr A) : forall i, i + width c <= acols v -> wf_arr v ->
  layout A (from_numpy_loop c v i) = layout A c /\
  forall k f, In (k, Some f) (from_numpy_loop c v i) -> wf_arr f /\ anrows f = anrows v.
Proof.
  induction c as [|[k [f|]] c IH]; intros i L W.
  - split; [reflexivity|intros k f []].
  - change (width ((k, Some f) :: c)) with (acols f + width c) in L.
    destruct (IH (i + acols f)) as [I1 I2]; [lia|exact W|]. cbn [from_numpy_loop]. split.
    + unfold layout in *. cbn [map fst snd option_map slice_cols acols]. rewrite I1. do 3 f_equal. lia.
    + intros k' f' [E|H]; [|now apply (I2 k')]. injection E as <- <-. split; [apply wf_slice; [lia|exact W]|apply anrows_slice].
  - destruct (IH i L W) as [I1 I2]. cbn [from_numpy_loop]. split.
    + unfold layout in *. cbn [map fst snd option_map]. now rewrite I1.
    + intros k' f' [E|H]; [discriminate E|now apply (I2 k')].
Qed.

Lemma copy_container {A} (c : container A) (v : arr A) : well_formed c -> nonempty c -> wf_arr v -> anrows v = 1 -> acols v = width c ->
  layout A (make_copy c (V2 v)) = layout A c /\ well_formed (make_copy c (V2 v)) /\ nonempty (make_copy c (V2 v)) /\
  has_batch (make_copy c (V2 v)) 1 /\ to_numpy (make_copy c (V2 v)) = Ok v.
Proof.
  intros [ND _] NE W R1 E. unfold make_copy, from_numpy. cbn [as2d].
  destruct (copy_loop c v 0) as [L F]; [cbn; lia|exact W|].
  split; [exact L|]. split; [|split; [|split]].
  - split; [now rewrite decode_fields|]. intros k f H. now apply (F k f).
  - destruct NE as (k & f & H). assert (I : In (k, Some (acols f)) (layout A c)).
    { unfold layout. apply in_map_iff. exists (k, Some f). now split. }
    rewrite <- L in I. unfold layout in I. apply in_map_iff in I as ([k' [f'|]] & K & H'); [|discriminate K]. now exists k', f'.
  - split; [|now left]. intros k f H. left. rewrite <- R1. now apply (F k f).
  - now apply (C01_encode_after_decode A c (V2 v)).
Qed.

Section S.
Variable spline : nat -> list R -> res (list R -> R -> R).
Variable X : settings.
Variable mode : behavior.
Variables (capacitor temp : bool) (t u : container R) (p : cinput).
Notation M := (ecm_cell spline X mode).
Notation id := (identity_operator R).
Notation cell a e := (one_cell spline X capacitor temp a t u e p).

(** * Evaluating the model when objects are constructed *)
Lemma evaluated a e : cell a e -> exists iu st k,
  base_init R M a t u = Ok (store_voltage iu st a, 1) /\
  (forall names, base_estimator R M a t u names = Ok (Base R (store_voltage iu st a) t u names k)) /\
  cell (store_voltage iu st a) (after_voltage iu st e).
Proof.
  intros H1. destruct H1 as [Wa Ua Ci Us Sh Ca (Wt & Bt & Lt) (Wu & Bu & Lu) On].
  destruct (read_input_held u temp Wu Bu Lu) as (iu & Ru & Ou).
  destruct (read_state_held t _ _ Wt Bt Lt) as (st & Rs & Os & Qs).
  pose proof Ci as Ci0. apply circuit_read in Ci0.
  assert (Ci' : read_asoh X (store_voltage iu st a) = Ok (after_voltage iu st e)) by (now rewrite read_after_voltage, Ci0).
  pose proof (proj2 (voltage_iff spline 1 (le_n 1) iu st e Sh Us Os Ou (fun q => Ca (Qs q)))
      (proj2 (evaluable_1 _ _ _ (fun x (h : rows_ok 1 x) => match h with or_introl h => h | or_intror h => h end) Sh))) as [v Ev].
  assert (Cv : Spec_ECM.column 1 v) by (apply (voltage_rel spline 1 0 Nat.lt_0_1 iu st e v Sh Os Ou Ev)).
  destruct (write_output_rows v 1 (le_n 1) Cv) as (m & Em & _ & _ & Cm & _).
  assert (Ka : keeps R a (store_voltage iu st a)) by apply keeps_store_voltage.
  assert (R1 : forall k f, has_field t k f -> anrows f = 1) by (intros k f Hf; destruct (proj1 Bt k f Hf); auto).
  assert (B1 : batch_size t = Ok 1).
  { apply C04_batch_size_iff; [|exact Bt]. intros k f Hf. rewrite (R1 k f Hf). lia. }
  pose proof (unbatched_size R a Wa Ua) as Ba.
  exists iu, st, (clen (write_output v)). split; [|split].
  - unfold base_init. rewrite Ba. cbn [bind]. rewrite B1. cbn [bind Nat.ltb Nat.leb ecm_cell cm_voltage].
    rewrite Ru, Rs, Ci0. cbn [bind]. rewrite Ev. cbn [bind]. rewrite Em. cbn [bind]. now rewrite Cm.
  - intros names. unfold base_estimator. cbn [ecm_cell cm_voltage].
    rewrite Ru, Rs, Ci0. cbn [bind]. rewrite Ev. cbn [bind]. rewrite B1. cbn [bind Nat.eqb negb].
    rewrite (keeps_batch R _ _ Ka), Ba. reflexivity.
  - split; rewrite ?length_rcs_voltage; auto.
    + now apply Ka.
    + now apply (keeps_unbatched R a).
    + now apply read_asoh_at.
    + now apply usable_voltage.
    + now apply asoh_after_voltage.
    + intros C. specialize (Ca C). cbn. destruct (q0 st), (c0 e); cbn; congruence.
Qed.

(** * The wrapper of the transient states *)
Definition transient_wrapper (a : hv R) (k : nat) : wrapper R :=
  Wrapper R M a t u [] no_degradation id id id (width t) 0 k.

Lemma transient_wraps a e k : cell a e -> wraps_ecm spline X mode capacitor temp (transient_wrapper a k) e.
Proof.
  intros [Wa Ua Ci Us Sh Ca (Wt & Bt & Lt) (Wu & Bu & Lu) On]. split; cbn [Wrappers.cell_of deg_model w_transients w_inputs w_asoh transient_wrapper]; auto.
  split; cbn [w_asoh asoh_inputs w_transients num_transients num_asoh transient_wrapper]; auto.
  - constructor.
  - split; [exact Wt|]. destruct t as [|[k1 [a1|]] t']; try discriminate Lt. exists k1, a1. now left.
  - exists []. split; [constructor|reflexivity].
Qed.

Definition pair_rows (n : nat) (r : list R) : arr R := mkArr n [r; r].
Lemma pair_rows_batch n r : List.length r = n -> batch_of R n (pair_rows n r).
Proof. intros L. split; [repeat constructor; exact L|]. split; [cbn; lia|reflexivity]. Qed.
Lemma batch_row n x b : batch_of R n x -> b < anrows x -> List.length (nth b (arows x) []) = n.
Proof. intros (Wx & _ & Cx) Hb. rewrite <- Cx. unfold wf_arr in Wx. rewrite Forall_forall in Wx. apply Wx, nth_In, Hb. Qed.
Lemma id_lossless n : lossless R n id.
Proof. split; intros x Bx; exists x; auto. Qed.

Section Cell.
Variables (a : hv R) (e : ecm_asoh).
Hypothesis H1 : cell a e.
Variable k : nat.
Let n := width t.
Variables (q v : cinput).
Hypothesis Fq : input_fits temp q.
Hypothesis Fv : input_fits temp v.
Hypothesis lin : mode = Linear -> ut v <> ut q.
Let w := transient_wrapper a k.

Lemma state_row x b : batch_of R n x -> b < anrows x -> exists s, nth b (arows x) [] = values s /\ state_fits capacitor (List.length (rcs e)) s.
Proof.
  intros Bx Hb. pose proof (batch_row n x b Bx Hb) as L.
  assert (En : n = 2 + cap_width capacitor + List.length (rcs e)) by (apply width_state, H1).
  destruct (split_values capacitor (List.length (rcs e)) (nth b (arows x) [])) as (s & theta & Er & Fs); [lia|].
  exists s. split; [|exact Fs]. pose proof (f_equal (@List.length R) Er) as L2.
  rewrite app_length, (values_length _ _ _ Fs) in L2. destruct theta; [|cbn in L2; lia]. now rewrite app_nil_r in Er.
Qed.
Lemma cell_controls i : input_fits temp i -> control_of temp w (one_row (input_values i)) i.
Proof. intros F. now split. Qed.

Lemma cell_both x : batch_of R n x ->
  is_ok (snd (cell_update R w x (one_row (input_values q)) (one_row (input_values v)))) /\
  is_ok (snd (cell_predict R w x (one_row (input_values v)))).
Proof.
  intros Bx. apply (C103_transient_wrapper spline X mode capacitor temp w e x _ _ q v); auto using cell_controls.
  - now apply transient_wraps.
  - apply H1.
  - apply H1.
  - apply id_lossless.
  - intros m _ _. now exists m.
Qed.

Lemma cell_update_rows : exists g, forall x, batch_of R n x -> 1 < anrows x ->
  snd (cell_update R w x (one_row (input_values q)) (one_row (input_values v))) = Ok (mkArr n (map g (arows x))).
Proof.
  assert (T : forall x, batch_of R n x -> exists y,
    snd (cell_update R w x (one_row (input_values q)) (one_row (input_values v))) = Ok y /\ batch_of R n y /\ anrows y = anrows x /\
    forall b s, b < anrows x -> nth b (arows x) [] = values s -> state_fits capacitor (List.length (rcs e)) s ->
      nth b (arows y) [] = values (next mode (Spec_ECM.cell_of spline e 0) q v s)).
  { intros x Bx. destruct (proj1 (cell_both x Bx)) as [y Ey]. exists y. split; [exact Ey|].
    destruct (C102_transient_update spline X mode capacitor temp w e x (one_row (input_values q)) (one_row (input_values v)) q v x y) as (j' & Ej & H);
      auto using cell_controls, id_lossless; [now apply transient_wraps|].
    injection Ej as <-. exact H. }
  exists (fun r => match snd (cell_update R w (pair_rows n r) (one_row (input_values q)) (one_row (input_values v))) with
                   | Ok y => nth 0 (arows y) [] | Err _ => [] end).
  intros x Bx _. destruct (T x Bx) as (y & Ey & By & Ry & Hy). rewrite Ey. f_equal.
  destruct y as [cy ry]. destruct By as (_ & _ & Cy). cbn in Cy. subst cy. f_equal. cbn [arows anrows] in *.
  apply nth_eq_map; [exact Ry|]. intros b Hb.
  destruct (state_row x b Bx Hb) as (s & Er & Fs). rewrite (Hy b s Hb Er Fs).
  destruct (T (pair_rows n (nth b (arows x) []))) as (y2 & Ey2 & _ & _ & H2); [now apply pair_rows_batch, batch_row|].
  rewrite Ey2. symmetry. apply (H2 0 s); [cbn; lia|exact Er|exact Fs].
Qed.

Lemma cell_predict_rows : exists h, forall x, batch_of R n x -> 1 < anrows x ->
  snd (cell_predict R w x (one_row (input_values v))) = Ok (mkArr 1 (map h (arows x))).
Proof.
  assert (T : forall x, batch_of R n x -> exists y,
    snd (cell_predict R w x (one_row (input_values v))) = Ok y /\ batch_of R 1 y /\ anrows y = anrows x /\
    forall b s, b < anrows x -> nth b (arows x) [] = values s -> state_fits capacitor (List.length (rcs e)) s ->
      nth b (arows y) [] = [voltage (Spec_ECM.cell_of spline e 0) v s]).
  { intros x Bx. destruct (proj2 (cell_both x Bx)) as [y Ey]. exists y. split; [exact Ey|].
    destruct (C102_transient_prediction spline X mode capacitor temp w e x (one_row (input_values v)) v x y) as (j' & Ej & H);
      auto using cell_controls, id_lossless; [now apply transient_wraps|].
    injection Ej as <-. exact H. }
  exists (fun r => match snd (cell_predict R w (pair_rows n r) (one_row (input_values v))) with
                   | Ok y => nth 0 (arows y) [] | Err _ => [] end).
  intros x Bx _. destruct (T x Bx) as (y & Ey & By & Ry & Hy). rewrite Ey. f_equal.
  destruct y as [cy ry]. destruct By as (_ & _ & Cy). cbn in Cy. subst cy. f_equal. cbn [arows anrows] in *.
  apply nth_eq_map; [exact Ry|]. intros b Hb.
  destruct (state_row x b Bx Hb) as (s & Er & Fs). rewrite (Hy b s Hb Er Fs).
  destruct (T (pair_rows n (nth b (arows x) []))) as (y2 & Ey2 & _ & _ & H2); [now apply pair_rows_batch, batch_row|].
  rewrite Ey2. symmetry. apply (H2 0 s); [cbn; lia|exact Er|exact Fs].
Qed.

(** The cell in the wrapper after an update. *)
Lemma cell_stays x : batch_of R n x -> exists a' e',
  fst (cell_update R w x (one_row (input_values q)) (one_row (input_values v))) = transient_wrapper a' k /\ cell a' e' /\ settles X a a'.
Proof.
  intros Bx. destruct (proj1 (cell_both x Bx)) as [y Ey]. pose proof (transient_wraps a e k H1) as W.
  destruct (transient_decode spline X mode capacitor temp w e x W Bx) as (st & Rs & Os & Qs & R1 & R2 & _).
  destruct W as [Rd Wm Wd Wt Wi Wh W1]. pose proof (circuit_read X _ _ Wh) as Wh'.
  destruct (controls_read w temp _ q Wi (cell_controls q Fq)) as (pi & ip & Cp & _ & Rp & Op & Ip).
  destruct (controls_read w temp _ v Wi (cell_controls v Fv)) as (ni & iv & Cv & _ & Rv & Ov & Iv).
  unfold cell_update, hidden_to_transients in *. change (op_samples R (hidden_conversion R w) x) with (Ok x) in *.
  cbn [bind] in *. rewrite Cp, Cv in *. cbn [bind] in *.
  destruct (cm_update (Wrappers.cell_of R w) pi ni _ (w_asoh R w)) as [a' r] eqn:Eu. cbn [fst snd] in *.
  destruct r as [t'|]; [|discriminate Ey].
  assert (Ha : a' = store_update st a).
  { change (Wrappers.cell_of R w) with M in Eu.
    destruct (ecm_update_rows spline X mode pi ni _ (w_asoh R w) ip iv st e (anrows x) t' (proj1 (proj2 Bx)) Rp Rv Rs Wh' Op Ov) as [E1 _]; auto.
    - now apply asoh_1.
    - now rewrite Eu.
    - rewrite Eu in E1. exact E1. }
  exists a', (after_update st e). split; [reflexivity|]. subst a'. split; [|apply settles_update].
  assert (Ka : keeps R a (store_update st a)) by apply keeps_store_update.
  destruct H1 as [Wa Ua Ci Us Sh Ca (Wt' & Bt & Lt) Hu On].
  split; rewrite ?length_rcs_update; auto.
  - now apply Ka.
  - now apply (keeps_unbatched R a).
  - apply read_asoh_at. rewrite read_after_update. change (read_asoh X a = Ok e) in Wh'. now rewrite Wh'.
  - now apply usable_update.
  - now apply asoh_after_update.
Qed.
End Cell.

(** A copy of the health variable with other values of the selected parameters still
    describes one cell. *)
Lemma copied_cell w a e v : cell a e -> ready R w -> w_asoh R w = a -> List.length v = num_asoh R w ->
  exists a' e', snd (hv_make_copy a (V1 v) (asoh_inputs R w)) = Ok a' /\ cell a' e'.
Proof.
  intros H1 Rd <- Lv.
  change (hv_make_copy (w_asoh R w) (V1 v) (asoh_inputs R w)) with (hv_make_copy (w_asoh R w) (V2 (one_row v)) (asoh_inputs R w)).
  assert (Bv : batch_of R (num_asoh R w) (one_row v)).
  { split; [repeat constructor|]. split; [cbn; lia|exact Lv]. }
  destruct (decode_asoh R w (one_row v) Rd Bv) as (a' & Ea & Wa & _).
  destruct H1 as [Wa0 Ua Ci Us Sh Ca (Wt' & Bt & Lt) Hu On]. apply circuit_read in Ci.
  destruct (health_varies X w _ a' e Rd Bv Ea Ci) as (e' & Ee & Lk & V).
  change (anrows (one_row v)) with 1 in Lk.
  destruct (like_ok _ e' e Lk Sh) as [Oe Len]. destruct (like_usable _ e' e Lk Sh Us) as (Ue & Sw & C0).
  exists a', e'. split; [exact Ea|]. split; rewrite ?Len; auto.
  - intros r kk m P.
    assert (exists m', m = V2 m') as [m' ->].
    { destruct (param_2d a' r kk m Wa P) as (m' & -> & _). now exists m'. }
    destruct (in_dec String.string_dec (path_name r kk) (asoh_inputs R w)) as [In1|Nin].
    all: destruct (copy_rows (w_asoh R w) (one_row v) (asoh_inputs R w) a') with (r := r) (k := kk) (m := m') as [C1 C2]; auto; try apply Rd.
    all: try (cbn [shape0]; auto).
    all: try (repeat constructor).
    all: destruct Rd as [W2 U2 ND2 F2 T2 Wd2 (ms & Hm & Em)]; cbn [one_row acols]; rewrite Lv, Em;
         destruct (holds_map (w_asoh R w) (asoh_inputs R w) ms W2 Hm) as [_ <-]; now rewrite map_map.
  - now apply read_asoh_at.
  - intros C. specialize (Ca C). destruct (c0 e'); [discriminate|]. destruct (c0 e); [discriminate C0|contradiction].
Qed.

(** * What the constructors of the two wrappers and of the estimator leave *)
Lemma dual_ready a e : cell a e -> exists a1 a2 a3 k e2 tm am,
  let wd := Wrapper R M a2 t u (updatable_names a2) no_degradation id id id (width t) (acols am) 1 in
  base_init R M a t u = Ok (a1, 1) /\ to_numpy t = Ok tm /\ acols tm = width t /\ List.length (concat (arows tm)) = width t /\
  get_parameters a (updatable_names a) = Ok am /\ get_parameters a2 (updatable_names a2) = Ok am /\
  List.length (concat (arows am)) = acols am /\
  joint_init R M no_degradation a1 t u None id id id = Ok wd /\
  wraps_ecm spline X mode capacitor temp wd e2 /\ usable_asoh spline e2 /\ (capacitor = true -> c0 e2 <> None) /\
  (estimable temp wd e -> estimable temp wd e2) /\
  updatable_names a2 = updatable_names a /\
  (forall names, base_estimator R M a2 t u names = Ok (Base R a3 t u names k)) /\
  (forall v, List.length v = acols am -> exists a' e', snd (hv_make_copy a3 (V1 v) (updatable_names a3)) = Ok a' /\ cell a' e').
Proof.
  intros H0. destruct (evaluated a e H0) as (iu & st & k0 & B1 & _ & H1). set (a1 := store_voltage iu st a) in *.
  destruct (evaluated a1 _ H1) as (iu1 & st1 & k1 & B2 & _ & H2). set (a2 := store_voltage iu1 st1 a1) in *.
  destruct (evaluated a2 _ H2) as (iu2 & st2 & k2 & B3 & Be & H3). set (a3 := store_voltage iu2 st2 a2) in *.
  assert (K1 : keeps R a a1) by apply keeps_store_voltage.
  assert (K2 : keeps R a a2) by (eapply keeps_trans; [exact K1|apply keeps_store_voltage]).
  assert (K3 : keeps R a a3) by (eapply keeps_trans; [exact K2|apply keeps_store_voltage]).
  pose proof H0 as [Wa Ua _ _ _ _ (Wt & Bt & Lt) _ _].
  assert (NE : nonempty t) by (destruct t as [|[kk [f|]] t']; try discriminate Lt; exists kk, f; now left).
  assert (R1 : forall k f, has_field t k f -> anrows f = 1) by (intros k f Hf; destruct (proj1 Bt k f Hf); auto).
  destruct (initial_values R a a2 t Wa Ua K2 Wt NE R1) as (am & tm & G1 & G2 & G3 & N1 & N2).
  destruct (initial_values R a a3 t Wa Ua K3 Wt NE R1) as (am' & tm' & G1' & G2' & G3' & _).
  rewrite G1 in G1'. injection G1' as <-. rewrite G3 in G3'. injection G3' as <-.
  assert (Ct : acols tm = width t).
  { destruct (C01_encode_rows R t 1) as (tm' & Et & _ & _ & Ct & _); auto.
    { intros k f Hf. rewrite (R1 k f Hf). lia. }
    rewrite Et in G3. injection G3 as <-. exact Ct. }
  assert (J : forall b b', base_init R M b t u = Ok (b', 1) -> get_parameters b' (updatable_names b') = Ok am ->
    joint_init R M no_degradation b t u None id id id =
      Ok (Wrapper R M b' t u (updatable_names b') no_degradation id id id (width t) (acols am) 1)).
  { intros b b' Eb Gb. unfold joint_init. rewrite Eb. cbn [bind]. rewrite G3. cbn [bind]. rewrite Gb. cbn [bind]. now rewrite Ct. }
  pose proof (J a1 a2 B2 G2) as J1. pose proof (J a2 a3 B3 G2') as J2. clear J.
  destruct (built_wraps spline X mode capacitor temp a1 t u _ p H1 _ J1) as (_ & _ & _ & _ & e2 & W2 & U2 & C2 & E2).
  destruct (built_wraps spline X mode capacitor temp a2 t u _ p H2 _ J2) as (_ & _ & _ & _ & e3 & W3 & _).
  exists a1, a2, a3, k2, e2, tm, am. cbn zeta. split; [exact B1|]. split; [exact G3|]. split; [exact Ct|]. split; [congruence|].
  split; [exact G1|]. split; [exact G2|]. split; [exact N2|]. split; [exact J1|]. split; [exact W2|]. split; [exact U2|]. split; [exact C2|].
  split; [intros Es; now apply E2, estimable_voltage|]. split; [apply (keeps_names R a a2 K2)|]. split; [exact Be|].
  intros v Lv. apply (copied_cell _ a3 _ v H3 (we_ready _ _ _ _ _ _ _ W3) eq_refl Lv).
Qed.

(** * The wrapper of the health parameters *)
Section Health.
Variables (w : wrapper R) (e : ecm_asoh) (l : list R).
Hypothesis W : wraps_ecm spline X mode capacitor temp w e.
Hypothesis U : usable_asoh spline e.
Hypothesis C : capacitor = true -> c0 e <> None.
Hypothesis Es : estimable temp w e.
Hypothesis Er : temp = true -> ~ selected w "ocv.ocv_ref.reference_temperature".
Hypothesis Ih : hidden_conversion R w = id.
Hypothesis Ic : control_conversion R w = id.
Hypothesis Io : output_conversion R w = id.
Hypothesis Lm : 0 < num_asoh R w.
Hypothesis Ll : List.length l = num_transients R w.
Let m := num_asoh R w.
Let w' := with_transients R w (make_copy (w_transients R w) (V1 l)).

Lemma names_given : asoh_inputs R w <> [].
Proof.
  intros E. destruct (we_ready _ _ _ _ _ _ _ W) as [_ _ _ _ _ _ (ms & Hm & Em)]. rewrite E in Hm. inversion Hm; subst. rewrite Em in Lm. cbn in Lm. lia.
Qed.

Lemma health_wraps : wraps_ecm spline X mode capacitor temp w' e /\
  exists s, holds_state w' s /\ state_fits capacitor (List.length (rcs e)) s.
Proof.
  destruct W as [Rd Wm Wd Wt Wi Wh W1]. destruct Rd as [T1 T2 T3 T4 [T5 T6] T7 T8].
  assert (Wl : wf_arr (one_row l)) by (repeat constructor).
  assert (El : acols (one_row l) = width (w_transients R w)) by (cbn; lia).
  destruct (copy_container (w_transients R w) (one_row l) T5 T6 Wl eq_refl El) as (L & Wc & Nc & Bc & Ec).
  unfold w'. change (make_copy (w_transients R w) (V1 l)) with (make_copy (w_transients R w) (V2 (one_row l))). split.
  - split; cbn [Wrappers.cell_of deg_model w_transients w_inputs w_asoh with_transients]; auto; [|now rewrite L].
    split; cbn [w_asoh asoh_inputs w_transients num_transients num_asoh with_transients]; auto.
    rewrite T7. rewrite !width_layout. now rewrite L.
  - pose proof (width_state _ _ _ Wt) as Ew.
    destruct (split_values capacitor (List.length (rcs e)) l) as (s & theta & Es0 & Fs); [lia|].
    assert (theta = []) as ->.
    { pose proof (f_equal (@List.length R) Es0) as L2. rewrite app_length, (values_length _ _ _ Fs) in L2.
      destruct theta; [reflexivity|cbn in L2; lia]. }
    rewrite app_nil_r in Es0. exists s. split; [|exact Fs]. split; [exact Bc|]. rewrite <- Es0. exact Ec.
Qed.

Variables (q v : cinput).
Hypothesis Fq : input_fits temp q.
Hypothesis Fv : input_fits temp v.
Hypothesis lin : mode = Linear -> ut v <> ut q.
Lemma health_controls i : input_fits temp i -> control_of temp w' (one_row (input_values i)) i.
Proof. intros F. split; [exact F|]. unfold w'. cbn [control_conversion with_transients]. now rewrite Ic. Qed.
Lemma health_samples (x : arr R) : op_samples R (hidden_conversion R w') x = Ok x.
Proof. unfold w'. cbn [hidden_conversion with_transients]. now rewrite Ih. Qed.
Lemma health_outputs (x : arr R) : op_inverse_samples R (output_conversion R w') x = Ok x.
Proof. unfold w'. cbn [output_conversion with_transients]. now rewrite Io. Qed.
Lemma health_estimable (x : arr R) : anrows x = 1 \/ estimable temp w' e /\ (temp = true -> ~ selected w' "ocv.ocv_ref.reference_temperature").
Proof. right. split; [destruct Es; split; assumption|exact Er]. Qed.

Lemma health_update_rows previous x : batch_of R m x ->
  snd (degradation_update R w' previous x (one_row (input_values q)) (one_row (input_values v))) = Ok (mkArr m (map (fun r => r) (arows x))).
Proof.
  intros Bx. destruct health_wraps as [W' (s & Hs & Fs)].
  rewrite (C103_health_update spline X mode capacitor temp w' e s x previous _ q _ v x W' U C Hs Fs (health_samples x) Bx names_given
    (health_controls q Fq) (health_controls v Fv) (health_estimable x)).
  unfold w'. cbn [hidden_conversion with_transients]. rewrite Ih. cbn. f_equal. destruct Bx as (_ & _ & Cx). rewrite map_id.
  destruct x. cbn in *. now subst.
Qed.

Lemma previous_inputs previous x nc : fst (degradation_update R w' previous x (one_row (input_values q)) nc) =
  make_copy (w_inputs R w) (V2 (one_row (input_values q))).
Proof.
  unfold degradation_update, controls_to_inputs, w'. cbn [control_conversion w_inputs with_transients]. rewrite Ic. reflexivity.
Qed.

Lemma broadcast_members (z : arr R) (x : arr R) f : batch_of R 1 z -> anrows z = 1 \/ anrows z = anrows x ->
  (forall b, b < anrows x -> member b z = f (nth b (arows x) [])) ->
  broadcast_to R (anrows x) 1 z = Ok (mkArr 1 (map f (arows x))).
Proof.
  intros (Wz & _ & Cz) Rz H. rewrite <- Cz at 1. rewrite broadcast_to_rows by exact Rz. f_equal.
  unfold broadcast_rows. destruct z as [cz rz]. cbn [arows acols anrows] in *. subst cz.
  unfold member in H. cbn [arows] in H.
  destruct rz as [|r [|r2 rz]].
  - destruct Rz as [Rz|Rz]; [discriminate Rz|]. f_equal. destruct x as [cx [|rx x]]; [reflexivity|discriminate Rz].
  - f_equal. apply nth_eq_map; [apply repeat_length|]. intros b Hb. rewrite <- (H b Hb).
    rewrite (nth_indep _ [] r) by (now rewrite repeat_length). apply nth_repeat.
  - destruct Rz as [Rz|Rz]; [discriminate Rz|]. f_equal. apply nth_eq_map; [exact Rz|]. intros b Hb. symmetry. now rewrite <- (H b Hb).
Qed.

Lemma health_predict_rows : exists h, forall x, batch_of R m x -> exists y,
  degradation_predict R w' (make_copy (w_inputs R w) (V2 (one_row (input_values q)))) x (one_row (input_values v)) = Ok y /\
  broadcast_to R (anrows x) 1 y = Ok (mkArr 1 (map h (arows x))).
Proof.
  destruct health_wraps as [W' (s & Hs & Fs)].
  set (prev := make_copy (w_inputs R w) (V2 (one_row (input_values q)))).
  assert (T : forall x, batch_of R m x -> exists y, degradation_predict R w' prev x (one_row (input_values v)) = Ok y /\
    batch_of R 1 y /\ (anrows y = 1 \/ anrows y = anrows x) /\
    forall b, b < anrows x -> exists c, cell_with spline X w' (nth b (arows x) []) c /\ member b y = [voltage c v (next mode c q v s)]).
  { intros x Bx. unfold prev. rewrite <- (previous_inputs u x (one_row (input_values v))).
    assert (is_ok (degradation_predict R w' (fst (degradation_update R w' u x (one_row (input_values q)) (one_row (input_values v)))) x (one_row (input_values v)))) as [y Ey].
    { apply (C103_health_prediction spline X mode capacitor temp w' e s x x u _ q _ _ v x W' U C Hs Fs (health_samples x) Bx); auto using health_controls, health_estimable.
      intros z _ _. exists z. apply health_outputs. }
    exists y. split; [exact Ey|].
    destruct (C102_health_prediction spline X mode capacitor temp w' e s x x u _ q _ _ v x y W' Hs Fs (health_samples x) Bx
      (health_controls q Fq) (health_controls v Fv) Ey) as (z & Ez & H).
    rewrite health_outputs in Ez. injection Ez as <-. exact H. }
  exists (fun r => match degradation_predict R w' prev (pair_rows m r) (one_row (input_values v)) with
                   | Ok y => member 0 y | Err _ => [] end).
  intros x Bx. destruct (T x Bx) as (y & Ey & By & Ry & Hy). exists y. split; [exact Ey|].
  apply broadcast_members; [exact By|exact Ry|]. intros b Hb.
  destruct (Hy b Hb) as (c & Cc & ->).
  destruct (T (pair_rows m (nth b (arows x) []))) as (y2 & Ey2 & _ & _ & H2); [now apply pair_rows_batch, batch_row|].
  rewrite Ey2. destruct (H2 0) as (c2 & Cc2 & E2); [cbn; lia|]. cbn [pair_rows arows nth] in Cc2.
  rewrite E2. now rewrite (cell_with_unique spline X w' _ c c2 Cc Cc2).
Qed.
End Health.
End S.

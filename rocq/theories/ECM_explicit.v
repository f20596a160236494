(** What the wrappers around the equivalent circuit model of one cell compute for each row of
    a batch: the equations of Spec_ECM_equations.v. *)
From Coq Require Import Reals String List Arith Bool Lia.
Import ListNotations.
From Verif Require Import Res Arr Arr_lemmas Names NdArray Container Container_proofs Spec_Container Health Spec_Health Health_lemmas
  NdR Interp Simulator ECM Spec_ECM ECM_batch ECM_objects ECM_store
  Wrappers Spec_Wrappers Spec_ECM_objects ECM_circuit ECM_objects_proofs ECM_joint_proofs Spec_ECM_batch Spec_ECM_select
  Spec_ECM_run Spec_ECM_equations Health_misc Wrappers_proofs ECM_separate Estimators ECM_built ECM_dual ECM_settled Properties_ECM_joint.
Local Open Scope string_scope.
Local Open Scope list_scope.
Local Open Scope nat_scope.

Lemma read_values_of capacitor n s : state_fits capacitor n s -> read_values capacitor (values s) = s.
Proof.
  intros [Q _]. destruct s as [x q i h]. cbn in Q. subst capacitor. unfold read_values, values. cbn [xsoc xq xi xh].
  destruct q as [q|]; cbn [is_some optional app skipn nth].
  - rewrite removelast_last. do 2 f_equal. change (last ((x :: q :: i) ++ [h]) 0%R = h). apply last_last.
  - rewrite removelast_last. f_equal. change (last ((x :: i) ++ [h]) 0%R = h). apply last_last.
Qed.
Lemma firstn_values s (theta : list R) n : n = List.length (values s) -> firstn n (values s ++ theta) = values s.
Proof. intros ->. rewrite firstn_app, Nat.sub_diag, firstn_all. apply app_nil_r. Qed.
Lemma skipn_values s (theta : list R) n : n = List.length (values s) -> skipn n (values s ++ theta) = theta.
Proof. intros ->. now rewrite skipn_app, Nat.sub_diag, skipn_all. Qed.

Section S.
Variable spline : nat -> list R -> res (list R -> R -> R).
Variable X : settings.
Variable mode : behavior.
Variables (capacitor temp : bool).

(** * The joint wrapper *)
Section Joint.
Variables (w : wrapper R) (e0 : ecm_asoh).
Hypothesis W : wraps_ecm spline X mode capacitor temp w e0.
Hypothesis U : usable_asoh spline e0.
Hypothesis C : capacitor = true -> c0 e0 <> None.
Hypothesis Es : estimable temp w e0.
Hypothesis Ih : hidden_conversion R w = identity_operator R.
Hypothesis Ic : control_conversion R w = identity_operator R.
Hypothesis Io : output_conversion R w = identity_operator R.
Let n := num_hidden_dimensions R w.
Variable circuit : list R -> cell.
Hypothesis Hc : forall theta, List.length theta = num_asoh R w -> cell_with spline X w theta (circuit theta).

Lemma joint_row x b s theta : batch_of R n x -> b < anrows x -> nth b (arows x) [] = values s ++ theta -> state_fits capacitor (List.length (rcs e0)) s ->
  num_transients R w = List.length (values s) /\ List.length theta = num_asoh R w.
Proof.
  intros Bx Hb Er Fs. pose proof (f_equal (@List.length R) Er) as L. rewrite app_length in L.
  change (batch_of R (num_hidden_dimensions R w) x) in Bx. rewrite (row_length _ x b Bx Hb) in L.
  assert (E : num_transients R w = List.length (values s)).
  { destruct W as [Rd _ _ Wt _ _ _]. destruct Rd as [_ _ _ _ _ Rw _]. rewrite Rw, (width_state _ _ _ Wt), (values_length _ _ _ Fs). reflexivity. }
  split; [exact E|]. unfold num_hidden_dimensions in L. lia.
Qed.

Lemma joint_update_equations p u x : input_fits temp p -> input_fits temp u -> (mode = Linear -> ut u <> ut p) ->
  batch_of R n x -> 1 < anrows x ->
  joint_update R w x (one_row (input_values p)) (one_row (input_values u)) =
    Ok (mkArr n (map (joint_next mode capacitor circuit (num_transients R w) p u) (arows x))).
Proof.
  intros Fp Fu Lin Bx Hx. pose proof (control_values temp w Ic p Fp) as Cp. pose proof (control_values temp w Ic u Fu) as Cu.
  assert (is_ok (joint_update R w x (one_row (input_values p)) (one_row (input_values u)))) as [y Ey].
  { apply (C103_joint_update spline X mode capacitor temp w e0 x _ _ p u); auto using hidden_lossless. }
  rewrite Ey. f_equal.
  destruct (C102_joint_update spline X mode capacitor temp w e0 x (one_row (input_values p)) (one_row (input_values u)) p u x y W (hidden_lossless w Ih) Bx) as (j' & Ej & By & Ry & H); auto.
  { now rewrite Ih. }
  rewrite Ih in Ej. injection Ej as <-.
  destruct y as [cy ry]. destruct By as (_ & _ & Cy). cbn in Cy. subst cy. f_equal. cbn [arows anrows] in *.
  apply nth_eq_map; [exact Ry|]. intros b Hb.
  destruct (row_split spline X mode capacitor temp w e0 W x b Bx Hb) as (s & theta & Er & Fs).
  destruct (H b s theta Hb Er Fs) as (c & Cc & Eb). rewrite Eb.
  destruct (joint_row x b s theta Bx Hb Er Fs) as [Nt Na].
  rewrite Er. unfold joint_next. rewrite (firstn_values s theta _ Nt), (skipn_values s theta _ Nt), (read_values_of _ _ s Fs).
  now rewrite (cell_with_unique spline X w theta c _ Cc (Hc theta Na)).
Qed.

Lemma joint_predict_equations u x : input_fits temp u -> batch_of R n x -> 1 < anrows x ->
  joint_predict R w x (one_row (input_values u)) =
    Ok (mkArr 1 (map (joint_voltage capacitor circuit (num_transients R w) u) (arows x))).
Proof.
  intros Fu Bx Hx. pose proof (control_values temp w Ic u Fu) as Cu.
  assert (is_ok (joint_predict R w x (one_row (input_values u)))) as [y Ey].
  { apply (C103_joint_prediction spline X mode capacitor temp w e0 x _ u); auto using hidden_lossless.
    intros m _ _. rewrite Io. now exists m. }
  rewrite Ey. f_equal.
  destruct (C102_joint_prediction spline X mode capacitor temp w e0 x (one_row (input_values u)) u x y W (hidden_lossless w Ih) Bx) as (m & Em & By & Ry & H); auto.
  { now rewrite Ih. }
  rewrite Io in Em. injection Em as Em. subst m.
  destruct y as [cy ry]. destruct By as (_ & _ & Cy). cbn in Cy. subst cy. f_equal. cbn [arows anrows] in *.
  apply nth_eq_map; [exact Ry|]. intros b Hb.
  destruct (row_split spline X mode capacitor temp w e0 W x b Bx Hb) as (s & theta & Er & Fs).
  destruct (H b s theta Hb Er Fs) as (c & Cc & Eb). rewrite Eb.
  destruct (joint_row x b s theta Bx Hb Er Fs) as [Nt Na].
  rewrite Er. unfold joint_voltage. rewrite (firstn_values s theta _ Nt), (skipn_values s theta _ Nt), (read_values_of _ _ s Fs).
  now rewrite (cell_with_unique spline X w theta c _ Cc (Hc theta Na)).
Qed.
End Joint.

(** * The wrapper of the transient states *)
Section Cell.
Variables (t u : container R) (p : cinput).
Notation cell a e := (one_cell spline X capacitor temp a t u e p).
Variables (a : hv R) (e : ecm_asoh).
Hypothesis H1 : cell a e.
Variable k : nat.
Let n := width t.
Variables (q v : cinput).
Hypothesis Fq : input_fits temp q.
Hypothesis Fv : input_fits temp v.
Hypothesis lin : mode = Linear -> ut v <> ut q.
Let w := transient_wrapper spline X mode t u a k.
Variable c : Spec_ECM.cell.
Hypothesis Hc : Spec_ECM.cell_of spline e 0 = c.

Lemma cell_controls' i : input_fits temp i -> control_of temp w (one_row (input_values i)) i.
Proof. intros F. now split. Qed.
Lemma cell_update_equations x : batch_of R n x ->
  snd (cell_update R w x (one_row (input_values q)) (one_row (input_values v))) = Ok (mkArr n (map (transient_next mode capacitor c q v) (arows x))).
Proof.
  intros Bx. destruct (proj1 (cell_both spline X mode capacitor temp t u p a e H1 k q v Fq Fv lin x Bx)) as [y Ey]. fold w in Ey. rewrite Ey. f_equal.
  destruct (C102_transient_update spline X mode capacitor temp w e x (one_row (input_values q)) (one_row (input_values v)) q v x y) as (j' & Ej & By & Ry & H);
    auto using cell_controls', id_lossless; [now apply (transient_wraps spline X mode capacitor temp t u p)|].
  injection Ej as <-.
  destruct y as [cy ry]. destruct By as (_ & _ & Cy). cbn in Cy. subst cy. f_equal. cbn [arows anrows] in *.
  apply nth_eq_map; [exact Ry|]. intros b Hb.
  destruct (state_row spline X capacitor temp t u p a e H1 x b Bx Hb) as (s & Er & Fs). rewrite (H b s Hb Er Fs), Er.
  unfold transient_next. now rewrite (read_values_of _ _ s Fs), Hc.
Qed.
Lemma cell_predict_equations x : batch_of R n x ->
  snd (cell_predict R w x (one_row (input_values v))) = Ok (mkArr 1 (map (transient_voltage capacitor c v) (arows x))).
Proof.
  intros Bx. destruct (proj2 (cell_both spline X mode capacitor temp t u p a e H1 k q v Fq Fv lin x Bx)) as [y Ey]. fold w in Ey. rewrite Ey. f_equal.
  destruct (C102_transient_prediction spline X mode capacitor temp w e x (one_row (input_values v)) v x y) as (j' & Ej & By & Ry & H);
    auto using cell_controls', id_lossless; [now apply (transient_wraps spline X mode capacitor temp t u p)|].
  injection Ej as Ej. subst j'.
  destruct y as [cy ry]. destruct By as (_ & _ & Cy). cbn in Cy. subst cy. f_equal. cbn [arows anrows] in *.
  apply nth_eq_map; [exact Ry|]. intros b Hb.
  destruct (state_row spline X capacitor temp t u p a e H1 x b Bx Hb) as (s & Er & Fs). rewrite (H b s Hb Er Fs), Er.
  unfold transient_voltage. now rewrite (read_values_of _ _ s Fs), Hc.
Qed.
End Cell.

(** * The wrapper of the health parameters *)
Section Health.
Variables (u : container R) (w : wrapper R) (e : ecm_asoh) (l : list R).
Hypothesis W : wraps_ecm spline X mode capacitor temp w e.
Hypothesis U : usable_asoh spline e.
Hypothesis C : capacitor = true -> c0 e <> None.
Hypothesis Es : estimable temp w e.
Hypothesis Er : temp = true -> ~ selected w "ocv.ocv_ref.reference_temperature".
Hypothesis Ih : hidden_conversion R w = identity_operator R.
Hypothesis Ic : control_conversion R w = identity_operator R.
Hypothesis Io : output_conversion R w = identity_operator R.
Hypothesis Lm : 0 < num_asoh R w.
Hypothesis Ll : List.length l = num_transients R w.
Let m := num_asoh R w.
Let w' := with_transients R w (make_copy (w_transients R w) (V1 l)).
Variables (q v : cinput).
Hypothesis Fq : input_fits temp q.
Hypothesis Fv : input_fits temp v.
Hypothesis lin : mode = Linear -> ut v <> ut q.
Variable circuit : list R -> cell.
Hypothesis Hc : forall theta, List.length theta = num_asoh R w -> cell_with spline X w theta (circuit theta).

Lemma health_values : exists s, holds_state w' s /\ state_fits capacitor (List.length (rcs e)) s /\ l = values s.
Proof.
  destruct (health_wraps spline X mode capacitor temp w e l W Lm Ll) as [W' (s & Hs & Fs)]. fold w' in W', Hs.
  exists s. split; [exact Hs|]. split; [exact Fs|]. destruct Hs as [_ E].
  destruct W as [Rd _ _ Wt _ _ _]. destruct Rd as [T1 T2 T3 T4 [T5 T6] T7 T8].
  assert (Wl : wf_arr (one_row l)) by (repeat constructor).
  assert (El : acols (one_row l) = width (w_transients R w)) by (cbn; lia).
  destruct (copy_container (w_transients R w) (one_row l) T5 T6 Wl eq_refl El) as (_ & _ & _ & _ & Ec).
  unfold w' in E. cbn [w_transients with_transients] in E. change (make_copy (w_transients R w) (V1 l)) with (make_copy (w_transients R w) (V2 (one_row l))) in E.
  rewrite Ec in E. apply (f_equal (fun r => match r with Ok x => hd [] (arows x) | Err _ => [] end)) in E. exact E.
Qed.

Lemma health_predict_equations x : batch_of R m x -> exists y,
  degradation_predict R w' (make_copy (w_inputs R w) (V2 (one_row (input_values q)))) x (one_row (input_values v)) = Ok y /\
  broadcast_to R (anrows x) 1 y = Ok (mkArr 1 (map (health_voltage mode capacitor circuit l q v) (arows x))).
Proof.
  intros Bx. destruct (health_wraps spline X mode capacitor temp w e l W Lm Ll) as [W' _]. fold w' in W'.
  destruct health_values as (s & Hs & Fs & El).
  rewrite <- (previous_inputs w l Ic q u x (one_row (input_values v))). fold w'.
  assert (is_ok (degradation_predict R w' (fst (degradation_update R w' u x (one_row (input_values q)) (one_row (input_values v)))) x (one_row (input_values v)))) as [y Ey].
  { apply (C103_health_prediction spline X mode capacitor temp w' e s x x u _ q _ _ v x W' U C Hs Fs (health_samples w l Ih x) Bx);
      auto using (health_controls temp w l Ic).
    - intros z _ _. exists z. apply (health_outputs w l Io).
    - right. split; [destruct Es; split; assumption|exact Er]. }
  exists y. split; [exact Ey|].
  destruct (C102_health_prediction spline X mode capacitor temp w' e s x x u _ q _ _ v x y W' Hs Fs (health_samples w l Ih x) Bx
    (health_controls temp w l Ic q Fq) (health_controls temp w l Ic v Fv) Ey) as (z & Ez & By & Ry & H).
  rewrite (health_outputs w l Io) in Ez. injection Ez as Ez. subst z.
  apply broadcast_members; [exact By|exact Ry|]. intros b Hb.
  destruct (H b Hb) as (c & Cc & ->). unfold health_voltage. rewrite El, (read_values_of _ _ s Fs).
  assert (Lb : List.length (nth b (arows x) []) = num_asoh R w) by (now apply (batch_row m)).
  now rewrite (cell_with_unique spline X w _ c _ Cc (Hc _ Lb)).
Qed.
End Health.

(** * Which circuits the wrappers stand for *)
Section Circuits.
Variables (t u : container R) (p : cinput).
Notation cell a e := (one_cell spline X capacitor temp a t u e p).
Notation M := (ecm_cell spline X mode).
Notation id := (identity_operator R).

Lemma base_init_settles a e a' k : cell a e -> base_init R M a t u = Ok (a', k) ->
  settles X a a' /\ k = 1 /\ exists e', cell a' e' /\ List.length (rcs e') = List.length (rcs e).
Proof.
  intros H E. destruct (evaluated spline X mode capacitor temp t u p a e H) as (iu & st & k' & B & _ & H').
  rewrite B in E. injection E as <- <-. split; [apply settles_voltage|]. split; [reflexivity|]. exists (after_voltage iu st e).
  split; [exact H'|apply length_rcs_voltage].
Qed.
Lemma base_estimator_settles a e names b : cell a e -> base_estimator R M a t u names = Ok b -> settles X a (b_asoh R b).
Proof.
  intros H E. destruct (evaluated spline X mode capacitor temp t u p a e H) as (iu & st & k' & _ & B & _).
  rewrite B in E. injection E as <-. apply settles_voltage.
Qed.
Lemma joint_init_base a w : joint_init R M no_degradation a t u None id id id = Ok w ->
  base_init R M a t u = Ok (w_asoh R w, num_outputs R w) /\ asoh_inputs R w = updatable_names (w_asoh R w).
Proof.
  unfold joint_init. intros E. destruct (base_init R M a t u) as [[a' k]|]; [|discriminate E]. cbn [bind] in E.
  destruct (to_numpy t); [|discriminate E]. cbn [bind] in E. destruct (get_parameters _ _); [|discriminate E]. cbn [bind] in E.
  injection E as <-. now split.
Qed.

Lemma names_same a s : settles X a s -> updatable_names s = updatable_names a.
Proof. intros [K _]. apply (keeps_names R a s K). Qed.

(** What the copies of the health variable of a wrapper describe. *)
Lemma wrapper_circuit a w e0 circuit : well_formed_tree a -> unbatched a -> is_ok (read_asoh X a) -> settles X a (w_asoh R w) ->
  wraps_ecm spline X mode capacitor temp w e0 ->
  (forall theta, List.length theta = num_asoh R w -> circuit_with spline X a (asoh_inputs R w) theta (circuit theta)) ->
  forall theta, List.length theta = num_asoh R w -> cell_with spline X w theta (circuit theta).
Proof.
  intros Wa Ua Ra S [Rd _ _ _ _ Wh W1] H theta L.
  assert (Bv : batch_of R (num_asoh R w) (one_row theta)).
  { split; [repeat constructor|]. split; [cbn; lia|exact L]. }
  destruct (decode_asoh R w (one_row theta) Rd Bv) as (a' & Ea & _).
  destruct (health_decode spline X w e0 (one_row theta) a' Rd (circuit_read X _ _ Wh) W1 Bv Ea) as (e & _ & _ & _ & Hb).
  specialize (Hb 0 (le_n 1)). change (nth 0 (arows (one_row theta)) []) with theta in Hb.
  match type of Hb with cell_with _ _ _ _ ?c => assert (Q : c = circuit theta); [|rewrite <- Q; exact Hb] end.
  apply (settled_copy spline X a (w_asoh R w) (asoh_inputs R w) theta (circuit theta) _ S Wa Ua Ra); [| | |now apply H|exact Hb].
  - apply Rd.
  - destruct Rd as [_ _ _ F _ _ _]. rewrite Forall_forall in *. intros nm Hn. apply (keeps_may_update R a (w_asoh R w) nm Wa (proj1 S)). auto.
  - rewrite L. destruct Rd as [W2 _ _ _ _ _ (ms & Hm & ->)]. destruct (holds_map _ _ _ W2 Hm) as [_ <-]. rewrite map_map. f_equal.
    apply map_ext. intros nm. now rewrite (keeps_lookup R a _ nm (proj1 S)).
Qed.

(** The same for copies made by the estimator. *)
Lemma copied_circuit a w s e0 circuit a' e' v : well_formed_tree a -> unbatched a -> is_ok (read_asoh X a) -> settles X a s -> settles X a (w_asoh R w) ->
  wraps_ecm spline X mode capacitor temp w e0 -> List.length v = num_asoh R w ->
  (forall theta, List.length theta = num_asoh R w -> circuit_with spline X a (asoh_inputs R w) theta (circuit theta)) ->
  snd (hv_make_copy s (V1 v) (asoh_inputs R w)) = Ok a' -> circuit_of X a' e' -> Spec_ECM.cell_of spline e' 0 = circuit v.
Proof.
  intros Wa Ua Ra S S' [Rd _ _ _ _ Wh W1] L H E C.
  apply (settled_copy spline X a s (asoh_inputs R w) v (circuit v) _ S Wa Ua Ra); [| | |now apply H|].
  - apply Rd.
  - destruct Rd as [_ _ _ F _ _ _]. rewrite Forall_forall in *. intros nm Hn. apply (keeps_may_update R a (w_asoh R w) nm Wa (proj1 S')). auto.
  - rewrite L. destruct Rd as [W2 _ _ _ _ _ (ms & Hm & ->)]. destruct (holds_map _ _ _ W2 Hm) as [_ <-]. rewrite map_map. f_equal.
    apply map_ext. intros nm. now rewrite (keeps_lookup R a _ nm (proj1 S')).
  - exists a', e'. split; [exact E|]. now split.
Qed.

(** There is one circuit for each list of parameters. *)
Lemma circuit_exists a e w : cell a e -> joint_init R M no_degradation a t u None id id id = Ok w ->
  exists circuit, forall theta, List.length theta = num_asoh R w -> circuit_with spline X a (asoh_inputs R w) theta (circuit theta).
Proof.
  intros H J. destruct (joint_init_base a w J) as [B N]. destruct (base_init_settles a e _ _ H B) as (S & _).
  destruct (built_wraps spline X mode capacitor temp a t u e p H w J) as (_ & _ & _ & _ & e' & W & _).
  pose proof H as [Wa Ua Ci _ Sh _ _ _ _].
  assert (K : keeps R (w_asoh R w) a) by (split; [auto|intros uo; symmetry; apply S]).
  pose proof (we_ready _ _ _ _ _ _ _ W) as Rd.
  assert (Rd' : ready R (with_asoh R w a)).
  { destruct Rd as [R1 R2 R3 R4 R5 R6 (ms & Hm & En)]. split; cbn [w_asoh asoh_inputs w_transients num_transients num_asoh with_asoh]; auto.
    - rewrite Forall_forall in *. intros nm Hn. apply (keeps_may_update R _ a nm R1 K). auto.
    - exists ms. split; [|exact En]. clear - Hm R1 K. induction Hm; constructor; auto. now apply (keeps_holds R (w_asoh R w)). }
  exists (fun theta => match snd (hv_make_copy a (V2 (one_row theta)) (asoh_inputs R w)) with
                       | Ok h => match read_asoh X h with Ok x => Spec_ECM.cell_of spline x 0 | Err _ => Spec_ECM.cell_of spline e 0 end
                       | Err _ => Spec_ECM.cell_of spline e 0 end).
  intros theta L.
  assert (Bv : batch_of R (num_asoh R (with_asoh R w a)) (one_row theta)).
  { split; [repeat constructor|]. split; [cbn; lia|exact L]. }
  destruct (decode_asoh R (with_asoh R w a) (one_row theta) Rd' Bv) as (a' & Ea & _).
  destruct (health_decode spline X (with_asoh R w a) e (one_row theta) a' Rd' (circuit_read X _ _ Ci) Sh Bv Ea) as (x & Ex & _ & _ & _).
  cbn [w_asoh asoh_inputs with_asoh] in Ea. rewrite Ea, Ex. exists a', x. split; [exact Ea|]. split; [now apply read_asoh_at|reflexivity].
Qed.
End Circuits.
End S.

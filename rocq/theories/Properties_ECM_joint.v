(** C102: what the filters see of the equivalent circuit model through the wrappers.
    C103: for which selections of health parameters the equivalent circuit model can be
    evaluated for several hidden states at once, as the filters do. *)
From Coq Require Import Reals String List Arith Bool Lia Lra.
Import ListNotations.
From Verif Require Import Res Arr Arr_lemmas Names NdArray Container Container_proofs Spec_Container Health Spec_Health Health_lemmas
  Health_update Health_resolve Health_proofs Health_misc
  Health_rows NdR Interp Simulator ECM Spec_ECM ECM_update ECM_voltage ECM_batch ECM_total ECM_rows ECM_objects ECM_store
  Wrappers Spec_Wrappers Wrappers_proofs
  Spec_ECM_objects ECM_circuit ECM_objects_proofs ECM_joint_proofs Spec_ECM_batch ECM_batch_total Spec_ECM_select ECM_select_proofs
  Properties_Container Properties_Health Properties_Wrappers.
Local Open Scope string_scope.
Local Open Scope list_scope.
Local Open Scope nat_scope.

Section P.
Variable spline : nat -> list R -> res (list R -> R -> R).
Variable X : settings.

(** The circuit model evaluates the circuit described by the places of the parameters. *)
Theorem C102_circuit : forall h e, read_asoh X h = Ok e <-> circuit_of X h e.
Proof. split; [apply read_asoh_at|apply circuit_read]. Qed.

(** What the copies made from a batch of joint hidden states hold. *)
Lemma joint_decode mode capacitor temp w e0 x j :
  wraps_ecm spline X mode capacitor temp w e0 ->
  op_samples R (hidden_conversion R w) x = Ok j -> batch_of R (num_hidden_dimensions R w) j ->
  exists a t e st, create_cell_model_inputs R w x = Ok (a, t) /\
    read_asoh X a = Ok e /\ asoh_ok (anrows j) e /\ List.length (rcs e) = List.length (rcs e0) /\
    read_state t = Ok st /\ state_ok (anrows j) (List.length (rcs e0)) st /\ is_some (q0 st) = capacitor /\
    r2 (soc st) = anrows j /\ r2 (hyst st) = anrows j /\
    num_transients R w = 2 + cap_width capacitor + List.length (rcs e0) /\
    forall b s theta, b < anrows j -> nth b (arows j) [] = values s ++ theta ->
      state_fits capacitor (List.length (rcs e0)) s ->
      state_of st b = s /\ cell_with spline X w theta (Spec_ECM.cell_of spline e b).
Proof.
  intros [Rd Wm Wd Wt Wi Wh W1] Ej Bj. apply circuit_read in Wh.
  set (nt := num_transients R w) in *. set (n := List.length (rcs e0)) in *.
  assert (Nt : nt = 2 + cap_width capacitor + n).
  { unfold nt. destruct Rd as [_ _ _ _ _ Rw _]. rewrite Rw. now apply width_state. }
  destruct (decode_parts _ w j Rd Bj) as [Bt Ba]. fold nt in Bt, Ba.
  destruct (decode_spec _ w x j Rd Ej Bj) as (a & t & D & Et & _ & _ & _ & _ & T & _). fold nt in Et, T.
  pose proof D as D'. unfold create_cell_model_inputs in D'. rewrite Ej in D'. cbn [bind] in D'.
  rewrite slice_rest in D' by apply Bj. fold nt in D'.
  destruct (snd (hv_make_copy (w_asoh R w) (V2 (drop_cols nt j)) (asoh_inputs R w))) as [a0|] eqn:Ha; [|discriminate].
  cbn [bind] in D'. injection D' as -> Dt. clear Dt.
  destruct (health_decode spline X w e0 (drop_cols nt j) a Rd Wh W1 Ba Ha) as (e & Ee & Oe & Len & Ce).
  rewrite anrows_drop in Oe, Ce.
  destruct (read_state_copy (w_transients R w) capacitor n (take_cols nt j) Wt) as (st & Rs & Os & Qs & R1 & R2 & Is);
    [apply Bt|rewrite <- Nt; apply Bt|].
  rewrite anrows_take in Os, R1, R2, Is. rewrite <- T in Rs.
  exists a, t, e, st. split; [exact D|]. split; [exact Ee|]. split; [exact Oe|]. split; [exact Len|]. split; [exact Rs|].
  split; [exact Os|]. split; [exact Qs|]. split; [exact R1|]. split; [exact R2|]. split; [exact Nt|].
  intros b s theta Hb Er Fs.
  assert (Len_s : List.length (values s) = nt) by (rewrite Nt; now apply values_length).
  split.
  - apply Is; [exact Hb| |exact Fs]. rewrite nth_take, Er, <- Len_s, firstn_app, Nat.sub_diag, firstn_all, firstn_O. apply app_nil_r.
  - replace theta with (nth b (arows (drop_cols nt j)) []); [now apply Ce|].
    rewrite nth_drop, Er, <- Len_s, skipn_app, skipn_all, Nat.sub_diag. reflexivity.
Qed.

(** The hidden states after an update of a joint wrapper around the equivalent circuit
    model: the transient part of every row is the next state of the cell whose health
    parameters are the other numbers of the same row, under the given inputs; these
    numbers do not change. *)
Theorem C102_joint_update : forall mode capacitor temp w e0 x pc nc p u j y,
  wraps_ecm spline X mode capacitor temp w e0 ->
  lossless R (num_hidden_dimensions R w) (hidden_conversion R w) ->
  batch_of R (num_hidden_dimensions R w) x -> op_samples R (hidden_conversion R w) x = Ok j ->
  control_of temp w pc p -> control_of temp w nc u ->
  joint_update R w x pc nc = Ok y ->
  exists j', op_samples R (hidden_conversion R w) y = Ok j' /\ batch_of R (num_hidden_dimensions R w) j' /\ anrows j' = anrows x /\
    forall b s theta, b < anrows x -> nth b (arows j) [] = values s ++ theta ->
      state_fits capacitor (List.length (rcs e0)) s ->
      exists c, cell_with spline X w theta c /\
        nth b (arows j') [] = values (next mode c p u s) ++ theta.
Proof.
  intros mode capacitor temp w e0 x pc nc p u j y W [L1 L2] Bx Ej Cp0 Cu0 Ey.
  destruct (L1 x Bx) as (j0 & Ej0 & Bj & Rj & _). rewrite Ej in Ej0. injection Ej0 as <-.
  destruct (joint_decode mode capacitor temp w e0 x j W Ej Bj)
    as (a & t & e & st & D & Ee & Oe & Len & Rs & Os & Qs & R1 & R2 & Nt & Is).
  destruct W as [Rd Wm Wd Wt Wi Wh W1]. apply circuit_read in Wh.
  set (nt := num_transients R w) in *. set (n := List.length (rcs e0)) in *. rewrite Rj in *.
  set (B := anrows x) in *. assert (HB : 1 <= B) by apply Bx.
  destruct (controls_read w temp pc p Wi Cp0) as (pi & ip & Cp & _ & Rp & Op & Ip).
  destruct (controls_read w temp nc u Wi Cu0) as (ni & iu & Cu & _ & Ru & Ou & Iu).
  pose proof Ey as Ey'. unfold joint_update in Ey'. rewrite Cp, Cu, D, Ej in Ey'. cbn [bind] in Ey'. rewrite Wm in Ey'.
  destruct (cm_update (ecm_cell spline X mode) pi ni t a) as [a1 [t'|]] eqn:Eu; [|discriminate]. cbn [bind] in Ey'.
  assert (V : is_ok (snd (cm_voltage (ecm_cell spline X mode) pi t a1))).
  { destruct (cm_voltage (ecm_cell spline X mode) pi t a1) as [a2 [v|]]; [now exists v|discriminate]. }
  clear Ey'. rewrite <- Len in Os.
  destruct (ecm_update_rows spline X mode pi ni t a ip iu st e B t' HB Rp Ru Rs Ee Op Ou Oe Os) as (Ea1 & s' & -> & _ & Os' & Qs' & Nx);
    [now rewrite Eu|]. rewrite Eu in Ea1. cbn [fst] in Ea1. subst a1. rewrite Len in Os'.
  destruct (write_state_rows s' n B HB Os') as (tm & Etm & Wtm & Rtm & Ctm & Mtm).
  rewrite Qs', Qs, <- Nt in Ctm.
  destruct (C55_health_is_held R w x pc nc j a t pi ni (write_state s') tm Rd (conj L1 L2) Bx)
    as (y' & j' & Ey2 & By' & Ry & Ej' & H1 & H2); auto.
  { rewrite Wm. apply ecm_only_reads. }
  { now rewrite Wm, Eu. }
  { rewrite Wm, Eu. exact V. }
  rewrite Ey in Ey2. injection Ey2 as <-.
  assert (By : batch_of R (num_hidden_dimensions R w) j' /\ anrows j' = B).
  { destruct (L1 y By') as (j2 & E2 & B2 & R2' & _). rewrite Ej' in E2. injection E2 as <-. split; [exact B2|]. now rewrite R2', Ry. }
  destruct By as [By RB'].
  exists j'. split; [exact Ej'|]. split; [exact By|]. split; [exact RB'|].
  intros b s theta Hb Er Fs. destruct (Is b s theta Hb Er Fs) as [Ib Cb].
  exists (Spec_ECM.cell_of spline e b). split; [exact Cb|].
  rewrite <- Ib, <- Ip, <- Iu, <- (Nx b Hb).
  assert (Len_s : List.length (values s) = nt) by (rewrite Nt; now apply values_length).
  rewrite <- (firstn_skipn nt (nth b (arows j') [])). f_equal.
  - set (b' := if anrows tm =? 1 then 0 else b).
    assert (Hb' : b' < anrows tm) by (unfold b'; destruct (Nat.eqb_spec (anrows tm) 1); lia).
    rewrite (head_from_entries j' tm b b' nt); [| apply By|exact Wtm| |exact Ctm|lia|exact Hb'|].
    + rewrite <- (Mtm b Hb). unfold b', member, anrows. destruct (arows tm) as [|r [|r' l]]; reflexivity.
    + destruct By as (_ & _ & ->). unfold num_hidden_dimensions. fold nt. lia.
    + intros c Hc. apply H2; [exact Hb|exact Hc].
  - rewrite (row_from_entries j' j b nt); [|apply By|apply Bj| |lia|lia|].
    + rewrite Er, <- Len_s, skipn_app, skipn_all, Nat.sub_diag. reflexivity.
    + destruct By as (_ & _ & ->), Bj as (_ & _ & ->). reflexivity.
    + intros c Hc. now apply H1.
Qed.

(** The prediction of a joint wrapper, before the conversion of the outputs: one row for
    each hidden state, with the terminal voltage of that cell in that state. *)
Theorem C102_joint_prediction : forall mode capacitor temp w e0 x uc u j z,
  wraps_ecm spline X mode capacitor temp w e0 ->
  lossless R (num_hidden_dimensions R w) (hidden_conversion R w) ->
  batch_of R (num_hidden_dimensions R w) x -> op_samples R (hidden_conversion R w) x = Ok j ->
  control_of temp w uc u ->
  joint_predict R w x uc = Ok z ->
  exists m, op_inverse_samples R (output_conversion R w) m = Ok z /\ batch_of R 1 m /\ anrows m = anrows x /\
    forall b s theta, b < anrows x -> nth b (arows j) [] = values s ++ theta ->
      state_fits capacitor (List.length (rcs e0)) s ->
      exists c, cell_with spline X w theta c /\ nth b (arows m) [] = [voltage c u s].
Proof.
  intros mode capacitor temp w e0 x uc u j z W [L1 L2] Bx Ej Cu0 Ez.
  destruct (L1 x Bx) as (j0 & Ej0 & Bj & Rj & _). rewrite Ej in Ej0. injection Ej0 as <-.
  destruct (joint_decode mode capacitor temp w e0 x j W Ej Bj)
    as (a & t & e & st & D & Ee & Oe & Len & Rs & Os & Qs & R1 & R2 & Nt & Is).
  destruct W as [Rd Wm Wd Wt Wi Wh W1]. apply circuit_read in Wh. rewrite Rj in *.
  set (B := anrows x) in *. assert (HB : 1 <= B) by apply Bx.
  destruct (controls_read w temp uc u Wi Cu0) as (ni & iu & Cu & _ & Ru & Ou & Iu).
  unfold joint_predict in Ez. rewrite Cu, D in Ez. cbn [bind] in Ez. rewrite Wm in Ez.
  destruct (cm_voltage (ecm_cell spline X mode) ni t a) as [a1 [y|]] eqn:Ev; [|discriminate]. cbn [bind] in Ez.
  rewrite <- Len in Os.
  destruct (ecm_voltage_rows spline X mode ni t a iu st e B y HB Ru Rs Ee Ou Oe Os) as (v & -> & Cv & Rv & Nv);
    [now rewrite Ev|].
  destruct (write_output_rows v B HB Cv) as (m & Em & Wm' & Rm & Cm & Mm). rewrite Em in Ez. cbn [bind] in Ez.
  assert (Rm' : anrows m = B) by (exact (output_full v B m HB (Rv R2) Em)).
  exists m. split; [exact Ez|]. split; [split; [exact Wm'|split; [lia|exact Cm]]|]. split; [exact Rm'|].
  intros b s theta Hb Er Fs. destruct (Is b s theta Hb Er Fs) as [Ib Cb].
  exists (Spec_ECM.cell_of spline e b). split; [exact Cb|].
  rewrite <- member_nth by lia. rewrite (Mm b Hb), (Nv b Hb), Iu, Ib. reflexivity.
Qed.

(** * The two wrappers of a dual estimator *)

(** What the copy made from a batch of transient states holds. *)
Lemma transient_decode mode capacitor temp w e0 j :
  wraps_ecm spline X mode capacitor temp w e0 -> batch_of R (num_transients R w) j ->
  exists st, read_state (make_copy (w_transients R w) (V2 j)) = Ok st /\
    state_ok (anrows j) (List.length (rcs e0)) st /\ is_some (q0 st) = capacitor /\
    r2 (soc st) = anrows j /\ r2 (hyst st) = anrows j /\
    forall b s, b < anrows j -> nth b (arows j) [] = values s ->
      state_fits capacitor (List.length (rcs e0)) s -> state_of st b = s.
Proof.
  intros [Rd Wm Wd Wt Wi Wh W1] Bj. apply circuit_read in Wh.
  apply read_state_copy; [exact Wt|apply Bj|]. destruct Rd as [_ _ _ _ _ Rw _].
  rewrite <- (width_state (w_transients R w) capacitor _ Wt), <- Rw. apply Bj.
Qed.

(** The transient wrapper: every row is the next state of the cell of the wrapper. *)
Theorem C102_transient_update : forall mode capacitor temp w e0 x pc nc p u j y,
  wraps_ecm spline X mode capacitor temp w e0 ->
  lossless R (num_transients R w) (hidden_conversion R w) ->
  batch_of R (num_transients R w) x -> op_samples R (hidden_conversion R w) x = Ok j ->
  control_of temp w pc p -> control_of temp w nc u ->
  snd (cell_update R w x pc nc) = Ok y ->
  exists j', op_samples R (hidden_conversion R w) y = Ok j' /\ batch_of R (num_transients R w) j' /\ anrows j' = anrows x /\
    forall b s, b < anrows x -> nth b (arows j) [] = values s ->
      state_fits capacitor (List.length (rcs e0)) s ->
      nth b (arows j') [] = values (next mode (Spec_ECM.cell_of spline e0 0) p u s).
Proof.
  intros mode capacitor temp w e0 x pc nc p u j y W [L1 L2] Bx Ej Cp0 Cu0 Ey.
  destruct (L1 x Bx) as (j0 & Ej0 & Bj & Rj & _). rewrite Ej in Ej0. injection Ej0 as <-.
  destruct (transient_decode mode capacitor temp w e0 j W Bj) as (st & Rs & Os & Qs & R1 & R2 & Is).
  assert (Nt : num_transients R w = 2 + cap_width capacitor + List.length (rcs e0)).
  { destruct W as [Rd _ _ Wt _ _ _]. destruct Rd as [_ _ _ _ _ Rw _]. rewrite Rw. now apply width_state. }
  destruct W as [Rd Wm Wd Wt Wi Wh W1]. apply circuit_read in Wh.
  set (n := List.length (rcs e0)) in *. rewrite Rj in *.
  set (B := anrows x) in *. assert (HB : 1 <= B) by apply Bx.
  destruct (controls_read w temp pc p Wi Cp0) as (pi & ip & Cp & _ & Rp & Op & Ip).
  destruct (controls_read w temp nc u Wi Cu0) as (ni & iu & Cu & _ & Ru & Ou & Iu).
  unfold cell_update, hidden_to_transients in Ey. rewrite Ej, Cp, Cu in Ey. cbn [bind] in Ey. rewrite Wm in Ey.
  destruct (cm_update (ecm_cell spline X mode) pi ni _ (w_asoh R w)) as [a1 [t'|]] eqn:Eu; [|discriminate]. cbn [bind snd] in Ey.
  destruct (ecm_update_rows spline X mode pi ni _ (w_asoh R w) ip iu st e0 B t' HB Rp Ru Rs Wh Op Ou (asoh_1 B e0 W1) Os)
    as (_ & s' & -> & Es & Os' & Qs' & Nx); [now rewrite Eu|].
  destruct (write_state_rows s' n B HB Os') as (tm & Etm & Wtm & Rtm & Ctm & Mtm).
  rewrite Qs', Qs, <- Nt in Ctm. rewrite Etm in Ey. cbn [bind] in Ey.
  assert (Rt : anrows tm = B).
  { destruct (Nat.eq_dec B 1) as [|N]; [lia|].
    apply (state_full s' n B tm HB Os'); [|exact Etm]. now apply (update_rows spline mode B ip iu st e0 s' R1 N). }
  destruct (L2 tm) as (y' & Ey' & By & Ry & Ej'); [split; [exact Wtm|split; [lia|exact Ctm]]|].
  rewrite Ey in Ey'. injection Ey' as <-. exists tm. split; [exact Ej'|]. split; [split; [exact Wtm|split; [lia|exact Ctm]]|]. split; [exact Rt|].
  intros b s Hb Er Fs. rewrite <- member_nth by lia. rewrite (Mtm b Hb), (Nx b Hb), Ip, Iu, (Is b s Hb Er Fs).
  now rewrite (cell_1 spline e0 b W1).
Qed.

Theorem C102_transient_prediction : forall mode capacitor temp w e0 x uc u j z,
  wraps_ecm spline X mode capacitor temp w e0 ->
  lossless R (num_transients R w) (hidden_conversion R w) ->
  batch_of R (num_transients R w) x -> op_samples R (hidden_conversion R w) x = Ok j ->
  control_of temp w uc u ->
  snd (cell_predict R w x uc) = Ok z ->
  exists m, op_inverse_samples R (output_conversion R w) m = Ok z /\ batch_of R 1 m /\ anrows m = anrows x /\
    forall b s, b < anrows x -> nth b (arows j) [] = values s ->
      state_fits capacitor (List.length (rcs e0)) s ->
      nth b (arows m) [] = [voltage (Spec_ECM.cell_of spline e0 0) u s].
Proof.
  intros mode capacitor temp w e0 x uc u j z W [L1 L2] Bx Ej Cu0 Ez.
  destruct (L1 x Bx) as (j0 & Ej0 & Bj & Rj & _). rewrite Ej in Ej0. injection Ej0 as <-.
  destruct (transient_decode mode capacitor temp w e0 j W Bj) as (st & Rs & Os & Qs & R1 & R2 & Is).
  destruct W as [Rd Wm Wd Wt Wi Wh W1]. apply circuit_read in Wh. rewrite Rj in *.
  set (B := anrows x) in *. assert (HB : 1 <= B) by apply Bx.
  destruct (controls_read w temp uc u Wi Cu0) as (ni & iu & Cu & _ & Ru & Ou & Iu).
  unfold cell_predict, hidden_to_transients in Ez. rewrite Ej, Cu in Ez. cbn [bind] in Ez. rewrite Wm in Ez.
  destruct (cm_voltage (ecm_cell spline X mode) ni _ (w_asoh R w)) as [a1 [y|]] eqn:Ev; [|discriminate]. cbn [bind snd] in Ez.
  destruct (ecm_voltage_rows spline X mode ni _ (w_asoh R w) iu st e0 B y HB Ru Rs Wh Ou (asoh_1 B e0 W1) Os) as (v & -> & Cv & Rv & Nv);
    [now rewrite Ev|].
  destruct (write_output_rows v B HB Cv) as (m & Em & Wm' & Rm & Cm & Mm). rewrite Em in Ez. cbn [bind] in Ez.
  exists m. split; [exact Ez|].
  assert (Rm' : anrows m = B) by (exact (output_full v B m HB (Rv R2) Em)).
  split; [split; [exact Wm'|split; [lia|exact Cm]]|]. split; [exact Rm'|].
  intros b s Hb Er Fs. rewrite <- member_nth by lia. rewrite (Mm b Hb), (Nv b Hb), Iu, (Is b s Hb Er Fs).
  now rewrite (cell_1 spline e0 b W1).
Qed.

(** The health wrapper: for every row the cell with these health parameters is taken from
    the transient state of the wrapper over the step from the previous inputs to the given
    ones, and its terminal voltage is predicted there. *)
Theorem C102_health_prediction : forall mode capacitor temp w e0 s0 x x' previous pc p nc uc u j z,
  wraps_ecm spline X mode capacitor temp w e0 ->
  holds_state w s0 -> state_fits capacitor (List.length (rcs e0)) s0 ->
  op_samples R (hidden_conversion R w) x = Ok j -> batch_of R (num_asoh R w) j ->
  control_of temp w pc p -> control_of temp w uc u ->
  degradation_predict R w (fst (degradation_update R w previous x' pc nc)) x uc = Ok z ->
  exists m, op_inverse_samples R (output_conversion R w) m = Ok z /\ batch_of R 1 m /\ (anrows m = 1 \/ anrows m = anrows j) /\
    forall b, b < anrows j -> exists c, cell_with spline X w (nth b (arows j) []) c /\
      member b m = [voltage c u (next mode c p u s0)].
Proof.
  intros mode capacitor temp w e0 s0 x x' previous pc p nc uc u j z W [Hs Es0] F0 Ej Bj Cp0 Cu0 Ez.
  assert (Nt : num_transients R w = 2 + cap_width capacitor + List.length (rcs e0)).
  { destruct W as [Rd _ _ Wt _ _ _]. destruct Rd as [_ _ _ _ _ Rw _]. rewrite Rw. now apply width_state. }
  assert (Bs : batch_of R (num_transients R w) (one_row (values s0))).
  { split; [|split; [cbn; lia|]].
    - unfold wf_arr, one_row. cbn [arows acols]. repeat constructor.
    - rewrite Nt. now apply values_length. }
  destruct (transient_decode mode capacitor temp w e0 (one_row (values s0)) W Bs) as (st & Rs & Os & Qs & R1 & R2 & Is).
  specialize (Is 0 s0 Nat.lt_0_1 eq_refl F0). change (anrows (one_row (values s0))) with 1 in *.
  destruct W as [Rd Wm Wd Wt Wi Wh W1]. apply circuit_read in Wh.
  assert (Ts : make_copy (w_transients R w) (V2 (one_row (values s0))) = w_transients R w).
  { assert (P : forall k f, has_field (w_transients R w) k f -> anrows f = 1).
    { intros k f H. destruct (proj1 Hs k f H); assumption. }
    destruct (encode_decode (w_transients R w) 1) as (v & Ev & Ed); try apply Rd; auto.
    { intros k f H. rewrite (P k f H). lia. }
    rewrite Es0 in Ev. injection Ev as <-. unfold make_copy. rewrite Ed. rewrite <- (map_id (w_transients R w)) at 2.
    apply map_ext_in. intros [k [f|]] H; cbn; [|reflexivity]. specialize (P k f H). now rewrite broadcast_same. }
  rewrite Ts in Rs.
  destruct (controls_read w temp pc p Wi Cp0) as (pi & ip & Cp & _ & Rp & Op & Ip).
  destruct (controls_read w temp uc u Wi Cu0) as (ni & iu & Cu & _ & Ru & Ou & Iu).
  unfold degradation_update in Ez. rewrite Cp in Ez. cbn [fst] in Ez.
  unfold degradation_predict, hidden_to_asoh in Ez. rewrite Cu, Ej in Ez. cbn [bind] in Ez.
  destruct (snd (hv_make_copy (w_asoh R w) (V2 j) (asoh_inputs R w))) as [a|] eqn:Ha; [|discriminate]. cbn [bind] in Ez.
  destruct (health_decode spline X w e0 j a Rd Wh W1 Bj Ha) as (e & Ee & Oe & Len & Ce).
  set (B := anrows j) in *. assert (HB : 1 <= B) by apply Bj.
  rewrite Wm in Ez. destruct (cm_update (ecm_cell spline X mode) pi ni _ a) as [a1 [t'|]] eqn:Eu; [|discriminate]. cbn [bind] in Ez.
  pose proof Os as Os1. apply (state_1 B) in Os. rewrite <- Len in Os.
  destruct (ecm_update_rows spline X mode pi ni _ a ip iu st e B t' HB Rp Ru Rs Ee Op Ou Oe Os)
    as (Ea1 & s' & -> & Es & Os' & Qs' & Nx); [now rewrite Eu|]. rewrite Eu in Ea1. cbn [fst] in Ea1. subst a1.
  destruct (read_written B _ s' Os') as (s2 & Rs2 & Os2 & Is2).
  destruct (cm_voltage (ecm_cell spline X mode) ni _ (store_update st a)) as [a2 [y|]] eqn:Ev; [|discriminate]. cbn [bind] in Ez.
  assert (Ea1 : read_asoh X (store_update st a) = Ok (after_update st e)) by (now rewrite read_after_update, Ee).
  destruct (ecm_voltage_rows spline X mode ni _ (store_update st a) iu s2 (after_update st e) B y HB Ru Rs2 Ea1 Ou)
    as (v & -> & Cv & Rv & Nv); [now apply asoh_after_update|now rewrite length_rcs_update|now rewrite Ev|].
  destruct (write_output_rows v B HB Cv) as (m & Em & Wm' & Rm & Cm & Mm). rewrite Em in Ez. cbn [bind] in Ez.
  exists m. split; [exact Ez|]. split; [split; [exact Wm'|split; [lia|exact Cm]]|]. split; [exact Rm|].
  intros b Hb. exists (Spec_ECM.cell_of spline e b). split; [now apply Ce|].
  rewrite (Mm b Hb), (Nv b Hb), cell_after_update, (Is2 b Hb), (Nx b Hb), Ip, Iu. do 3 f_equal.
  rewrite <- Is. now apply (state_of_1 _ _ b Os1).
Qed.

(** * Which selections can be estimated *)


Lemma is_ok_cm_update mode p u t a ip iu st e : read_input p = Ok ip -> read_input u = Ok iu -> read_state t = Ok st ->
  read_asoh X a = Ok e ->
  is_ok (snd (cm_update (ecm_cell spline X mode) p u t a)) <-> is_ok (update_transient_state spline mode ip iu st e).
Proof.
  intros E1 E2 E3 E4. cbn [ecm_cell cm_update]. rewrite E1, E2, E3, E4. cbn [bind].
  destruct (update_transient_state spline mode ip iu st e); cbn [bind snd]; split; intros [? H]; try discriminate H; eexists; reflexivity.
Qed.
Lemma is_ok_cm_voltage mode u t a iu st e : read_input u = Ok iu -> read_state t = Ok st -> read_asoh X a = Ok e ->
  is_ok (snd (cm_voltage (ecm_cell spline X mode) u t a)) <-> is_ok (calculate_terminal_voltage spline iu st e).
Proof.
  intros E2 E3 E4. cbn [ecm_cell cm_voltage]. rewrite E2, E3, E4. cbn [bind].
  destruct (calculate_terminal_voltage spline iu st e); cbn [bind snd]; split; intros [? H]; try discriminate H; eexists; reflexivity.
Qed.
Lemma given_temp temp i u : input_of i = u -> input_fits temp u -> given (temperature i) = temp.
Proof. intros <- <-. unfold input_of. cbn. destruct (temperature i); reflexivity. Qed.

Lemma after_sv s : sv (after_value s) = sv s.
Proof. unfold after_value. destruct (Nat.eqb _ _); reflexivity. Qed.
Lemma voltage_evaluable_update temp rows s e :
  voltage_evaluable temp rows (after_update s e) <-> voltage_evaluable temp rows e.
Proof.
  unfold voltage_evaluable, after_update. cbn [oc r0 rcs]. destruct (Nat.eqb (c2 (i_rc s)) 0); [reflexivity|].
  rewrite Forall_map. unfold all_same.
  assert (M : forall c, members (res_sih (rc_r (freeze_rc c))) = members (res_sih (rc_r c))) by (intros c; unfold members; cbn; now rewrite after_sv).
  assert (E : (forall x y : rc, In x (map freeze_rc (rcs e)) -> In y (map freeze_rc (rcs e)) ->
                 members (res_sih (rc_r x)) = members (res_sih (rc_r y))) <->
              (forall x y : rc, In x (rcs e) -> In y (rcs e) -> members (res_sih (rc_r x)) = members (res_sih (rc_r y)))).
  { split.
    - intros H x y Hx Hy. rewrite <- (M x), <- (M y). exact (H (freeze_rc x) (freeze_rc y) (in_map _ _ _ Hx) (in_map _ _ _ Hy)).
    - intros H x y Hx Hy. apply in_map_iff in Hx as (x' & <- & Hx), Hy as (y' & <- & Hy). rewrite !M. exact (H x' y' Hx Hy). }
  rewrite E. assert (F : forall c, resistance_evaluable temp (rc_r (freeze_rc c)) <-> resistance_evaluable temp (rc_r c)).
  { intros c. unfold resistance_evaluable, together, members. cbn. now rewrite after_sv. }
  rewrite !Forall_forall. split; intros (H1 & H2 & H3 & H4); repeat (split; [assumption|]); (split; [|assumption]);
    intros c Hc; apply F; auto.
Qed.

Lemma input_time i u : input_of i = u -> ut (input_of i) = ut u.
Proof. now intros ->. Qed.

(** What a batch of joint hidden states is decoded to, with the numbers of rows. *)
Lemma joint_members mode capacitor temp w e0 x j :
  wraps_ecm spline X mode capacitor temp w e0 -> usable_asoh spline e0 -> (capacitor = true -> c0 e0 <> None) ->
  op_samples R (hidden_conversion R w) x = Ok j -> batch_of R (num_hidden_dimensions R w) j ->
  exists a t e st, create_cell_model_inputs R w x = Ok (a, t) /\
    read_asoh X a = Ok e /\ asoh_ok (anrows j) e /\ usable_asoh spline e /\ varies_as w (anrows j) e /\ same_widths e e0 /\
    read_state t = Ok st /\ state_ok (anrows j) (List.length (rcs e)) st /\ (q0 st <> None -> c0 e <> None) /\
    is_some (q0 st) = capacitor /\ List.length (rcs e) = List.length (rcs e0) /\
    r2 (soc st) = anrows j /\ r2 (hyst st) = anrows j /\ num_transients R w = 2 + cap_width capacitor + List.length (rcs e0).
Proof.
  intros W U C Ej Bj.
  destruct (joint_decode mode capacitor temp w e0 x j W Ej Bj)
    as (a & t & e & st & D & Ee & Oe & Len & Rs & Os & Qs & R1 & R2 & Nt & _).
  destruct W as [Rd Wm Wd Wt Wi Wh W1]. apply circuit_read in Wh.
  exists a, t, e, st. split; [exact D|]. split; [exact Ee|]. split; [exact Oe|].
  destruct (decode_parts _ w j Rd Bj) as [_ Ba].
  unfold create_cell_model_inputs in D. rewrite Ej in D. cbn [bind] in D. rewrite slice_rest in D by apply Bj.
  destruct (snd (hv_make_copy (w_asoh R w) (V2 (drop_cols (num_transients R w) j)) (asoh_inputs R w))) as [a0|] eqn:Ha; [|discriminate].
  cbn [bind] in D. assert (a0 = a) by congruence. subst a0.
  destruct (health_varies X w _ a e0 Rd Ba Ha Wh) as (e' & Ee' & Lk & V). rewrite Ee in Ee'. injection Ee' as <-.
  rewrite anrows_drop in Lk, V.
  destruct (like_usable _ e e0 Lk W1 U) as (Ue & Sw & C0).
  split; [exact Ue|]. split; [exact V|]. split; [exact Sw|]. split; [exact Rs|]. split; [now rewrite Len|].
  split; [|repeat (split; [assumption|]); assumption].
  intros Hq. assert (K : capacitor = true) by (rewrite <- Qs; now destruct (q0 st)). specialize (C K).
  destruct (c0 e); [discriminate|]. destruct (c0 e0); [discriminate C0|contradiction].
Qed.

Lemma rows_1 x : rows_ok 1 x -> r2 x = 1.
Proof. unfold rows_ok. tauto. Qed.

(** Two or more hidden states of a joint wrapper can be updated together exactly when the
    selection of health parameters is estimable. *)
Theorem C103_joint_update : forall mode capacitor temp w e0 x pc nc p u,
  wraps_ecm spline X mode capacitor temp w e0 -> usable_asoh spline e0 -> (capacitor = true -> c0 e0 <> None) ->
  lossless R (num_hidden_dimensions R w) (hidden_conversion R w) ->
  batch_of R (num_hidden_dimensions R w) x -> 2 <= anrows x ->
  control_of temp w pc p -> control_of temp w nc u -> (mode = Linear -> ut u <> ut p) ->
  is_ok (joint_update R w x pc nc) <-> estimable temp w e0.
Proof.
  intros mode capacitor temp w e0 x pc nc p u W U C [L1 L2] Bx HB Cp0 Cu0 Lin.
  destruct (L1 x Bx) as (j & Ej & Bj & Rj & _).
  destruct (joint_members mode capacitor temp w e0 x j W U C Ej Bj)
    as (a & t & e & st & D & Ee & Oe & Ue & V & Sw & Rs & Os & Cq & Qs & Len & R1 & R2 & Nt).
  destruct W as [Rd Wm Wd Wt Wi Wh W1]. apply circuit_read in Wh. rewrite Rj in *.
  assert (HB1 : 1 <= anrows x) by lia.
  destruct (controls_read w temp pc p Wi Cp0) as (pi & ip & Cp & _ & Rp & Op & Ip).
  destruct (controls_read w temp nc u Wi Cu0) as (ni & iu & Cu & _ & Ru & Ou & Iu).
  assert (Gp : given (temperature ip) = temp) by (exact (given_temp temp ip p Ip (proj1 Cp0))).
  rewrite <- (evaluable_iff temp w (anrows x) e e0 HB V Sw).
  pose proof (update_iff spline (anrows x) HB1 mode ip iu st e Oe Ue Os Op Ou) as HU. rewrite Gp, Ip, Iu in HU. specialize (HU Lin).
  pose proof (is_ok_cm_update mode pi ni t a ip iu st e Rp Ru Rs Ee) as KU. rewrite HU in KU.
  assert (Ea : read_asoh X (store_update st a) = Ok (after_update st e)) by (now rewrite read_after_update, Ee).
  pose proof (voltage_iff spline (anrows x) HB1 ip st (after_update st e)) as HV.
  rewrite length_rcs_update, Gp, R1, voltage_evaluable_update in HV.
  specialize (HV (asoh_after_update _ _ _ Oe) (usable_update _ _ _ Ue) Os Op Cq).
  pose proof (is_ok_cm_voltage mode pi t (store_update st a) ip st (after_update st e) Rp Rs Ea) as KV. rewrite HV in KV.
  split.
  - intros [y Ey]. unfold joint_update in Ey. rewrite Cp, Cu, D, Ej in Ey. cbn [bind] in Ey. rewrite Wm in Ey.
    destruct (cm_update (ecm_cell spline X mode) pi ni t a) as [a1 [t'|]] eqn:Eu; [|discriminate]. cbn [bind] in Ey.
    assert (E1 : update_evaluable temp e) by (apply KU; now exists t').
    split; [exact E1|]. apply KV.
    destruct (ecm_update_rows spline X mode pi ni t a ip iu st e (anrows x) t' HB1 Rp Ru Rs Ee Op Ou Oe Os) as (Ea1 & _); [now rewrite Eu|].
    rewrite Eu in Ea1. cbn [fst] in Ea1. subst a1.
    destruct (cm_voltage (ecm_cell spline X mode) pi t (store_update st a)) as [a2 [v|]]; [now exists v|discriminate].
  - intros [E1 E2]. apply KU in E1 as [t' Et]. apply KV in E2.
    destruct (ecm_update_rows spline X mode pi ni t a ip iu st e (anrows x) t' HB1 Rp Ru Rs Ee Op Ou Oe Os Et)
      as (Ea1 & s' & -> & _ & Os' & Qs' & _). rewrite Len in Os'.
    destruct (write_state_rows s' (List.length (rcs e0)) (anrows x) HB1 Os') as (tm & Etm & Wtm & Rtm & Ctm & Mtm).
    rewrite Qs', Qs, <- Nt in Ctm.
    destruct (C55_health_is_held R w x pc nc j a t pi ni (write_state s') tm Rd (conj L1 L2) Bx) as (y & _ & Ey & _); auto.
    { rewrite Wm. apply ecm_only_reads. }
    { now rewrite Wm. }
    { rewrite Wm, Ea1. exact E2. }
    now exists y.
Qed.

(** The prediction for such a selection, if the output can be converted. *)
Theorem C103_joint_prediction : forall mode capacitor temp w e0 x uc u,
  wraps_ecm spline X mode capacitor temp w e0 -> usable_asoh spline e0 -> (capacitor = true -> c0 e0 <> None) ->
  lossless R (num_hidden_dimensions R w) (hidden_conversion R w) ->
  (forall m, wf_arr m -> acols m = 1 -> is_ok (op_inverse_samples R (output_conversion R w) m)) ->
  batch_of R (num_hidden_dimensions R w) x ->
  control_of temp w uc u -> estimable temp w e0 \/ anrows x = 1 ->
  is_ok (joint_predict R w x uc).
Proof.
  intros mode capacitor temp w e0 x uc u W U C [L1 L2] LO Bx Cu0 Es.
  destruct (L1 x Bx) as (j & Ej & Bj & Rj & _).
  destruct (joint_members mode capacitor temp w e0 x j W U C Ej Bj)
    as (a & t & e & st & D & Ee & Oe & Ue & V & Sw & Rs & Os & Cq & Qs & Len & R1 & R2 & Nt).
  destruct W as [Rd Wm Wd Wt Wi Wh W1]. apply circuit_read in Wh. rewrite Rj in *.
  assert (HB1 : 1 <= anrows x) by (apply Bx).
  destruct (controls_read w temp uc u Wi Cu0) as (ni & iu & Cu & _ & Ru & Ou & Iu).
  assert (Gu : given (temperature iu) = temp) by (exact (given_temp temp iu u Iu (proj1 Cu0))).
  assert (Ev : voltage_evaluable temp (anrows x) e).
  { destruct (Nat.eq_dec (anrows x) 1) as [E1|N1].
    - rewrite E1 in Oe. exact (proj2 (evaluable_1 temp (anrows x) e rows_1 Oe)).
    - destruct Es as [Es|Es]; [|contradiction]. apply (evaluable_iff temp w (anrows x) e e0) in Es; [apply Es|lia|exact V|exact Sw]. }
  pose proof (voltage_iff spline (anrows x) HB1 iu st e Oe Ue Os Ou Cq) as HV. rewrite Gu, R1 in HV.
  apply HV in Ev. apply (is_ok_cm_voltage mode ni t a iu st e Ru Rs Ee) in Ev as [y Ey].
  unfold joint_predict. rewrite Cu, D. cbn [bind]. rewrite Wm.
  destruct (cm_voltage (ecm_cell spline X mode) ni t a) as [a1 r] eqn:Em. cbn [snd] in Ey. subst r. cbn [bind].
  destruct (ecm_voltage_rows spline X mode ni t a iu st e (anrows x) y HB1 Ru Rs Ee Ou Oe Os) as (v & -> & Cv & _); [now rewrite Em|].
  destruct (write_output_rows v (anrows x) HB1 Cv) as (m & Etm & Wtm & _ & Ctm & _). rewrite Etm. cbn [bind]. now apply LO.
Qed.

(** One hidden state can always be updated, whatever is selected. *)
Theorem C103_joint_update_one : forall mode capacitor temp w e0 x pc nc p u,
  wraps_ecm spline X mode capacitor temp w e0 -> usable_asoh spline e0 -> (capacitor = true -> c0 e0 <> None) ->
  lossless R (num_hidden_dimensions R w) (hidden_conversion R w) ->
  batch_of R (num_hidden_dimensions R w) x -> anrows x = 1 ->
  control_of temp w pc p -> control_of temp w nc u -> (mode = Linear -> ut u <> ut p) ->
  is_ok (joint_update R w x pc nc).
Proof.
  intros mode capacitor temp w e0 x pc nc p u W U C [L1 L2] Bx HB Cp0 Cu0 Lin.
  destruct (L1 x Bx) as (j & Ej & Bj & Rj & _).
  destruct (joint_members mode capacitor temp w e0 x j W U C Ej Bj)
    as (a & t & e & st & D & Ee & Oe & Ue & V & Sw & Rs & Os & Cq & Qs & Len & R1 & R2 & Nt).
  destruct W as [Rd Wm Wd Wt Wi Wh W1]. apply circuit_read in Wh. rewrite Rj in *.
  assert (HB1 : 1 <= anrows x) by lia.
  destruct (controls_read w temp pc p Wi Cp0) as (pi & ip & Cp & _ & Rp & Op & Ip).
  destruct (controls_read w temp nc u Wi Cu0) as (ni & iu & Cu & _ & Ru & Ou & Iu).
  assert (Gp : given (temperature ip) = temp) by (exact (given_temp temp ip p Ip (proj1 Cp0))).
  pose proof Oe as Oe1. rewrite HB in Oe1. destruct (evaluable_1 temp (anrows x) e rows_1 Oe1) as [E1 E2].
  pose proof (update_iff spline (anrows x) HB1 mode ip iu st e Oe Ue Os Op Ou) as HU. rewrite Gp, Ip, Iu in HU. specialize (HU Lin).
  pose proof (is_ok_cm_update mode pi ni t a ip iu st e Rp Ru Rs Ee) as KU. rewrite HU in KU.
  assert (Ea : read_asoh X (store_update st a) = Ok (after_update st e)) by (now rewrite read_after_update, Ee).
  pose proof (voltage_iff spline (anrows x) HB1 ip st (after_update st e)) as HV.
  rewrite length_rcs_update, Gp, R1, voltage_evaluable_update in HV.
  specialize (HV (asoh_after_update _ _ _ Oe) (usable_update _ _ _ Ue) Os Op Cq).
  pose proof (is_ok_cm_voltage mode pi t (store_update st a) ip st (after_update st e) Rp Rs Ea) as KV. rewrite HV in KV.
  apply KU in E1 as [t' Et]. apply KV in E2.
  destruct (ecm_update_rows spline X mode pi ni t a ip iu st e (anrows x) t' HB1 Rp Ru Rs Ee Op Ou Oe Os Et)
    as (Ea1 & s' & -> & _ & Os' & Qs' & _). rewrite Len in Os'.
  destruct (write_state_rows s' (List.length (rcs e0)) (anrows x) HB1 Os') as (tm & Etm & Wtm & Rtm & Ctm & Mtm).
  rewrite Qs', Qs, <- Nt in Ctm.
  destruct (C55_health_is_held R w x pc nc j a t pi ni (write_state s') tm Rd (conj L1 L2) Bx) as (y & _ & Ey & _); auto.
  { rewrite Wm. apply ecm_only_reads. }
  { now rewrite Wm. }
  { rewrite Wm, Ea1. exact E2. }
  now exists y.
Qed.

(** * The wrappers of a dual estimator *)

(** The transient wrapper, whose circuit is that of one cell, always updates and predicts. *)
Theorem C103_transient_wrapper : forall mode capacitor temp w e0 x pc nc p u,
  wraps_ecm spline X mode capacitor temp w e0 -> usable_asoh spline e0 -> (capacitor = true -> c0 e0 <> None) ->
  lossless R (num_transients R w) (hidden_conversion R w) ->
  (forall m, wf_arr m -> acols m = 1 -> is_ok (op_inverse_samples R (output_conversion R w) m)) ->
  batch_of R (num_transients R w) x ->
  control_of temp w pc p -> control_of temp w nc u -> (mode = Linear -> ut u <> ut p) ->
  is_ok (snd (cell_update R w x pc nc)) /\ is_ok (snd (cell_predict R w x nc)).
Proof.
  intros mode capacitor temp w e0 x pc nc p u W U C [L1 L2] LO Bx Cp0 Cu0 Lin.
  destruct (L1 x Bx) as (j & Ej & Bj & Rj & _).
  destruct (transient_decode mode capacitor temp w e0 j W Bj) as (st & Rs & Os & Qs & R1 & R2 & _).
  assert (Nt : num_transients R w = 2 + cap_width capacitor + List.length (rcs e0)).
  { destruct W as [Rd _ _ Wt _ _ _]. destruct Rd as [_ _ _ _ _ Rw _]. rewrite Rw. now apply width_state. }
  destruct W as [Rd Wm Wd Wt Wi Wh W1]. apply circuit_read in Wh. rewrite Rj in *. assert (HB1 : 1 <= anrows x) by (apply Bx).
  destruct (controls_read w temp pc p Wi Cp0) as (pi & ip & Cp & _ & Rp & Op & Ip).
  destruct (controls_read w temp nc u Wi Cu0) as (ni & iu & Cu & _ & Ru & Ou & Iu).
  pose proof (asoh_1 (anrows x) e0 W1) as Oe.
  assert (Cq : q0 st <> None -> c0 e0 <> None) by (intros K; apply C; rewrite <- Qs; now destruct (q0 st)).
  unfold cell_update, cell_predict, hidden_to_transients. rewrite Ej, Cp, Cu. cbn [bind]. rewrite Wm. split.
  - pose proof (proj2 (update_iff spline (anrows x) HB1 mode ip iu st e0 Oe U Os Op Ou ltac:(now rewrite Ip, Iu))
        (proj1 (evaluable_1 _ (anrows x) e0 rows_1 W1))) as K.
    apply (is_ok_cm_update mode pi ni _ (w_asoh R w) ip iu st e0 Rp Ru Rs Wh) in K as [t' Et].
    destruct (cm_update (ecm_cell spline X mode) pi ni _ (w_asoh R w)) as [a1 r] eqn:Eu. cbn [snd] in Et. subst r. cbn [bind snd].
    destruct (ecm_update_rows spline X mode pi ni _ (w_asoh R w) ip iu st e0 (anrows x) t' HB1 Rp Ru Rs Wh Op Ou Oe Os)
      as (_ & s' & -> & Es & Os' & Qs' & _); [now rewrite Eu|].
    destruct (write_state_rows s' _ (anrows x) HB1 Os') as (tm & Etm & Wtm & Rtm & Ctm & _).
    rewrite Qs', Qs, <- Nt in Ctm. rewrite Etm. cbn [bind].
    destruct (L2 tm) as (y & Ey & _); [split; [exact Wtm|split; [lia|exact Ctm]]|]. now exists y.
  - pose proof (proj2 (voltage_iff spline (anrows x) HB1 iu st e0 Oe U Os Ou Cq)
        (proj2 (evaluable_1 _ _ e0 rows_1 W1))) as K.
    apply (is_ok_cm_voltage mode ni _ (w_asoh R w) iu st e0 Ru Rs Wh) in K as [y Ey].
    destruct (cm_voltage (ecm_cell spline X mode) ni _ (w_asoh R w)) as [a1 r] eqn:Ev. cbn [snd] in Ey. subst r. cbn [bind snd].
    destruct (ecm_voltage_rows spline X mode ni _ (w_asoh R w) iu st e0 (anrows x) y HB1 Ru Rs Wh Ou Oe Os) as (v & -> & Cv & _);
      [now rewrite Ev|].
    destruct (write_output_rows v (anrows x) HB1 Cv) as (m & Em & Wm' & _ & Cm & _). rewrite Em. cbn [bind]. now apply LO.
Qed.

(** The health wrapper predicts for an estimable selection; with temperatures, the
    reference temperature must not be selected. *)
Theorem C103_health_prediction : forall mode capacitor temp w e0 s0 x x' previous pc p nc uc u j,
  wraps_ecm spline X mode capacitor temp w e0 -> usable_asoh spline e0 -> (capacitor = true -> c0 e0 <> None) ->
  holds_state w s0 -> state_fits capacitor (List.length (rcs e0)) s0 ->
  op_samples R (hidden_conversion R w) x = Ok j -> batch_of R (num_asoh R w) j ->
  (forall m, wf_arr m -> acols m = 1 -> is_ok (op_inverse_samples R (output_conversion R w) m)) ->
  control_of temp w pc p -> control_of temp w uc u -> (mode = Linear -> ut u <> ut p) ->
  anrows j = 1 \/ estimable temp w e0 /\ (temp = true -> ~ selected w "ocv.ocv_ref.reference_temperature") ->
  is_ok (degradation_predict R w (fst (degradation_update R w previous x' pc nc)) x uc).
Proof.
  intros mode capacitor temp w e0 s0 x x' previous pc p nc uc u j W U C [Hs Es0] F0 Ej Bj LO Cp0 Cu0 Lin Es.
  assert (Nt : num_transients R w = 2 + cap_width capacitor + List.length (rcs e0)).
  { destruct W as [Rd _ _ Wt _ _ _]. destruct Rd as [_ _ _ _ _ Rw _]. rewrite Rw. now apply width_state. }
  assert (Bs : batch_of R (num_transients R w) (one_row (values s0))).
  { split; [|split; [cbn; lia|]].
    - unfold wf_arr, one_row. cbn [arows acols]. repeat constructor.
    - rewrite Nt. now apply values_length. }
  destruct (transient_decode mode capacitor temp w e0 (one_row (values s0)) W Bs) as (st & Rs & Os & Qs & R1 & R2 & _).
  change (anrows (one_row (values s0))) with 1 in *.
  destruct W as [Rd Wm Wd Wt Wi Wh W1]. apply circuit_read in Wh.
  assert (Ts : make_copy (w_transients R w) (V2 (one_row (values s0))) = w_transients R w).
  { assert (P : forall k f, has_field (w_transients R w) k f -> anrows f = 1).
    { intros k f H. destruct (proj1 Hs k f H); assumption. }
    destruct (encode_decode (w_transients R w) 1) as (v & Ev & Ed); try apply Rd; auto.
    { intros k f H. rewrite (P k f H). lia. }
    rewrite Es0 in Ev. injection Ev as <-. unfold make_copy. rewrite Ed. rewrite <- (map_id (w_transients R w)) at 2.
    apply map_ext_in. intros [k [f|]] H; cbn; [|reflexivity]. specialize (P k f H). now rewrite broadcast_same. }
  rewrite Ts in Rs.
  destruct (controls_read w temp pc p Wi Cp0) as (pi & ip & Cp & _ & Rp & Op & Ip).
  destruct (controls_read w temp uc u Wi Cu0) as (ni & iu & Cu & _ & Ru & Ou & Iu).
  assert (Gp : given (temperature ip) = temp) by (exact (given_temp temp ip p Ip (proj1 Cp0))).
  assert (Gu : given (temperature iu) = temp) by (exact (given_temp temp iu u Iu (proj1 Cu0))).
  unfold degradation_update. rewrite Cp. cbn [fst].
  unfold degradation_predict, hidden_to_asoh. rewrite Cu, Ej. cbn [bind].
  assert (L : acols j = list_sum (map (fun nm => acols (lookup (w_asoh R w) nm)) (asoh_inputs R w))).
  { destruct Rd as [W U' ND F T Wd' (ms & Hm & Em)]. destruct (holds_map _ _ _ W Hm) as [_ E]. rewrite <- E, map_map in Em.
    destruct Bj as (_ & _ & ->). exact Em. }
  destruct (decode_asoh R w j Rd Bj) as (a & Ha & _). rewrite Ha. cbn [bind].
  destruct (health_varies X w j a e0 Rd Bj Ha Wh) as (e & Ee & Lk & V).
  destruct (like_ok _ e e0 Lk W1) as [Oe Len]. destruct (like_usable _ e e0 Lk W1 U) as (Ue & Sw & C0).
  set (B := anrows j) in *. assert (HB : 1 <= B) by apply Bj.
  assert (Ev : update_evaluable temp e /\ forall rows, rows = 1 \/ rows = B -> voltage_evaluable temp rows e).
  { destruct (Nat.eq_dec B 1) as [E1|N1].
    - rewrite E1 in Oe. split; [exact (proj1 (evaluable_1 temp B e rows_1 Oe))|].
      intros rows _. exact (proj2 (evaluable_1 temp rows e rows_1 Oe)).
    - destruct Es as [Es|[Es Hr]]; [contradiction|].
      apply (evaluable_iff temp w B e e0) in Es; [|lia|exact V|exact Sw]. destruct Es as [E1 E2]. split; [exact E1|].
      intros rows _. destruct E2 as ((E3 & E4) & E5). split; [|exact E5]. split; [exact E3|].
      intros Ht. split; [now apply E4|]. left. now apply V, Hr. }
  destruct Ev as [Eu Ev].
  pose proof Os as Os1. apply (state_1 B) in Os. rewrite <- Len in Os.
  rewrite <- Gp in Eu. apply (update_iff spline B HB mode ip iu st e Oe Ue Os Op Ou ltac:(now rewrite Ip, Iu)) in Eu.
  apply (is_ok_cm_update mode pi ni _ a ip iu st e Rp Ru Rs Ee) in Eu as [t' Et]. rewrite Wm.
  destruct (cm_update (ecm_cell spline X mode) pi ni _ a) as [a1 r] eqn:Eu. cbn [snd] in Et. subst r. cbn [bind].
  destruct (ecm_update_rows spline X mode pi ni _ a ip iu st e B t' HB Rp Ru Rs Ee Op Ou Oe Os)
    as (Ea1 & s' & -> & Es' & Os' & Qs' & _); [now rewrite Eu|]. rewrite Eu in Ea1. cbn [fst] in Ea1. subst a1.
  destruct (read_written B _ s' Os') as (s2 & Rs2 & Os2 & Is2).
  assert (Q2 : is_some (q0 s2) = capacitor).
  { rewrite <- Qs, <- Qs'. pose proof (f_equal (fun s => is_some (xq s)) (Is2 0 HB)) as K. unfold state_of in K. cbn in K.
    destruct (q0 s2), (q0 s'); cbn in *; congruence. }
  assert (Ea1 : read_asoh X (store_update st a) = Ok (after_update st e)) by (now rewrite read_after_update, Ee).
  pose proof (voltage_iff spline B HB iu s2 (after_update st e)) as HV.
  rewrite length_rcs_update, Gu, voltage_evaluable_update in HV.
  assert (Cq : q0 s2 <> None -> c0 (after_update st e) <> None).
  { intros K. assert (Ct : capacitor = true) by (rewrite <- Q2; now destruct (q0 s2)). specialize (C Ct).
    change (c0 (after_update st e)) with (c0 e). destruct (c0 e); [discriminate|]. destruct (c0 e0); [discriminate C0|contradiction]. }
  specialize (HV (asoh_after_update _ _ _ Oe) (usable_update _ _ _ Ue) Os2 Ou Cq).
  assert (K : voltage_evaluable temp (r2 (soc s2)) e) by (apply Ev, Os2). apply HV in K.
  apply (is_ok_cm_voltage mode ni _ (store_update st a) iu s2 (after_update st e) Ru Rs2 Ea1) in K as [y Ey].
  destruct (cm_voltage (ecm_cell spline X mode) ni _ (store_update st a)) as [a2 r] eqn:Em. cbn [snd] in Ey. subst r. cbn [bind].
  destruct (ecm_voltage_rows spline X mode ni _ (store_update st a) iu s2 (after_update st e) B y HB Ru Rs2 Ea1 Ou)
    as (v & -> & Cv & _); [now apply asoh_after_update|now rewrite length_rcs_update|now rewrite Em|].
  destruct (write_output_rows v B HB Cv) as (m & Em' & Wm' & _ & Cm & _). rewrite Em'. cbn [bind]. now apply LO.
Qed.

(** Likewise it propagates: without degradation, the health parameters stay what they are. *)
Theorem C103_health_update : forall mode capacitor temp w e0 s0 x previous pc p nc u j,
  wraps_ecm spline X mode capacitor temp w e0 -> usable_asoh spline e0 -> (capacitor = true -> c0 e0 <> None) ->
  holds_state w s0 -> state_fits capacitor (List.length (rcs e0)) s0 ->
  op_samples R (hidden_conversion R w) x = Ok j -> batch_of R (num_asoh R w) j -> asoh_inputs R w <> [] ->
  control_of temp w pc p -> control_of temp w nc u ->
  anrows j = 1 \/ estimable temp w e0 /\ (temp = true -> ~ selected w "ocv.ocv_ref.reference_temperature") ->
  snd (degradation_update R w previous x pc nc) = op_inverse_samples R (hidden_conversion R w) j.
Proof.
  intros mode capacitor temp w e0 s0 x previous pc p nc u j W U C [Hs Es0] F0 Ej Bj Na Cp0 Cu0 Es.
  assert (Nt : num_transients R w = 2 + cap_width capacitor + List.length (rcs e0)).
  { destruct W as [Rd _ _ Wt _ _ _]. destruct Rd as [_ _ _ _ _ Rw _]. rewrite Rw. now apply width_state. }
  assert (Bs : batch_of R (num_transients R w) (one_row (values s0))).
  { split; [|split; [cbn; lia|]].
    - unfold wf_arr, one_row. cbn [arows acols]. repeat constructor.
    - rewrite Nt. now apply values_length. }
  destruct (transient_decode mode capacitor temp w e0 (one_row (values s0)) W Bs) as (st & Rs & Os & Qs & R1 & R2 & _).
  change (anrows (one_row (values s0))) with 1 in *.
  destruct W as [Rd Wm Wd Wt Wi Wh W1]. apply circuit_read in Wh.
  assert (Ts : make_copy (w_transients R w) (V2 (one_row (values s0))) = w_transients R w).
  { assert (P : forall k f, has_field (w_transients R w) k f -> anrows f = 1).
    { intros k f H. destruct (proj1 Hs k f H); assumption. }
    destruct (encode_decode (w_transients R w) 1) as (v & Ev & Ed); try apply Rd; auto.
    { intros k f H. rewrite (P k f H). lia. }
    rewrite Es0 in Ev. injection Ev as <-. unfold make_copy. rewrite Ed. rewrite <- (map_id (w_transients R w)) at 2.
    apply map_ext_in. intros [k [f|]] H; cbn; [|reflexivity]. specialize (P k f H). now rewrite broadcast_same. }
  rewrite Ts in Rs.
  destruct (controls_read w temp pc p Wi Cp0) as (pi & ip & Cp & _ & Rp & Op & Ip).
  destruct (controls_read w temp nc u Wi Cu0) as (ni & iu & Cu & _ & Ru & Ou & Iu).
  assert (Gu : given (temperature iu) = temp) by (exact (given_temp temp iu u Iu (proj1 Cu0))).
  unfold degradation_update, hidden_to_asoh. rewrite Cp, Cu, Ej. cbn [bind snd].
  destruct (decode_asoh R w j Rd Bj) as (a & Ha & Wa & Ga & _ & Ia & _). rewrite Ha. cbn [bind]. specialize (Ga Na).
  destruct (health_varies X w j a e0 Rd Bj Ha Wh) as (e & Ee & Lk & V).
  destruct (like_ok _ e e0 Lk W1) as [Oe Len]. destruct (like_usable _ e e0 Lk W1 U) as (Ue & Sw & C0).
  set (B := anrows j) in *. assert (HB : 1 <= B) by apply Bj.
  assert (Ev : voltage_evaluable temp 1 e).
  { destruct (Nat.eq_dec B 1) as [E1|N1].
    - rewrite E1 in Oe. exact (proj2 (evaluable_1 temp 1 e rows_1 Oe)).
    - destruct Es as [Es|[Es Hr]]; [contradiction|].
      apply (evaluable_iff temp w B e e0) in Es; [|lia|exact V|exact Sw]. destruct Es as [_ E2].
      destruct E2 as ((E3 & E4) & E5). split; [|exact E5]. split; [exact E3|].
      intros Ht. split; [now apply E4|]. left. now apply V, Hr. }
  apply (state_1 B) in Os. rewrite <- Len in Os.
  assert (Cq : q0 st <> None -> c0 e <> None).
  { intros K. assert (Ct : capacitor = true) by (rewrite <- Qs; now destruct (q0 st)). specialize (C Ct).
    destruct (c0 e); [discriminate|]. destruct (c0 e0); [discriminate C0|contradiction]. }
  pose proof (voltage_iff spline B HB iu st e Oe Ue Os Ou Cq) as HV. rewrite Gu, R1 in HV. apply HV in Ev.
  apply (is_ok_cm_voltage mode ni _ a iu st e Ru Rs Ee) in Ev as [y Ey]. rewrite Wm.
  assert (K : keeps R a (fst (cm_voltage (ecm_cell spline X mode) ni (w_transients R w) a))) by apply ecm_only_reads.
  destruct (cm_voltage (ecm_cell spline X mode) ni (w_transients R w) a) as [a1 r]. cbn [fst snd] in *. subst r. cbn [bind].
  rewrite Wd. unfold no_degradation. cbn [bind]. rewrite (keeps_get R a a1) by auto. now rewrite Ga.
Qed.
End P.
Print Assumptions C102_circuit.
Print Assumptions C102_joint_update.
Print Assumptions C102_joint_prediction.
Print Assumptions C102_transient_update.
Print Assumptions C102_transient_prediction.
Print Assumptions C102_health_prediction.
Print Assumptions C103_joint_update.
Print Assumptions C103_health_update.
Print Assumptions C103_joint_prediction.
Print Assumptions C103_joint_update_one.
Print Assumptions C103_transient_wrapper.
Print Assumptions C103_health_prediction.

Module Concrete.
(** A cell with two RC elements, without series capacitor; the open circuit voltage is
    interpolated between 3 V and 4 V. *)
Definition row1 (l : list R) : field R := FVal (V2 (one_row l)).
Definition curve (u : list string) (l : list R) (more : list (string * field R)) : hv R :=
  HV true u (("base_values", row1 l) :: ("soc_pinpoints", FOther) :: more).
Definition resistor (x : R) : hv R := curve ["base_values"] [x] [("temperature_dependence_factor", row1 [0%R])].
Definition element (x : R) : hv R := HV false ["r"] [("r", FSub (resistor x)); ("c", FSub (curve [] [1%R] []))].
Definition tree : hv R :=
  HV false ["r0"; "ce"; "rc_elements"]
    [("q_t", FSub (HV false [] [("base_values", row1 [10%R])]));
     ("ce", row1 [1%R]);
     ("ocv", FSub (HV false [] [("ocv_ref", FSub (curve [] [3%R; 4%R] [("reference_temperature", row1 [25%R])]));
                                ("ocv_ent", FSub (curve [] [0%R] []))]));
     ("r0", FSub (resistor 2%R));
     ("c0", FOther);
     ("rc_elements", FTuple [element 1%R; element 2%R]);
     ("h0", FSub (curve [] [0%R] [("gamma", row1 [50%R])]))].
Definition X : settings := {| style_of := fun _ => None; tref_of := fun _ => Some 25%R |}.
Definition no_spline (k : nat) (l : list R) : res (list R -> R -> R) := Err ValueError.
Definition model := ecm_cell no_spline X Constant.

Definition fld (x : R) : option (arr R) := Some (one_row [x]).
Definition transients : container R := [("soc", fld 0%R); ("q0", None); ("i_rc", Some (one_row [0%R; 0%R])); ("hyst", fld 0%R)].
Definition inputs : container R := [("time", fld 0%R); ("current", fld 0%R); ("temperature", None)].
Definition wr (names : list string) : wrapper R :=
  Wrapper R model (store_voltage {| time := t2_of (one_row [0%R]); current := t2_of (one_row [0%R]); temperature := None |}
     {| soc := t2_of (one_row [0%R]); q0 := None; i_rc := t2_of (one_row [0%R; 0%R]); hyst := t2_of (one_row [0%R]) |} tree) 
   transients inputs names no_degradation (identity_operator R) (identity_operator R) (identity_operator R) 4 1 1.

(** Each of these parameters may be selected. *)
Definition choice (nm : string) : Prop := nm = "r0.base_values" \/ nm = "rc_elements.0.r.base_values" \/ nm = "ce".
Lemma built nm : choice nm -> joint_init R model no_degradation tree transients inputs (Some [nm]) (identity_operator R)
  (identity_operator R) (identity_operator R) = Ok (wr [nm]).
Proof. intros [->|[->| ->]]; reflexivity. Qed.

Ltac leaf := apply well_formed_cons;
  [split; [repeat constructor; cbn; intuition discriminate|];
   intros k f H; cbn in H; in_cases H; (split; [no_char_tac|]); try exact I; try (intros _; eexists; split; [reflexivity|repeat constructor])
  |intros k f H; cbn in H; in_cases H; try exact I].
Lemma wf_resistor x : well_formed_tree (resistor x).
Proof. leaf. Qed.
Lemma wf_tree : well_formed_tree tree.
Proof.
  leaf; try apply wf_resistor; try (leaf; leaf).
  constructor; [|constructor; [|constructor]]; (leaf; [apply wf_resistor|leaf]).
Qed.
Lemma un_tree : unbatched tree.
Proof. apply unbatched_by_listing; [apply wf_tree|]. cbn. repeat constructor. Qed.
Lemma wf_transients : well_formed transients /\ nonempty transients /\ has_batch transients 1.
Proof.
  split; [split|split].
  - repeat constructor; cbn; intuition discriminate.
  - intros k f H. cbn in H. in_cases H; repeat constructor.
  - exists "soc", (one_row [0%R]). now left.
  - split.
    + intros k f H. cbn in H. in_cases H; now left.
    + left. reflexivity.
Qed.
Lemma wraps nm : choice nm -> exists cell, wraps_ecm no_spline X Constant false false (wr [nm]) cell /\
  usable_asoh no_spline cell /\ List.length (rcs cell) = 2.
Proof.
  intros Ch. eexists. split; [split; [| | | | |apply read_asoh_at; reflexivity|]; try reflexivity|].
  - destruct wf_transients as (W & N & U).
    apply (C54_constructed R model no_degradation tree transients inputs (Some [nm]) (identity_operator R)
      (identity_operator R) (identity_operator R)); [apply ecm_only_reads|apply wf_tree|exact W|exact N| |apply unbatched_ge1, un_tree| |now apply built].
    + intros k f H. destruct (proj1 U k f H) as [-> | ->]; lia.
    + split; [repeat constructor; cbn; intuition|]. constructor; [|constructor].
      apply may_update_iff; [apply wf_tree|]. destruct Ch as [->|[->| ->]]; cbn; auto.
  - cbn. unfold asoh_ok, res_ok, rows_ok, column. cbn. repeat (split || constructor || lia || auto).
  - cbn. unfold usable_asoh, usable, grid. cbn.
    split; [|reflexivity]. split; [right; split; [discriminate|split; [reflexivity|discriminate]]|].
    split; [now left|]. split; [now left|]. split; [discriminate|]. split; [exact I|]. split; [|now left].
    constructor; [|constructor; [|constructor]]; (split; [now left|split; [now left|discriminate]]).
Qed.

(** Two hidden states: discharged with 2 ohms, and half full with 3 ohms. *)
Definition two : arr R := mkArr 5 [[0; 0; 0; 0; 2]; [1 / 2; 0; 0; 0; 3]]%R.
Definition before : arr R := one_row [0; -1]%R.
Definition after : arr R := one_row [1; -1]%R.
Definition p : cinput := {| ut := 0; ui := -1; uT := None |}%R.
Definition u : cinput := {| ut := 1; ui := -1; uT := None |}%R.
Definition s0 : cstate := {| xsoc := 0; xq := None; xi := [0; 0]; xh := 0 |}%R.

Lemma id_lossless n : lossless R n (identity_operator R).
Proof. split; intros x Bx; exists x; auto. Qed.
Lemma id_output (m : arr R) : wf_arr m -> acols m = 1 -> is_ok (op_inverse_samples R (identity_operator R) m).
Proof. intros _ _. now exists m. Qed.

Lemma can_estimate cell : List.length (rcs cell) = 2 -> estimable false (wr ["r0.base_values"]) cell.
Proof.
  intros L. unfold selected, rc_name. 
  split; unfold selected, rc_name; cbn [asoh_inputs wr In]; intros; try discriminate;
    repeat match goal with H : _ \/ _ |- _ => destruct H as [H|H] end; try contradiction; try discriminate.
Qed.
Lemma cannot_estimate cell : List.length (rcs cell) = 2 -> ~ estimable false (wr ["rc_elements.0.r.base_values"]) cell.
Proof.
  intros L E. destruct (es_resistances _ _ _ E 0 1) as [H|[]]; [lia|lia|now left|discriminate H].
Qed.

(** The internal resistance selected: everything can be evaluated. *)
Example C102_case : let w := wr ["r0.base_values"] in
  (exists cell, wraps_ecm no_spline X Constant false false w cell /\ usable_asoh no_spline cell /\ estimable false w cell /\
     state_fits false (List.length (rcs cell)) s0) /\
  batch_of R (num_hidden_dimensions R w) two /\ batch_of R (num_transients R w) (take_cols 4 two) /\
  batch_of R (num_asoh R w) (drop_cols 4 two) /\
  control_of false w before p /\ control_of false w after u /\ holds_state w s0 /\
  is_ok (joint_update R w two before after) /\ is_ok (joint_predict R w two after) /\
  is_ok (snd (cell_update R w (take_cols 4 two) before after)) /\ is_ok (snd (cell_predict R w (take_cols 4 two) after)) /\
  is_ok (degradation_predict R w (fst (degradation_update R w inputs (drop_cols 4 two) before after)) (drop_cols 4 two) after).
Proof.
  intros w. destruct (wraps "r0.base_values" (or_introl eq_refl)) as (cell & W & U & L). pose proof (can_estimate cell L) as E.
  assert (F : state_fits false (List.length (rcs cell)) s0) by (rewrite L; split; reflexivity).
  assert (B1 : batch_of R (num_hidden_dimensions R w) two) by (repeat constructor).
  assert (B2 : batch_of R (num_transients R w) (take_cols 4 two)) by (repeat constructor).
  assert (B3 : batch_of R (num_asoh R w) (drop_cols 4 two)) by (repeat constructor).
  assert (Cp : control_of false w before p) by (split; reflexivity).
  assert (Cu : control_of false w after u) by (split; reflexivity).
  assert (Hs : holds_state w s0) by (split; [apply wf_transients|reflexivity]).
  assert (C : false = true -> c0 cell <> None) by discriminate.
  assert (Lin : Constant = Linear -> ut u <> ut p) by discriminate.
  split; [now exists cell|]. repeat (split; [assumption|]).
  split; [|split; [|rewrite <- and_assoc; split]].
  - apply (C103_joint_update no_spline X Constant false false w cell two before after p u); auto. apply id_lossless.
  - apply (C103_joint_prediction no_spline X Constant false false w cell two after u); auto using id_lossless, id_output.
  - apply (C103_transient_wrapper no_spline X Constant false false w cell _ before after p u); auto using id_lossless, id_output.
  - eapply (C103_health_prediction no_spline X Constant false false w cell s0); eauto using id_output; try reflexivity.
    right. split; [exact E|discriminate].
Qed.

(** The resistance of one of two RC elements selected: several hidden states cannot be
    updated at once. *)
Example C103_case : let w := wr ["rc_elements.0.r.base_values"] in
  (exists cell, wraps_ecm no_spline X Constant false false w cell /\ usable_asoh no_spline cell) /\
  batch_of R (num_hidden_dimensions R w) two /\ control_of false w before p /\ control_of false w after u /\
  ~ is_ok (joint_update R w two before after).
Proof.
  intros w. destruct (wraps "rc_elements.0.r.base_values") as (cell & W & U & L); [right; now left|].
  split; [now exists cell|]. split; [repeat constructor|]. split; [split; reflexivity|]. split; [split; reflexivity|].
  rewrite (C103_joint_update no_spline X Constant false false w cell two before after p u); auto; try discriminate.
  - now apply cannot_estimate.
  - apply id_lossless.
  - repeat constructor.
  - split; reflexivity.
  - split; reflexivity.
Qed.

(** While discharging, the coulombic efficiency has no effect. *)
Definition lossless_cell (e : ecm_asoh) : ecm_asoh :=
  {| q_t := q_t e; ce := sc 1; oc := oc e; r0 := r0 e; c0 := c0 e; rcs := rcs e; h0 := h0 e |}.
Lemma discharge_update mode i i' s e : input_ok i -> (ui (input_of i) < 0)%R ->
  update_transient_state no_spline mode i i' s e = update_transient_state no_spline mode i i' s (lossless_cell e).
Proof.
  intros (_ & [H1 H2] & _) Hd. unfold update_transient_state. cbn [q_t ce oc r0 c0 rcs h0 lossless_cell].
  assert (E : truth (current i) (fun c => Rltb c 0) = Ok true).
  { unfold truth. rewrite H1, H2. cbn. unfold Rltb. destruct (Rlt_dec _ _) as [|n]; [reflexivity|]. exfalso. apply n.
    unfold input_of, num in Hd. cbn in Hd. exact Hd. }
  rewrite E. destruct (bin2 Rminus (time i') (time i)); [|reflexivity]. cbn [bind]. reflexivity.
Qed.

(** The prediction of the health wrapper need not have a row for each hidden state:
    here only the coulombic efficiency is selected, which has no effect on a discharge. *)
Lemma one_row_predicted : let w := wr ["ce"] in exists z,
  degradation_predict R w (fst (degradation_update R w inputs (drop_cols 4 two) before after)) (drop_cols 4 two) after = Ok z /\
  anrows (drop_cols 4 two) = 2 /\ anrows z = 1.
Proof.
  intros w. destruct (wraps "ce") as (cell & W & U & L); [right; now right|].
  assert (F : state_fits false (List.length (rcs cell)) s0) by (rewrite L; split; reflexivity).
  assert (B3 : batch_of R (num_asoh R w) (drop_cols 4 two)) by (repeat constructor).
  assert (Cp : control_of false w before p) by (split; reflexivity).
  assert (Cu : control_of false w after u) by (split; reflexivity).
  assert (Hs : holds_state w s0) by (split; [apply wf_transients|reflexivity]).
  unfold degradation_update. change (controls_to_inputs R w before) with (Ok [("time", fld 0%R); ("current", fld (-1)%R); ("temperature", @None (arr R))]).
  cbn [fst]. unfold degradation_predict, hidden_to_asoh.
  change (controls_to_inputs R w after) with (Ok [("time", fld 1%R); ("current", fld (-1)%R); ("temperature", @None (arr R))]).
  cbn [bind]. change (op_samples R (hidden_conversion R w) (drop_cols 4 two)) with (Ok (drop_cols 4 two)). cbn [bind].
  set (pi := [("time", fld 0%R); ("current", fld (-1)%R); ("temperature", @None (arr R))]).
  set (ni := [("time", fld 1%R); ("current", fld (-1)%R); ("temperature", @None (arr R))]).
  destruct (snd (hv_make_copy (w_asoh R w) (V2 (drop_cols 4 two)) (asoh_inputs R w))) as [a|] eqn:Ea; [|discriminate Ea]. cbn [bind].
  set (ip := {| time := t2_of (one_row [0%R]); current := t2_of (one_row [(-1)%R]); temperature := None |}).
  set (iu := {| time := t2_of (one_row [1%R]); current := t2_of (one_row [(-1)%R]); temperature := None |}).
  assert (Op : input_ok ip) by (repeat split). assert (Ou : input_ok iu) by (repeat split).
  set (st := {| soc := t2_of (one_row [0%R]); q0 := None; i_rc := t2_of (one_row [0%R; 0%R]); hyst := t2_of (one_row [0%R]) |}).
  assert (Ts : state_ok 1 2 st) by (split; [split; [now left|reflexivity]|split; [exact I|split; [split; [now left|reflexivity]|split; [now left|reflexivity]]]]).
  assert (Ee : exists e, read_asoh X a = Ok e /\ usable_asoh no_spline (lossless_cell e) /\ asoh_ok 1 (lossless_cell e) /\ List.length (rcs e) = 2).
  { cbv in Ea. injection Ea as <-. eexists. split; [reflexivity|].
    split; [|split; [|reflexivity]].
    - unfold usable_asoh, usable, grid. cbn.
      split; [right; split; [discriminate|split; [reflexivity|discriminate]]|].
      split; [now left|]. split; [now left|]. split; [discriminate|]. split; [exact I|]. split; [|now left].
      constructor; [|constructor; [|constructor]]; (split; [now left|split; [now left|discriminate]]).
    - unfold asoh_ok, res_ok, rows_ok, column. cbn. repeat (split || constructor || lia || auto). }
  destruct Ee as (e & Ee & Ue & Oe & Le).
  assert (Ts' : state_ok 1 (List.length (rcs (lossless_cell e))) st) by (cbn [rcs lossless_cell]; rewrite Le; exact Ts).
  assert (K1 : exists s', update_transient_state no_spline Constant ip iu st e = Ok s' /\ state_ok 1 2 s' /\ q0 s' = None).
  { rewrite discharge_update; [|exact Op|cbn; lra].
    pose proof (proj2 (update_iff no_spline 1 (le_n 1) Constant ip iu st _ Oe Ue Ts' Op Ou ltac:(discriminate))
      (proj1 (evaluable_1 _ 1 _ rows_1 Oe))) as [s' Es].
    exists s'. split; [exact Es|]. pose proof (update_can no_spline _ _ _ _ _ _ Op Ou Es) as Can.
    destruct (update_rel no_spline 1 0 Nat.lt_0_1 Constant ip iu st _ Oe Ts' Op Ou Can) as (s2 & E2 & O2 & N2).
    rewrite Es in E2. injection E2 as <-. cbn [rcs lossless_cell] in O2. rewrite Le in O2. split; [exact O2|].
    pose proof (f_equal xq N2) as Q. cbn in Q. destruct (q0 s'); [discriminate Q|reflexivity]. }
  destruct K1 as (s' & Es & Os' & Qs').
  change (cell_of R w) with (ecm_cell no_spline X Constant).
  destruct (cm_update (ecm_cell no_spline X Constant) pi ni (w_transients R w) a) as [a1 r1] eqn:Eu.
  cbn [ecm_cell cm_update] in Eu. change (read_input pi) with (Ok ip) in Eu. change (read_input ni) with (Ok iu) in Eu.
  change (read_state (w_transients R w)) with (Ok st) in Eu. rewrite Ee in Eu. cbn [bind] in Eu. rewrite Es in Eu. cbn [bind] in Eu.
  injection Eu as <- <-. cbn [bind].
  destruct (read_written 1 2 s' Os') as (s2 & Rs2 & Os2 & Is2).
  set (e1 := after_update st e).
  assert (Ea1 : read_asoh X (store_update st a) = Ok e1) by (now rewrite read_after_update, Ee).
  assert (Oe1 : asoh_ok 1 (lossless_cell e1)) by (exact (asoh_after_update 1 st _ Oe)).
  assert (Ue1 : usable_asoh no_spline (lossless_cell e1)) by (exact (usable_update no_spline st _ Ue)).
  assert (Le1 : List.length (rcs (lossless_cell e1)) = 2) by (cbn [rcs lossless_cell]; unfold e1; now rewrite length_rcs_update).
  rewrite <- Le1 in Os2.
  assert (Q2 : q0 s2 = None).
  { pose proof (f_equal xq (Is2 0 Nat.lt_0_1)) as Q. cbn in Q. rewrite Qs' in Q. destruct (q0 s2); [discriminate Q|reflexivity]. }
  pose proof (proj2 (voltage_iff no_spline 1 (le_n 1) iu s2 _ Oe1 Ue1 Os2 Ou ltac:(now rewrite Q2))
      (proj2 (evaluable_1 _ _ _ rows_1 Oe1))) as [v Ev].
  assert (Cv : Spec_ECM.column 1 v) by (apply (voltage_rel no_spline 1 0 Nat.lt_0_1 iu s2 _ v Oe1 Os2 Ou Ev)).
  change (calculate_terminal_voltage no_spline iu s2 (lossless_cell e1)) with (calculate_terminal_voltage no_spline iu s2 e1) in Ev.
  destruct (cm_voltage (ecm_cell no_spline X Constant) ni (write_state s') (store_update st a)) as [a2 rv] eqn:Em.
  cbn [ecm_cell cm_voltage] in Em. change (read_input ni) with (Ok iu) in Em. rewrite Rs2, Ea1 in Em. cbn [bind] in Em.
  rewrite Ev in Em. cbn [bind] in Em. injection Em as <- <-. cbn [bind].
  destruct (write_output_rows v 1 (le_n 1) Cv) as (m & Em & _ & Rm & _). rewrite Em. cbn [bind].
  exists m. split; [reflexivity|]. split; [reflexivity|]. destruct Rm; assumption.
Qed.
End Concrete.

Theorem C102_health_rows_refuted : exists spline X mode w e0 previous x x' pc p nc u z,
  wraps_ecm spline X mode false false w e0 /\ batch_of R (num_asoh R w) x /\
  control_of false w pc p /\ control_of false w nc u /\
  degradation_predict R w (fst (degradation_update R w previous x' pc nc)) x nc = Ok z /\
  anrows z < anrows x.
Proof.
  destruct Concrete.one_row_predicted as (z & Ez & R1 & R2).
  destruct (Concrete.wraps "ce") as (cell & W & U & L); [right; now right|].
  exists Concrete.no_spline, Concrete.X, Constant, (Concrete.wr ["ce"]), cell, Concrete.inputs, (drop_cols 4 Concrete.two),
    (drop_cols 4 Concrete.two), Concrete.before, Concrete.p, Concrete.after, Concrete.u, z.
  split; [exact W|]. split; [repeat constructor|]. split; [split; reflexivity|]. split; [split; reflexivity|].
  split; [exact Ez|]. rewrite R1, R2. lia.
Qed.
Print Assumptions C102_health_rows_refuted.

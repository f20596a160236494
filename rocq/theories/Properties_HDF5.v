(** C67-C71, C91: files of estimates. *)
From Coq Require Import String List Arith Bool Lia.
Import ListNotations.
From Verif Require Import Res Arr Arr_lemmas NdArray Health Distributions Spec_Distributions Estimators Properties_Estimators
  HDF5 Spec_HDF5 HDF5_proofs.
Local Open Scope string_scope.
Local Open Scope list_scope.
Local Open Scope nat_scope.

Section Files.
Variable A : Type.
Variable zero nan : A.
Variable is_nan : A -> bool.
Hypothesis nan_is_nan : is_nan nan = true.
Notation enter := (enter A).
Notation exit := (exit A).
Notation handle := (handle A).
Notation prepare := (prepare A zero nan).
Notation append_step := (append_step A zero nan is_nan).
Notation append_all := (append_all A zero nan is_nan).
Notation read_group := (read_group A zero is_nan).
Notation read_file := (read_file A zero is_nan).
Notation storable := (storable A is_nan).
Notation record_of := (record_of A zero).
Notation raw := (raw A).

(** The type to ask for when everything was stored. *)
Lemma read_group_ok (w : writer) st state p t l (f : nat -> option (step A)) g :
  what_at w p <> ONone ->
  (what_at w p = OFull -> t = TGauss /\ is_gauss A state = true) ->
  find_attr A (st_attrs A st) "write_settings" = Some (ASettings A (w_per_timestep w) (w_per_cycle w)) ->
  find_attr A (st_attrs A st) "distribution_type" = Some (AText A (class_of A state)) ->
  get_group A st p = Some g ->
  content A nan g (keys (what_at w p)) (fun i => option_map (cols_or_nil A zero (what_at w p)) (f i)) ->
  (forall i x, f i = Some x -> storable (what_at w p) x) ->
  (forall j x, nth_error l j = Some x -> f j = Some x) -> f (List.length l) = None ->
  read_group st p t = (map (record_of (what_at w p)) l, Ok tt).
Proof.
  intros N T A1 A2 Eg C S H1 H2. unfold HDF5.read_group. rewrite A1, A2, Eg.
  replace (match p with PerTimestep => w_per_timestep w | PerCycle => w_per_cycle w end) with (what_at w p) by now destruct p.
  destruct (C : content A nan g _ _) as [_ Ct]. destruct (Ct "time" (in_keys_time _ N)) as (ds & Et & _).
  pose proof (read_rows_until A zero nan is_nan nan_is_nan (what_at w p) g f ds N C S Et l 0 H1 H2) as R.
  cbn [skipn] in R. rewrite Et.
  destruct (what_at w p) eqn:Ew; try congruence; try exact R.
  destruct (T eq_refl) as [-> G]. destruct state; [|discriminate G]. exact R.
Qed.

(** * What no call changes *)
Definition same_settings (w w' : writer) : Prop := exists b i, w' = with_state w b i.
Lemma same_refl w : same_settings w w.
Proof. exists (w_ready w), (w_position w). now destruct w. Qed.
Lemma same_trans w1 w2 w3 : same_settings w1 w2 -> same_settings w2 w3 -> same_settings w1 w3.
Proof. intros (b & i & ->) (c & j & ->). now exists c, j. Qed.
Lemma same_what w w' p : same_settings w w' -> what_at w' p = what_at w p.
Proof. intros (b & i & ->). now destruct p. Qed.
Lemma same_key w w' : same_settings w w' -> w_key w' = w_key w.
Proof. now intros (b & i & ->). Qed.

Lemma prepare_writer s e a b : sys_writer A (fst (prepare s e a b)) = sys_writer A s.
Proof.
  unfold HDF5.prepare. destruct (negb _); [reflexivity|]. destruct (_ && _); [reflexivity|].
  destruct (e_state A e); [|reflexivity]. destruct (new_gaussian _ _ _); [|reflexivity].
  destruct (prepare_place _ _ _ _ _ _ _ PerTimestep a) as [st1 [u|]]; [|reflexivity].
  destruct (prepare_place _ _ _ _ _ _ _ PerCycle b) as [st2 r2]. reflexivity.
Qed.
Lemma append_writer s t c x y : same_settings (sys_writer A s) (sys_writer A (fst (append_step s t c x y))).
Proof.
  unfold HDF5.append_step. destruct (negb _); [apply same_refl|].
  destruct (append_place _ _ _ _ _ _ PerTimestep _ _ _ _) as [st1 [u|]]; [|apply same_refl].
  destruct (append_place _ _ _ _ _ _ PerCycle _ _ _ _) as [st2 [u2|]]; [|apply same_refl].
  now exists true, (S (w_position (sys_writer A s))).
Qed.
Lemma append_all_writer l : forall s, same_settings (sys_writer A s) (sys_writer A (fst (append_all s l))).
Proof.
  induction l as [|x l IH]; intros s; cbn; [apply same_refl|].
  pose proof (append_writer s (s_time x) (s_cycle x) (s_state x) (s_output x)) as W.
  destruct (append_step _ _ _ _ _) as [s1 [u|]]; cbn in *; [|exact W].
  eapply same_trans; [exact W|apply IH].
Qed.

(** After preparing a new group and appending steps. *)
Lemma after_steps s0 e expected_steps expected_cycles s1 s2 steps :
  let w := sys_writer A s0 in
  prepare (enter s0) e expected_steps expected_cycles = (s1, Ok tt) ->
  append_all s1 steps = (s2, Ok tt) ->
  (forall p, what_at w p <> ONone -> Forall (storable (what_at w p)) steps) ->
  exists state, e_state A e = Ok state /\ all_placed A zero nan w (handle s2) state steps.
Proof.
  cbn zeta. intros Hp Ha Sto.
  destruct (prepare_ok A zero nan _ _ _ _ _ Hp) as (_ & W & state & Es & Pr & _).
  exists state. split; [exact Es|].
  assert (forall p, what_at (sys_writer A s1) p = what_at (sys_writer A s0) p) as Wp by (intros p; rewrite W; now destruct p).
  assert (all_placed A zero nan (sys_writer A s1) (handle s1) state []) as P0.
  { rewrite W. destruct Pr as (P1 & P2 & P3). split; [exact P1|split; [exact P2|]].
    intros p Np K. destruct (P3 p Np K) as (g & E & C). exists g. split; [exact E|].
    eapply content_ext; [|exact C]. intros i. destruct p; cbn; [now destruct i|reflexivity]. }
  assert (all_placed A zero nan (sys_writer A s1) (handle s2) state steps) as (P1 & P2 & P3).
  { apply (append_all_ok A zero nan is_nan nan_is_nan steps s1 s2 state []); auto.
    - now rewrite W.
    - intros p Np. rewrite Wp in *. now apply Sto. }
  rewrite W in P1. cbn in P1. split; [exact P1|]. split; [exact P2|].
  intros p Np K. specialize (P3 p). rewrite Wp in P3. exact (P3 Np K).
Qed.

(** * C67 *)

(** A new file prepared and filled with any number of steps returns these steps when
    it is read, with the parts that were to be stored. *)
Theorem C67_round_trip : forall s0 e expected_steps expected_cycles s1 s2 steps t,
  let w := sys_writer A s0 in
  w_per_timestep w <> ONone ->
  prepare (enter s0) e expected_steps expected_cycles = (s1, Ok tt) ->
  append_all s1 steps = (s2, Ok tt) ->
  (forall p, what_at w p <> ONone -> Forall (storable (what_at w p)) steps) ->
  (w_per_timestep w = OFull -> t = TGauss /\ exists d, e_state A e = Ok (RGauss A d)) ->
  read_group (handle (exit s2)) PerTimestep t = (map (record_of (w_per_timestep w)) steps, Ok tt).
Proof.
  cbn zeta. intros s0 e es ec s1 s2 steps t N Hp Ha Sto Full.
  destruct (after_steps _ _ _ _ _ _ _ Hp Ha Sto) as (state & Es & P1 & P2 & P3).
  assert (w_per_timestep (sys_writer A s0) = OFull -> is_gauss A state = true) as G.
  { intros F. destruct (Full F) as (_ & d & Ed). rewrite Es in Ed. now injection Ed as ->. }
  destruct (P3 PerTimestep N G) as (g & Eg & C).
  change (handle (exit s2)) with (handle s2).
  apply (read_group_ok (sys_writer A s0) _ state PerTimestep t steps (fun i => nth_error steps i) g); auto.
  - intros F. split; [apply (Full F)|exact (G F)].
  - intros i x Hx. apply nth_error_In in Hx. specialize (Sto PerTimestep N). rewrite Forall_forall in Sto. auto.
  - now apply nth_error_None.
Qed.

Lemma read_file_handle s p t : w_key (sys_writer A s) = "state_estimates" ->
  read_file (sys_root A s) p t = read_group (handle s) p t.
Proof.
  intros K. unfold HDF5.read_file, HDF5.handle. rewrite K. now destruct (find_store _ _ _).
Qed.

(** The same from the path of the file, if the name of the group was not changed. *)
Theorem C67_round_trip_path : forall s0 e expected_steps expected_cycles s1 s2 steps t,
  let w := sys_writer A s0 in
  w_key w = "state_estimates" ->
  w_per_timestep w <> ONone ->
  prepare (enter s0) e expected_steps expected_cycles = (s1, Ok tt) ->
  append_all s1 steps = (s2, Ok tt) ->
  (forall p, what_at w p <> ONone -> Forall (storable (what_at w p)) steps) ->
  (w_per_timestep w = OFull -> t = TGauss /\ exists d, e_state A e = Ok (RGauss A d)) ->
  read_file (sys_root A (exit s2)) PerTimestep t = (map (record_of (w_per_timestep w)) steps, Ok tt).
Proof.
  cbn zeta. intros s0 e es ec s1 s2 steps t K N Hp Ha Sto Full.
  rewrite read_file_handle; [eapply C67_round_trip; eauto|].
  pose proof (append_all_writer steps s1) as S. rewrite Ha in S. apply same_key in S. cbn in S |- *.
  rewrite S. pose proof (prepare_writer (enter s0) e es ec) as W. rewrite Hp in W. cbn in W. rewrite W. exact K.
Qed.

(** What [prepare] writes about the estimator stays whatever is appended, whether or
    not appending fails. *)
Lemma append_place_attrs w st p ind t x y : st_attrs A (fst (append_place A zero nan is_nan w st p ind t x y)) = st_attrs A st.
Proof.
  unfold append_place. destruct (what_at w p); try reflexivity.
  all: destruct (get_group A st p); [|reflexivity].
  all: destruct (match p with PerTimestep => _ | PerCycle => _ end) as [[]|]; [|..|reflexivity]; [reflexivity|].
  all: destruct (to_insert _ _ _ _ _) as [cols|]; [|reflexivity].
  all: destruct (write_columns _ _ _) as [g' r]; apply attrs_place.
Qed.
Lemma append_attrs s t c x y :
  find_store A (sys_root A s) (w_key (sys_writer A s)) <> None ->
  let s' := fst (append_step s t c x y) in
  st_attrs A (handle s') = st_attrs A (handle s) /\ find_store A (sys_root A s') (w_key (sys_writer A s')) <> None.
Proof.
  intros F. cbn zeta. unfold HDF5.append_step. destruct (negb _); [auto|].
  assert (forall st, st_attrs A st = st_attrs A (handle s) ->
    st_attrs A (handle (put A s st)) = st_attrs A (handle s) /\
    find_store A (sys_root A (put A s st)) (w_key (sys_writer A (put A s st))) <> None) as P.
  { intros st E. rewrite handle_put. split; [exact E|]. cbn. now rewrite find_store_set. }
  pose proof (append_place_attrs (sys_writer A s) (handle s) PerTimestep (w_position (sys_writer A s)) t x y) as A1.
  destruct (append_place _ _ _ _ _ _ PerTimestep _ _ _ _) as [st1 [u|]]; [|now apply P].
  cbn [fst] in A1.
  pose proof (append_place_attrs (sys_writer A s) st1 PerCycle c t x y) as A2.
  destruct (append_place _ _ _ _ _ _ PerCycle _ _ _ _) as [st2 [u2|]]; cbn [fst] in *; [|apply P; congruence].
  apply (P st2). congruence.
Qed.
Lemma append_all_attrs l : forall s, find_store A (sys_root A s) (w_key (sys_writer A s)) <> None ->
  st_attrs A (handle (fst (append_all s l))) = st_attrs A (handle s).
Proof.
  induction l as [|x l IH]; intros s F; cbn; [reflexivity|].
  destruct (append_attrs s (s_time x) (s_cycle x) (s_state x) (s_output x) F) as [E F'].
  destruct (append_step _ _ _ _ _) as [s1 [u|]]; cbn in *; [|exact E].
  rewrite (IH s1 F'). exact E.
Qed.

Theorem C67_metadata : forall s0 e expected_steps expected_cycles s1 steps,
  let w := sys_writer A s0 in
  prepare (enter s0) e expected_steps expected_cycles = (s1, Ok tt) ->
  let attribute := find_attr A (st_attrs A (handle (exit (fst (append_all s1 steps))))) in
  attribute "write_settings" = Some (ASettings A (w_per_timestep w) (w_per_cycle w)) /\
  attribute "state_names" = Some (ANames A (e_state_names A e)) /\
  attribute "output_names" = Some (ANames A (e_output_names A e)) /\
  attribute "estimator_name" = Some (AText A (e_class A e)) /\
  attribute "cell_model" = Some (AText A (e_cell_model A e)) /\
  attribute "initial_asoh" = Some (AHealth A (e_asoh A e)) /\
  attribute "initial_transient_state" = Some (ATransients A (e_transients A e)) /\
  (forall d, e_state A e = Ok (RGauss A d) -> attribute "distribution_type" = Some (AText A "MultivariateGaussian")) /\
  (forall mu, e_state A e = Ok (RDelta A mu) -> attribute "distribution_type" = Some (AText A "DeltaDistribution")).
Proof.
  cbn zeta. intros s0 e es ec s1 steps Hp.
  change (handle (exit (fst (append_all s1 steps)))) with (handle (fst (append_all s1 steps))).
  unfold HDF5.prepare in Hp.
  destruct (negb _); [discriminate|]. destruct (_ && _); [discriminate|].
  destruct (e_state A e) as [state|]; [|discriminate]. destruct (new_gaussian _ _ _) as [output|]; [|discriminate].
  destruct (prepare_place _ _ _ _ _ _ _ PerTimestep es) as [st1 [[]|]] eqn:E1; [|discriminate].
  destruct (prepare_place _ _ _ _ _ _ _ PerCycle ec) as [st2 [[]|]] eqn:E2; [|discriminate].
  injection Hp as <-. rewrite append_all_attrs by (cbn; now rewrite find_store_set). rewrite handle_put.
  apply prepare_place_ok in E1 as (A1 & _). apply prepare_place_ok in E2 as (A2 & _). rewrite A2, A1.
  repeat split; try (rewrite !find_set_attr_neq by discriminate; apply find_set_attr_eq).
  - intros d [= ->]. rewrite !find_set_attr_neq by discriminate. apply find_set_attr_eq.
  - intros mu [= ->]. rewrite !find_set_attr_neq by discriminate. apply find_set_attr_eq.
Qed.

(** If everything was stored, reading with another type than that of the estimator's
    state raises, whatever has been appended; and so does reading what was not
    stored: nothing is returned. *)
Theorem C67_wrong_type : forall s0 e expected_steps expected_cycles s1 steps t p state,
  let w := sys_writer A s0 in
  prepare (enter s0) e expected_steps expected_cycles = (s1, Ok tt) ->
  e_state A e = Ok state ->
  what_at w p = ONone \/ (what_at w p = OFull /\ t <> if is_gauss A state then TGauss else TDelta) ->
  read_group (handle (exit (fst (append_all s1 steps)))) p t = ([], Err ValueError).
Proof.
  cbn zeta. intros s0 e es ec s1 steps t p state Hp Es H.
  destruct (C67_metadata _ _ _ _ _ steps Hp) as (P1 & _ & _ & _ & _ & _ & _ & G & D).
  unfold HDF5.read_group. rewrite P1.
  replace (match p with PerTimestep => w_per_timestep (sys_writer A s0) | PerCycle => w_per_cycle (sys_writer A s0) end)
    with (what_at (sys_writer A s0) p) by now destruct p.
  destruct H as [->|[-> T]]; [reflexivity|].
  destruct state as [d|mu]; [rewrite (G d Es)|rewrite (D mu Es)]; destruct t; try reflexivity; now destruct T.
Qed.

(** With another name it cannot be read from the path. *)
Theorem C67_other_name_not_found : forall s0 t p,
  w_key (sys_writer A s0) <> "state_estimates" -> find_store A (sys_root A s0) "state_estimates" = None ->
  forall calls, read_file (sys_root A (perform_all A zero nan is_nan s0 calls)) p t = ([], Err KeyError).
Proof.
  intros s0 t p K F calls.
  assert (forall s, w_key (sys_writer A s) <> "state_estimates" -> find_store A (sys_root A s) "state_estimates" = None ->
    forall c, let s' := fst (perform A zero nan is_nan s c) in
    w_key (sys_writer A s') <> "state_estimates" /\ find_store A (sys_root A s') "state_estimates" = None) as Step.
  { clear. intros s K F c. assert (forall st, find_store A (sys_root A (put A s st)) "state_estimates" = None) as P.
    { intros st. cbn. now rewrite find_store_other. }
    destruct c as [| |e a b|x]; cbn [perform fst]; cbn zeta.
    - cbn. split; [exact K|]. destruct (find_store A (sys_root A s) (w_key (sys_writer A s))); [exact F|].
      now rewrite find_store_other.
    - split; assumption.
    - rewrite prepare_writer. split; [exact K|]. unfold HDF5.prepare.
      destruct (negb _); [exact F|]. destruct (_ && _); [exact F|].
      destruct (e_state A e); [|apply P]. destruct (new_gaussian _ _ _); [|apply P].
      destruct (prepare_place _ _ _ _ _ _ _ PerTimestep a) as [st1 [u|]]; [|apply P].
      destruct (prepare_place _ _ _ _ _ _ _ PerCycle b) as [st2 r2]. apply P.
    - rewrite (same_key _ _ (append_writer s _ _ _ _)). split; [exact K|]. unfold HDF5.append_step.
      destruct (negb _); [exact F|].
      destruct (append_place _ _ _ _ _ _ PerTimestep _ _ _ _) as [st1 [u|]]; [|apply P].
      destruct (append_place _ _ _ _ _ _ PerCycle _ _ _ _) as [st2 [u2|]]; apply P. }
  revert s0 K F. induction calls as [|c calls IH]; intros s0 K F; cbn.
  - unfold HDF5.read_file. now rewrite F.
  - destruct (Step s0 K F c). now apply IH.
Qed.

(** * C68 *)

(** After any steps, the stored arrays hold for each cycle the values of its first
    step, and nothing for a cycle without steps. *)
Theorem C68_first_of_cycle : forall s0 e expected_steps expected_cycles s1 s2 steps,
  let w := sys_writer A s0 in let st := handle s2 in
  w_per_cycle w <> ONone ->
  prepare (enter s0) e expected_steps expected_cycles = (s1, Ok tt) ->
  append_all s1 steps = (s2, Ok tt) ->
  (forall p, what_at w p <> ONone -> Forall (storable (what_at w p)) steps) ->
  (w_per_cycle w = OFull -> exists d, e_state A e = Ok (RGauss A d)) ->
  forall c,
  match first_of_cycle A steps c with
  | Some x =>
    raw st PerCycle "time" c = Some (mkNd [] [s_time x]) /\
    raw st PerCycle "state_mean" c = Some (nd_of_list A (mean_of A (s_state x))) /\
    raw st PerCycle "output_mean" c = Some (nd_of_list A (mean_of A (s_output x))) /\
    (w_per_cycle w = OFull \/ w_per_cycle w = OMeanCov ->
     raw st PerCycle "state_covariance" c = Some (nd_of_arr A (cov_of A zero (s_state x))) /\
     raw st PerCycle "output_covariance" c = Some (nd_of_arr A (cov_of A zero (s_output x)))) /\
    (w_per_cycle w = OMeanVar ->
     raw st PerCycle "state_variance" c = Some (nd_of_list A (diagonal A zero (cov_of A zero (s_state x)))) /\
     raw st PerCycle "output_variance" c = Some (nd_of_list A (diagonal A zero (cov_of A zero (s_output x)))))
  | None => raw st PerCycle "time" c = None \/ raw st PerCycle "time" c = Some (mkNd [] [nan])
  end.
Proof.
  cbn zeta. intros s0 e es ec s1 s2 steps N Hp Ha Sto Full c.
  destruct (after_steps _ _ _ _ _ _ _ Hp Ha Sto) as (state & Es & P1 & P2 & P3).
  assert (w_per_cycle (sys_writer A s0) = OFull -> is_gauss A state = true) as G.
  { intros F. destruct (Full F) as (d & Ed). rewrite Es in Ed. now injection Ed as ->. }
  destruct (P3 PerCycle N G) as (g & Eg & C). cbn [what_at placed] in C.
  specialize (Sto PerCycle N). cbn [what_at] in Sto.
  set (what := w_per_cycle (sys_writer A s0)) in *.
  destruct (first_of_cycle A steps c) as [x|] eqn:Fx.
  - assert (forall k v, In k (keys what) -> value_of_key A (cols_or_nil A zero what x) k = Some v ->
      raw (handle s2) PerCycle k c = Some v) as R.
    { intros k v Ik Ev. unfold Spec_HDF5.raw. rewrite Eg. destruct (proj2 C k Ik) as (ds & Ed & _). rewrite Ed.
      apply (content_cell A nan g (keys what) _ c (cols_or_nil A zero what x) k v C); auto. now rewrite Fx. }
    assert (storable what x) as Sx.
    { rewrite Forall_forall in Sto. apply Sto. apply find_some in Fx. tauto. }
    destruct Sx as (_ & _ & _ & K). destruct x as [t cy xs xo]. cbn [s_time s_state s_output] in *.
    destruct what eqn:Ew; [destruct (K eq_refl) as [Ks Ko]; destruct xs as [xs|]; [|discriminate Ks];
      destruct xo as [xo|]; [|discriminate Ko]|..|congruence].
    all: split; [apply R; [cbn; tauto|reflexivity]|]; split; [apply R; [cbn; tauto|reflexivity]|];
      split; [apply R; [cbn; tauto|reflexivity]|]; split; intros Hw.
    all: try discriminate Hw.
    all: try (destruct Hw as [Hw|Hw]; discriminate Hw).
    all: split; apply R; (reflexivity || (cbn; tauto)).
  - destruct (proj2 C "time" (in_keys_time _ N)) as (ds & Ed & Sh & Ce). unfold Spec_HDF5.raw. rewrite Eg, Ed.
    specialize (Ce c). rewrite Fx in Ce. cbn in Ce.
    destruct (nth_error (ds_rows A ds) c) as [v|] eqn:En; [right|now left].
    unfold cell in Ce. rewrite (nth_error_nth _ _ _ En) in Ce. rewrite Ce.
    unfold nan_row. now rewrite (Sh eq_refl).
Qed.

(** * C69 *)

(** Reading the cycles returns those before the first one that is missing. *)
Theorem C69_until_missing : forall s0 e expected_steps expected_cycles s1 s2 steps t,
  let w := sys_writer A s0 in
  w_per_cycle w <> ONone ->
  prepare (enter s0) e expected_steps expected_cycles = (s1, Ok tt) ->
  append_all s1 steps = (s2, Ok tt) ->
  (forall p, what_at w p <> ONone -> Forall (storable (what_at w p)) steps) ->
  (w_per_cycle w = OFull -> t = TGauss /\ exists d, e_state A e = Ok (RGauss A d)) ->
  exists firsts,
    (forall c x, nth_error firsts c = Some x -> first_of_cycle A steps c = Some x) /\
    first_of_cycle A steps (List.length firsts) = None /\
    read_group (handle (exit s2)) PerCycle t = (map (record_of (w_per_cycle w)) firsts, Ok tt).
Proof.
  cbn zeta. intros s0 e es ec s1 s2 steps t N Hp Ha Sto Full.
  destruct (after_steps _ _ _ _ _ _ _ Hp Ha Sto) as (state & Es & P1 & P2 & P3).
  assert (w_per_cycle (sys_writer A s0) = OFull -> is_gauss A state = true) as G.
  { intros F. destruct (Full F) as (_ & d & Ed). rewrite Es in Ed. now injection Ed as ->. }
  destruct (P3 PerCycle N G) as (g & Eg & C).
  assert (exists firsts, (forall c x, nth_error firsts c = Some x -> first_of_cycle A steps c = Some x) /\
    first_of_cycle A steps (List.length firsts) = None) as (firsts & F1 & F2).
  { assert (exists b, forall c, b <= c -> first_of_cycle A steps c = None) as (b & Hb).
    { unfold first_of_cycle. clear. induction steps as [|x l (b & IH)]; [now exists 0|].
      exists (Nat.max b (S (s_cycle x))). intros c Hc. cbn.
      destruct (Nat.eqb_spec (s_cycle x) c); [lia|apply IH; lia]. }
    assert (forall n, n <= b -> exists l, (forall c x, nth_error l c = Some x -> first_of_cycle A steps (b - n + c) = Some x) /\
      first_of_cycle A steps (b - n + List.length l) = None) as Z.
    { induction n as [|n IH]; intros Hn.
      - exists []. split; [now intros []|]. apply Hb. lia.
      - destruct (first_of_cycle A steps (b - S n)) as [y|] eqn:Ey.
        + destruct IH as (l & L1 & L2); [lia|]. exists (y :: l). split.
          * intros [|c] x Hx; cbn in Hx; [injection Hx as <-; now rewrite Nat.add_0_r|].
            replace (b - S n + S c) with (b - n + c) by lia. auto.
          * cbn. replace (b - S n + S (List.length l)) with (b - n + List.length l) by lia. auto.
        + exists []. split; [now intros []|]. cbn. now rewrite Nat.add_0_r. }
    destruct (Z b (le_n b)) as (l & L1 & L2). rewrite Nat.sub_diag in *. exists l. auto. }
  exists firsts. split; [exact F1|]. split; [exact F2|].
  change (handle (exit s2)) with (handle s2).
  apply (read_group_ok (sys_writer A s0) _ state PerCycle t firsts (fun i => first_of_cycle A steps i) g); auto.
  - intros F. split; [apply (Full F)|exact (G F)].
  - intros i x Hx. specialize (Sto PerCycle N). rewrite Forall_forall in Sto. apply Sto. apply find_some in Hx. tauto.
Qed.

(** Cycles counted from one: nothing is returned. *)
Theorem C69_counted_from_one : forall s0 e expected_steps expected_cycles s1 s2 steps t,
  let w := sys_writer A s0 in
  w_per_cycle w <> ONone ->
  prepare (enter s0) e expected_steps expected_cycles = (s1, Ok tt) ->
  append_all s1 steps = (s2, Ok tt) ->
  (forall p, what_at w p <> ONone -> Forall (storable (what_at w p)) steps) ->
  (w_per_cycle w = OFull -> t = TGauss /\ exists d, e_state A e = Ok (RGauss A d)) ->
  Forall (fun x => 1 <= s_cycle x) steps ->
  read_group (handle (exit s2)) PerCycle t = ([], Ok tt).
Proof.
  cbn zeta. intros s0 e es ec s1 s2 steps t N Hp Ha Sto Full One.
  destruct (C69_until_missing _ _ _ _ _ _ _ t N Hp Ha Sto Full) as (firsts & F1 & _ & R).
  destruct firsts as [|x firsts]; [exact R|].
  specialize (F1 0 x eq_refl). apply find_some in F1 as [I E]. rewrite Forall_forall in One.
  specialize (One x I). apply Nat.eqb_eq in E. lia.
Qed.

(** * C70 *)

Lemma zeros_gaussian n d : new_gaussian A (nd_of_list A (repeat zero n)) (mkNd [n; n] (repeat zero (n * n))) = Ok d ->
  proper A (RGauss A d) /\ has_dim A n (RGauss A d).
Proof.
  intros H. assert (1 <= n) as Hn.
  { destruct n; [|lia]. cbn in H. discriminate. }
  assert (valid n (Dist (repeat zero n) (mkArr n (repeat (repeat zero n) n)))) as V.
  { unfold valid; cbn. rewrite !repeat_length. repeat split; auto. apply Forall_forall. intros r Hr.
    apply repeat_spec in Hr as ->. apply repeat_length. }
  pose proof (new_gaussian_valid A _ _ V) as E. cbn in E. unfold nd_of_arr, anrows in E. cbn in E. rewrite repeat_length in E.
  assert (forall a, List.concat (repeat (repeat zero n) a) = repeat zero (a * n)) as C.
  { induction a; cbn; [reflexivity|]. now rewrite IHa, repeat_app. }
  rewrite C in E. rewrite H in E. injection E as ->. split; [exists n; exact V|]. unfold has_dim; cbn. apply repeat_length.
Qed.

Lemma columns_shapes x x0 n what tag cols cols0 : proper A x -> proper A x0 -> has_dim A n x -> has_dim A n x0 ->
  (what = OFull -> is_gauss A x = true /\ is_gauss A x0 = true) ->
  to_columns A zero x what tag = Ok cols -> to_columns A zero x0 what tag = Ok cols0 -> same_shapes A cols cols0.
Proof.
  unfold has_dim, same_shapes. intros P P0 D D0 K E E0.
  pose proof (proper_valid A zero x P) as V. pose proof (proper_valid A zero x0 P0) as V0. rewrite D in V. rewrite D0 in V0.
  destruct V as (_ & _ & V1 & V2 & _), V0 as (_ & _ & W1 & W2 & _). cbn in V1, V2, W1, W2.
  destruct what.
  - destruct (K eq_refl) as [G G0]. destruct x as [[xm xc]|]; [|discriminate]. destruct x0 as [[ym yc]|]; [|discriminate].
    cbn in *. injection E as <-. injection E0 as <-.
    constructor; [cbn; split; congruence|]. constructor; [|constructor]. cbn. unfold anrows. split; congruence.
  - injection E as <-. injection E0 as <-.
    constructor; [cbn; split; congruence|]. constructor; [|constructor]. cbn. unfold anrows. split; congruence.
  - injection E as <-. injection E0 as <-.
    constructor; [cbn; split; congruence|]. constructor; [|constructor]. cbn. split; [reflexivity|].
    unfold diagonal. rewrite !map_length, !seq_length. unfold anrows. congruence.
  - injection E as <-. injection E0 as <-. constructor; [cbn; split; congruence|constructor].
  - discriminate.
Qed.

Lemma insert_shapes t t0 s s0 o o0 n m what cols cols0 : proper A s -> proper A s0 -> has_dim A n s -> has_dim A n s0 ->
  proper A o -> proper A o0 -> has_dim A m o -> has_dim A m o0 ->
  (what = OFull -> is_gauss A s = true /\ is_gauss A s0 = true /\ is_gauss A o = true /\ is_gauss A o0 = true) ->
  to_insert A zero t s o what = Ok cols -> to_insert A zero t0 s0 o0 what = Ok cols0 -> same_shapes A cols cols0.
Proof.
  intros P1 P2 D1 D2 P3 P4 D3 D4 K E E0. unfold to_insert in *.
  destruct (to_columns A zero s what "state") as [a|] eqn:Ea; [|discriminate].
  destruct (to_columns A zero o what "output") as [b|] eqn:Eb; [|discriminate].
  destruct (to_columns A zero s0 what "state") as [a0|] eqn:Ea0; [|discriminate].
  destruct (to_columns A zero o0 what "output") as [b0|] eqn:Eb0; [|discriminate].
  cbn in E, E0. injection E as <-. injection E0 as <-. constructor; [split; reflexivity|].
  apply Forall2_app.
  - apply (columns_shapes s s0 n what "state"); auto. intros F; destruct (K F) as (? & ? & ? & ?); auto.
  - apply (columns_shapes o o0 m what "output"); auto. intros F; destruct (K F) as (? & ? & ? & ?); auto.
Qed.

Definition expected_at (p : place) (es ec : option nat) := match p with PerTimestep => es | PerCycle => ec end.
Definition index_of (p : place) (l : list (step A)) (x : step A) := match p with PerTimestep => List.length l | PerCycle => s_cycle x end.

Lemma place_succeeds w st p l x g cols0 expected :
  let what := what_at w p in
  what <> ONone -> storable what x -> Forall (storable what) l ->
  get_group A st p = Some g ->
  content A nan g (keys what) (fun i => option_map (cols_or_nil A zero what) (placed A p l i)) ->
  fits A g cols0 expected 128 -> same_shapes A (cols_or_nil A zero what x) cols0 ->
  match expected with
  | Some n => index_of p l x < n
  | None => index_of p l x <= 128 \/ exists j y, placed A p l j = Some y /\ index_of p l x <= S j
  end ->
  exists st' g', append_place A zero nan is_nan w st p (index_of p l x) (s_time x) (s_state x) (s_output x) = (st', Ok tt) /\
    get_group A st' p = Some g' /\ fits A g' cols0 expected 128.
Proof.
  cbn zeta. intros N Sx Sl Eg C F Sh Room. set (what := what_at w p) in *. set (ind := index_of p l x) in *.
  destruct (storable_columns A zero is_nan what x N Sx) as [Ci Ck]. unfold columns_of in Ci.
  assert (exists g', write_columns A nan g ind (cols_or_nil A zero what x) = (g', Ok tt) /\ fits A g' cols0 expected 128) as (g' & W & F').
  { assert (NoDup (map fst cols0)) as ND by (rewrite <- (same_shapes_keys _ _ _ Sh), Ck; apply keys_nodup).
    assert (fits A g cols0 expected (match expected with Some _ => 128 | None => Nat.max 128 ind end)) as F2.
    { destruct expected as [n|]; [exact F|]. intros k v Hin. destruct (F k v Hin) as (ds & E1 & E2 & E3 & E4 & E5).
      exists ds. repeat split; auto.
      assert (ind <= List.length (ds_rows A ds)); [|lia].
      destruct Room as [R|(j & y & Hj & R)]; [lia|].
      destruct (proj2 C k) as (d & Ed & _ & Ce).
      { rewrite <- Ck, (same_shapes_keys _ _ _ Sh). apply in_map_iff. exists (k, v). auto. }
      rewrite E1 in Ed. injection Ed as <-. specialize (Ce j). rewrite Hj in Ce. cbn in Ce. lia. }
    destruct (write_fits A nan g cols0 expected _ ind (cols_or_nil A zero what x) ND Sh F2) as (g' & W & F').
    { destruct expected; [exact Room|lia]. }
    exists g'. split; [exact W|]. destruct expected as [n|]; [exact F'|].
    intros k v Hin. destruct (F' k v Hin) as (ds & E1 & E2 & E3 & E4 & E5). exists ds. repeat split; auto. lia. }
  rewrite append_place_eq by exact N. rewrite Eg. fold what. rewrite Ci, W.
  destruct p.
  - eexists _, g'. split; [reflexivity|]. split; [apply same_place|exact F'].
  - assert (forall i cols, option_map (cols_or_nil A zero what) (placed A PerCycle l i) = Some cols ->
      exists x, cols = cols_or_nil A zero what x /\ is_nan (s_time x) = false /\ columns_of A zero what x cols) as Fc.
    { intros i cols E. destruct (placed A PerCycle l i) as [y|] eqn:P; [|discriminate]. injection E as <-.
      apply placed_from in P. rewrite Forall_forall in Sl. specialize (Sl _ P).
      exists y. split; [reflexivity|]. split; [apply Sl|]. now apply (storable_columns A zero is_nan). }
    destruct (time_cell A zero nan is_nan g _ _ what C (in_keys_time _ N) Fc ind) as (ds & Et & Ht).
    unfold already_written. rewrite Et.
    change (nth ind (ds_rows A ds) (nan_row A nan (ds_shape A ds))) with (cell A nan ds ind).
    destruct (ind <? List.length (ds_rows A ds)).
    + destruct (option_map _ _) as [cols|].
      * destruct Ht as (_ & y & _ & _ & Cy & Ny). rewrite Cy. cbn. rewrite Ny. cbn. exists st, g. auto.
      * rewrite Ht. cbn. rewrite nan_is_nan. cbn. eexists _, g'. split; [reflexivity|]. split; [reflexivity|exact F'].
    + eexists _, g'. split; [reflexivity|]. split; [apply same_place|exact F'].
Qed.

(** Steps whose cycle numbers grow by at most one. *)
Definition gradual (l : list (step A)) : Prop :=
  forall l1 x l2, l = l1 ++ x :: l2 -> s_cycle x <= 128 \/ exists y, In y l1 /\ s_cycle x <= S (s_cycle y).

Lemma prepare_fits s0 e es ec s1 :
  let w := sys_writer A s0 in
  prepare s0 e es ec = (s1, Ok tt) ->
  (w_resizable w = true -> forall n sh, exists c, w_options w true n sh = Some (S c)) ->
  forall state, e_state A e = Ok state ->
  exists output, proper A (RGauss A output) /\ has_dim A (e_num_outputs A e) (RGauss A output) /\
  forall p, what_at w p <> ONone -> exists g cols0, get_group A (handle s1) p = Some g /\
    to_insert A zero zero state (RGauss A output) (what_at w p) = Ok cols0 /\ fits A g cols0 (expected_at p es ec) 128.
Proof.
  cbn zeta. intros H Ch state Es. unfold HDF5.prepare in H.
  destruct (w_ready (sys_writer A s0)) eqn:Er; cbn [negb] in H; [|discriminate].
  destruct (_ && _); [discriminate|]. rewrite Es in H.
  destruct (new_gaussian _ _ _) as [output|] eqn:En; [|discriminate].
  destruct (zeros_gaussian _ _ En) as [Po Do].
  destruct (prepare_place _ _ _ _ _ _ _ PerTimestep es) as [st1 r1] eqn:E1. destruct r1 as [[]|]; [|discriminate].
  destruct (prepare_place _ _ _ _ _ _ _ PerCycle ec) as [st2 r2] eqn:E2. destruct r2 as [[]|]; [|discriminate].
  injection H as <-. exists output. split; [exact Po|]. split; [exact Do|]. rewrite handle_put.
  destruct (prepare_place_ok A zero nan _ _ _ _ _ _ _ E2) as (_ & O2 & _).
  assert (forall st p ex st', prepare_place A zero nan (sys_writer A s0) state (RGauss A output) st p ex = (st', Ok tt) ->
    what_at (sys_writer A s0) p <> ONone ->
    exists g cols0, get_group A st' p = Some g /\
    to_insert A zero zero state (RGauss A output) (what_at (sys_writer A s0) p) = Ok cols0 /\ fits A g cols0 ex 128) as Z.
  { intros st p ex st' Hp N. unfold prepare_place in Hp.
    destruct (what_at (sys_writer A s0) p) eqn:Ew; [| | | |congruence].
    all: destruct (to_insert _ _ _ _ _ _) as [cols|] eqn:Ec; [|discriminate].
    all: destruct (get_group A st p); [discriminate|].
    all: destruct (new_group A nan (sys_writer A s0) ex cols) as [g|] eqn:Eg; [|discriminate].
    all: injection Hp as <-; exists g, cols; split; [apply same_place|]; split; [reflexivity|].
    all: apply (new_group_fits A nan (sys_writer A s0)); auto; apply (to_insert_shape A zero _ _ _ _ _ Ec). }
  intros [|] N.
  - rewrite O2 by discriminate. eapply Z; eauto.
  - eapply Z; eauto.
Qed.

(** Everything that fits is stored: at most the expected number of steps if one was
    given, cycle numbers below the expected one, or, if none was given, numbers that
    grow gradually.  (Chunks have at least one row.) *)
Theorem C70_fits : forall s0 e expected_steps expected_cycles s1 steps d,
  let w := sys_writer A s0 in
  prepare (enter s0) e expected_steps expected_cycles = (s1, Ok tt) ->
  (w_resizable w = true -> forall n sh, exists c, w_options w true n sh = Some (S c)) ->
  e_state A e = Ok (RGauss A d) -> proper A (RGauss A d) ->
  (forall p, what_at w p <> ONone -> Forall (storable (what_at w p)) steps) ->
  Forall (fun x => has_dim A (List.length (d_mean d)) (s_state x) /\ has_dim A (e_num_outputs A e) (s_output x)) steps ->
  (w_per_timestep w <> ONone -> forall n, expected_steps = Some n -> List.length steps <= n) ->
  (w_per_cycle w <> ONone ->
   match expected_cycles with Some m => Forall (fun x => s_cycle x < m) steps | None => gradual steps end) ->
  exists s2, append_all s1 steps = (s2, Ok tt).
Proof.
  cbn zeta. intros s0 e es ec s1 steps d Hp Ch Es Pd Sto Dim Hs Hc.
  destruct (prepare_fits (enter s0) e es ec s1 Hp Ch _ Es) as (output & Po & Do & Fit).
  destruct (prepare_ok A zero nan _ _ _ _ _ Hp) as (Rd & W & state & Es' & Pr & _).
  rewrite Es in Es'. injection Es' as <-.
  set (w := sys_writer A s0) in *.
  assert (forall rest l s, steps = l ++ rest -> w_ready (sys_writer A s) = true -> same_settings w (sys_writer A s) ->
    w_position (sys_writer A s) = List.length l ->
    all_placed A zero nan w (handle s) (RGauss A d) l ->
    (forall p, what_at w p <> ONone -> exists g cols0, get_group A (handle s) p = Some g /\
      to_insert A zero zero (RGauss A d) (RGauss A output) (what_at w p) = Ok cols0 /\ fits A g cols0 (expected_at p es ec) 128) ->
    exists s2, append_all s rest = (s2, Ok tt)) as Main.
  { induction rest as [|x rest IH]; intros l s Esteps Rs Sw Pos Pl Ft; [cbn; eauto|].
    assert (In x steps) as Ix by (rewrite Esteps; apply in_elt).
    assert (forall p, what_at w p <> ONone -> storable (what_at w p) x /\ Forall (storable (what_at w p)) l) as Sxl.
    { intros p N. specialize (Sto p N). rewrite Esteps in Sto. apply Forall_app in Sto as [S1 S2]. apply Forall_inv in S2. auto. }
    assert (forall p, what_at w p <> ONone -> match expected_at p es ec with
      | Some n => index_of p l x < n
      | None => index_of p l x <= 128 \/ exists j y, placed A p l j = Some y /\ index_of p l x <= S j end) as Room.
    { intros [|] N; cbn [expected_at index_of].
      - destruct es as [n|].
        + specialize (Hs N n eq_refl). rewrite Esteps, app_length in Hs. cbn in Hs. lia.
        + destruct (List.length l) as [|k] eqn:L; [left; lia|right]. exists k.
          destruct (nth_error l k) as [y|] eqn:Ey; [exists y; split; [exact Ey|lia]|]. apply nth_error_None in Ey. lia.
      - specialize (Hc N). destruct ec as [m|].
        + rewrite Forall_forall in Hc. now apply Hc.
        + destruct (Hc l x rest Esteps) as [R|(y & Iy & R)]; [now left|right].
          exists (s_cycle y). cbn. unfold first_of_cycle.
          destruct (find (fun z => Nat.eqb (s_cycle z) (s_cycle y)) l) as [z|] eqn:Fz; [eauto|].
          exfalso. apply (find_none _ _ Fz) in Iy. rewrite Nat.eqb_refl in Iy. discriminate. }
    assert (forall p st g cols0, what_at w p <> ONone -> get_group A st p = Some g ->
      content A nan g (keys (what_at w p)) (fun i => option_map (cols_or_nil A zero (what_at w p)) (placed A p l i)) ->
      to_insert A zero zero (RGauss A d) (RGauss A output) (what_at w p) = Ok cols0 -> fits A g cols0 (expected_at p es ec) 128 ->
      exists st' g', append_place A zero nan is_nan w st p (index_of p l x) (s_time x) (s_state x) (s_output x) = (st', Ok tt) /\
      get_group A st' p = Some g' /\ fits A g' cols0 (expected_at p es ec) 128) as One.
    { intros p st g cols0 N Eg C E0 F. destruct (Sxl p N) as [Sx Sl].
      apply (place_succeeds w st p l x g cols0); auto; [|now apply Room].
      destruct (storable_columns A zero is_nan _ x N Sx) as [Ci _]. unfold columns_of in Ci.
      destruct Sx as (_ & P1 & P2 & K). rewrite Forall_forall in Dim. destruct (Dim x Ix) as [D1 D2].
      eapply (insert_shapes _ _ (s_state x) (RGauss A d) (s_output x) (RGauss A output)); eauto.
      - reflexivity.
      - intros Fu. destruct (K Fu) as [K1 K2]. rewrite K1, K2. auto. }
    assert (exists st1, append_place A zero nan is_nan w (handle s) PerTimestep (List.length l) (s_time x) (s_state x) (s_output x) = (st1, Ok tt) /\
      (what_at w PerTimestep <> ONone -> exists g cols0, get_group A st1 PerTimestep = Some g /\
       to_insert A zero zero (RGauss A d) (RGauss A output) (what_at w PerTimestep) = Ok cols0 /\ fits A g cols0 es 128)) as (st1 & A1 & F1).
    { assert (what_at w PerTimestep = ONone \/ what_at w PerTimestep <> ONone) as [N|N] by (destruct (what_at w PerTimestep); auto; right; discriminate).
      - exists (handle s). split; [unfold append_place; now rewrite N|congruence].
      - destruct (Ft _ N) as (g & cols0 & Eg & E0 & F). destruct (proj2 (proj2 Pl) _ N ltac:(reflexivity)) as (g2 & Eg2 & C).
        rewrite Eg in Eg2. injection Eg2 as <-.
        destruct (One _ _ _ _ N Eg C E0 F) as (st' & g' & B1 & B2 & B3). exists st'. split; [exact B1|]. eauto. }
    destruct (append_place_ok A zero nan is_nan _ _ _ _ _ _ A1) as [At1 O1].
    assert (exists st2, append_place A zero nan is_nan w st1 PerCycle (s_cycle x) (s_time x) (s_state x) (s_output x) = (st2, Ok tt) /\
      (what_at w PerCycle <> ONone -> exists g cols0, get_group A st2 PerCycle = Some g /\
       to_insert A zero zero (RGauss A d) (RGauss A output) (what_at w PerCycle) = Ok cols0 /\ fits A g cols0 ec 128)) as (st2 & A2 & F2).
    { assert (what_at w PerCycle = ONone \/ what_at w PerCycle <> ONone) as [N|N] by (destruct (what_at w PerCycle); auto; right; discriminate).
      - exists st1. split; [unfold append_place; now rewrite N|congruence].
      - destruct (Ft _ N) as (g & cols0 & Eg & E0 & F). destruct (proj2 (proj2 Pl) _ N ltac:(reflexivity)) as (g2 & Eg2 & C).
        rewrite Eg in Eg2. injection Eg2 as <-. rewrite <- O1 in Eg by discriminate.
        destruct (One _ _ _ _ N Eg C E0 F) as (st' & g' & B1 & B2 & B3). exists st'. split; [exact B1|]. eauto. }
    destruct (append_place_ok A zero nan is_nan _ _ _ _ _ _ A2) as [At2 O2].
    destruct Sw as (b & i & Sw).
    assert (forall st p ind t a o, append_place A zero nan is_nan (sys_writer A s) st p ind t a o = append_place A zero nan is_nan w st p ind t a o) as Aw.
    { intros. unfold append_place. rewrite Sw. now destruct p. }
    assert (append_step s (s_time x) (s_cycle x) (s_state x) (s_output x) =
      (System A (with_state (sys_writer A s) true (S (List.length l))) (sys_root A (put A s st2)), Ok tt)) as Ap.
    { unfold HDF5.append_step. rewrite Rs. cbn [negb]. rewrite !Aw, Pos, A1, Aw, A2. reflexivity. }
    set (s' := System A (with_state (sys_writer A s) true (S (List.length l))) (sys_root A (put A s st2))) in *.
    assert (handle s' = st2) as Hh by (unfold HDF5.handle; cbn; now rewrite find_store_set).
    cbn [Spec_HDF5.append_all]. rewrite Ap. apply (IH (l ++ [x])).
    - now rewrite <- app_assoc.
    - reflexivity.
    - exists true, (S (List.length l)). cbn. now rewrite Sw.
    - cbn. rewrite app_length. cbn. lia.
    - assert (forall p, what_at (sys_writer A s) p = what_at w p) as Wp by (intros [|]; now rewrite Sw).
      pose proof (append_step_ok A zero nan is_nan nan_is_nan s x s' (RGauss A d) l Ap Pos) as Q. cbn zeta in Q.
      destruct Q as (_ & _ & Q1 & Q2 & Q3).
      + intros p N. rewrite Wp in *. destruct (Sxl p N) as [Sx Sl]. apply Forall_app. auto.
      + destruct Pl as (L1 & L2 & L3). split; [|split].
        * rewrite L1. now rewrite Sw.
        * exact L2.
        * intros p. rewrite Wp. apply L3.
      + split; [|split].
        * rewrite Q1, Sw. reflexivity.
        * exact Q2.
        * intros p. specialize (Q3 p). rewrite Wp in Q3. exact Q3.
    - rewrite Hh. intros [|] N.
      + destruct (F1 N) as (g & c0 & B1 & B2 & B3). exists g, c0. rewrite O2 by discriminate. auto.
      + exact (F2 N). }
  apply (Main steps [] s1); auto.
  - now rewrite W.
  - rewrite W. now exists true, 0.
  - now rewrite W.
  - destruct Pr as (P1 & P2 & P3). split; [exact P1|split; [exact P2|]].
    intros p Np K. destruct (P3 p Np K) as (g & E & C). exists g. split; [exact E|].
    eapply content_ext; [|exact C]. intros i. destruct p; cbn; [now destruct i|reflexivity].
Qed.

(** More steps than expected, or a cycle number that was not expected, raise - also if
    the file was to be resizable. *)
Theorem C70_no_more_than_expected : forall s0 e expected_steps expected_cycles s1 s2 steps,
  let w := sys_writer A s0 in
  prepare (enter s0) e expected_steps expected_cycles = (s1, Ok tt) ->
  append_all s1 steps = (s2, Ok tt) ->
  (w_per_timestep w <> ONone -> forall n, expected_steps = Some n -> List.length steps <= n) /\
  (w_per_cycle w <> ONone -> forall m, expected_cycles = Some m -> Forall (fun x => s_cycle x < m) steps).
Proof.
  cbn zeta. intros s0 e es ec s1 s2 steps Hp Ha. set (w := sys_writer A s0).
  assert (forall p n, what_at w p <> ONone -> expected_at p es ec = Some n ->
    exists g, get_group A (handle s1) p = Some g /\ full A g n) as Full.
  { assert (forall st state output p st' n, prepare_place A zero nan (sys_writer A (enter s0)) state output st p (Some n) = (st', Ok tt) ->
      what_at w p <> ONone -> exists g, get_group A st' p = Some g /\ full A g n) as Z.
    { intros st state output p st' n H N. unfold prepare_place in H.
      replace (what_at (sys_writer A (enter s0)) p) with (what_at w p) in H by now destruct p.
      destruct (what_at w p); [| | | |congruence].
      all: destruct (to_insert _ _ _ _ _ _) as [cols|] eqn:Ec; [|discriminate].
      all: destruct (get_group A st p); [discriminate|].
      all: destruct (new_group _ _ _ _ cols) as [g|] eqn:Eg; [|discriminate].
      all: injection H as <-; exists g; split; [apply same_place|].
      all: destruct (to_insert_shape A zero _ _ _ _ _ Ec) as (_ & rest & ->).
      all: unfold new_group in Eg; cbn [mapM fst snd] in Eg.
      all: unfold new_dataset in Eg at 1; destruct (w_resizable _); cbn [bind] in Eg;
        destruct (mapM _ rest) as [g'|]; cbn [bind] in Eg; try discriminate; injection Eg as <-;
        eexists; cbn [column]; rewrite String.eqb_refl; split; [reflexivity| |reflexivity|]; split; auto; apply repeat_length. }
    unfold HDF5.prepare in Hp. destruct (w_ready (sys_writer A (enter s0))) eqn:Er; cbn [negb] in Hp; [|discriminate].
    destruct (_ && _); [discriminate|]. destruct (e_state A e) as [state|]; [|discriminate].
    destruct (new_gaussian _ _ _) as [output|]; [|discriminate].
    destruct (prepare_place _ _ _ _ _ _ _ PerTimestep es) as [st1 r1] eqn:E1. destruct r1 as [[]|]; [|discriminate].
    destruct (prepare_place _ _ _ _ _ _ _ PerCycle ec) as [st2 r2] eqn:E2. destruct r2 as [[]|]; [|discriminate].
    injection Hp as <-. rewrite handle_put. intros [|] n N En; cbn in En; subst.
    - destruct (prepare_place_ok A zero nan _ _ _ _ _ _ _ E2) as (_ & O2 & _). rewrite O2 by discriminate. eapply Z; eauto.
    - eapply Z; eauto. }
  pose proof (prepare_writer (enter s0) e es ec) as W. rewrite Hp in W. cbn in W.
  assert (same_settings w (sys_writer A s1)) as Sw by (rewrite W; now exists true, 0).
  assert (w_position (sys_writer A s1) = 0) as Pos by now rewrite W.
  assert (forall l k s, append_all s l = (s2, Ok tt) -> same_settings w (sys_writer A s) -> w_position (sys_writer A s) = k ->
    (forall p n, what_at w p <> ONone -> expected_at p es ec = Some n -> exists g, get_group A (handle s) p = Some g /\ full A g n) ->
    (w_per_timestep w <> ONone -> forall n, es = Some n -> k <= n -> k + List.length l <= n) /\
    (w_per_cycle w <> ONone -> forall m, ec = Some m -> Forall (fun x => s_cycle x < m) l)) as Main.
  { clear s1 Hp Ha Full W Sw Pos. induction l as [|x l IH]; intros k s Ha Sw Pos Full.
    - cbn. split; [intros; lia|intros; constructor].
    - cbn in Ha. destruct (append_step _ _ _ _ _) as [s' r] eqn:E. destruct r as [[]|]; [|discriminate].
      pose proof (append_writer s (s_time x) (s_cycle x) (s_state x) (s_output x)) as W. rewrite E in W. cbn in W.
      unfold HDF5.append_step in E. destruct (w_ready (sys_writer A s)); cbn [negb] in E; [|discriminate].
      destruct (append_place _ _ _ _ _ _ PerTimestep _ _ _ _) as [st1 r1] eqn:E1. destruct r1 as [[]|]; [|discriminate].
      destruct (append_place _ _ _ _ _ _ PerCycle _ _ _ _) as [st2 r2] eqn:E2. destruct r2 as [[]|]; [|discriminate].
      injection E as <-.
      assert (forall p ind st st' n, append_place A zero nan is_nan (sys_writer A s) st p ind (s_time x) (s_state x) (s_output x) = (st', Ok tt) ->
        what_at w p <> ONone -> (exists g, get_group A st p = Some g /\ full A g n) ->
        ind < n /\ exists g, get_group A st' p = Some g /\ full A g n) as Z.
      { clear - Sw. intros p ind st st' n H N (g & Eg & F). rewrite append_place_eq in H by (now rewrite (same_what _ _ p Sw)).
        rewrite Eg in H.
        assert (match to_insert A zero (s_time x) (s_state x) (s_output x) (what_at (sys_writer A s) p) with
           | Ok cols => let (g, r) := write_columns A nan g ind cols in (set_group A st p g, r)
           | Err e => (st, Err e) end = (st', Ok tt) -> ind < n /\ exists g, get_group A st' p = Some g /\ full A g n) as Y.
        { destruct (to_insert _ _ _ _ _ _) as [cols|] eqn:Ec; [|discriminate].
          destruct (write_columns A nan g ind cols) as [g' r] eqn:Ew. intros [= <- ->].
          destruct (write_full A zero nan _ _ _ _ _ _ _ _ _ F Ec Ew) as [L F']. split; [exact L|]. exists g'. split; [apply same_place|exact F']. }
        destruct p; [exact (Y H)|]. unfold already_written in H. destruct F as (ds & Ed & Ln & M). rewrite Ed in H.
        destruct (Nat.ltb_spec ind (List.length (ds_rows A ds))).
        - destruct (ndata _) as [|t [|]]; [discriminate| |discriminate]. destruct (negb (is_nan t)); [|exact (Y H)].
          injection H as <-. split; [lia|]. exists g. split; [exact Eg|]. now exists ds.
        - exact (Y H). }
      set (s' := System A _ _) in *.
      assert (handle s' = st2) as Hh by (unfold HDF5.handle; cbn; now rewrite find_store_set).
      destruct (append_place_ok A zero nan is_nan _ _ _ _ _ _ E1) as [_ O1].
      destruct (append_place_ok A zero nan is_nan _ _ _ _ _ _ E2) as [_ O2].
      destruct (IH (S k) s' Ha) as [I1 I2].
      + eapply same_trans; eauto.
      + cbn. now rewrite Pos.
      + rewrite Hh. intros p n N En. specialize (Full p n N En). destruct p.
        * destruct (Z _ _ _ _ n E1 N Full) as [_ F]. now rewrite O2 by discriminate.
        * rewrite <- O1 in Full by discriminate. now destruct (Z _ _ _ _ n E2 N Full).
      + split.
        * intros N n En Hk. destruct (Z _ _ _ _ n E1 N (Full PerTimestep n N En)) as [L _].
          specialize (I1 N n En). rewrite Pos in L. cbn [List.length]. lia.
        * intros N m Em. constructor; [|now apply I2].
          pose proof (Full PerCycle m N Em) as F. rewrite <- O1 in F by discriminate.
          now destruct (Z _ _ _ _ m E2 N F). }
  destruct (Main steps 0 s1 Ha Sw Pos Full) as [M1 M2]. split; [|exact M2].
  intros N n En. specialize (M1 N n En). lia.
Qed.

(** Storage grows by one chunk: a cycle number beyond that raises. *)
Theorem C70_jump_raises : forall s g ds chunk x,
  let w := sys_writer A s in
  w_per_cycle w <> ONone -> get_group A (handle s) PerCycle = Some g -> column A g "time" = Some ds ->
  ds_chunk A ds = Some chunk -> List.length (ds_rows A ds) + chunk <= s_cycle x ->
  exists err, snd (append_step s (s_time x) (s_cycle x) (s_state x) (s_output x)) = Err err.
Proof.
  cbn zeta. intros s g ds ch x N Eg Ed Ec L. unfold HDF5.append_step.
  destruct (negb _); [cbn; eauto|].
  destruct (append_place _ _ _ _ _ _ PerTimestep _ _ _ _) as [st1 [[]|e1]] eqn:E1; [|cbn; eauto].
  destruct (append_place_ok A zero nan is_nan _ _ _ _ _ _ E1) as [_ O1]. rewrite append_place_eq by exact N.
  rewrite O1, Eg by discriminate. unfold already_written. rewrite Ed.
  rewrite (proj2 (Nat.ltb_ge _ _)) by lia.
  destruct (to_insert _ _ _ _ _ _) as [cols|] eqn:Ei; [|cbn; eauto].
  destruct (to_insert_shape A zero _ _ _ _ _ Ei) as (_ & rest & ->). cbn [write_columns]. rewrite Ed.
  assert (exists e, snd (write_value A nan ds (s_cycle x) (mkNd [] [s_time x])) = Err e) as (err & Er).
  { unfold write_value. rewrite (proj2 (Nat.leb_le _ _)) by lia. rewrite Ec. unfold resize. rewrite Ec.
    destruct (match ds_max A ds with Some _ => _ | None => _ end); [cbn; eauto|]. cbn [ds_rows].
    rewrite app_length, repeat_length.
    assert ((s_cycle x <? List.length (ds_rows A ds) + (List.length (ds_rows A ds) + ch - List.length (ds_rows A ds))) = false)
      as -> by (apply Nat.ltb_ge; lia). cbn. eauto. }
  destruct (write_value _ _ _ _ _) as [d r]. cbn in Er. subst r. cbn. eauto.
Qed.

(** * C71 *)
Notation perform := (perform A zero nan is_nan).
Notation perform_all := (perform_all A zero nan is_nan).

(** Whatever was called before, a writer can be used only after it was entered and
    until it is left; otherwise nothing happens except that ValueError is raised. *)
Theorem C71_only_while_open : forall s0 calls,
  let s := perform_all s0 calls in
  opened A (w_ready (sys_writer A s0)) calls = false ->
  (forall e a b, prepare s e a b = (s, Err ValueError)) /\
  (forall t c x y, append_step s t c x y = (s, Err ValueError)).
Proof.
  cbn zeta. intros s0 calls H.
  assert (w_ready (sys_writer A (perform_all s0 calls)) = opened A (w_ready (sys_writer A s0)) calls) as E.
  { clear H. revert s0. induction calls as [|c calls IH]; intros s0; [reflexivity|].
    cbn [Spec_HDF5.perform_all]. rewrite IH. destruct c as [| |e a b|x]; cbn [Spec_HDF5.perform fst opened]; try reflexivity.
    - now rewrite prepare_writer.
    - f_equal. unfold HDF5.append_step. destruct (w_ready (sys_writer A s0)) eqn:Er; cbn [negb]; [|exact Er].
      destruct (append_place _ _ _ _ _ _ PerTimestep _ _ _ _) as [st1 [u|]]; [|exact Er].
      destruct (append_place _ _ _ _ _ _ PerCycle _ _ _ _) as [st2 [u2|]]; [reflexivity|exact Er]. }
  rewrite H in E. split; intros.
  - unfold HDF5.prepare. now rewrite E.
  - unfold HDF5.append_step. now rewrite E.
Qed.

(** Entering starts again at the first row, a successful append moves to the next row,
    and nothing else changes the position. *)
Theorem C71_position : forall s c,
  let s' := fst (perform s c) in
  w_position (sys_writer A s') =
  match c, snd (perform s c) with
  | CEnter _, _ => 0
  | CAppend _ _, Ok _ => S (w_position (sys_writer A s))
  | _, _ => w_position (sys_writer A s)
  end.
Proof.
  cbn zeta. intros s [| |e a b|x]; cbn [Spec_HDF5.perform fst snd]; try reflexivity.
  - rewrite prepare_writer. now destruct (prepare s e a b) as [? []].
  - unfold HDF5.append_step. destruct (negb _); [reflexivity|].
    destruct (append_place _ _ _ _ _ _ PerTimestep _ _ _ _) as [st1 [u|]]; [|reflexivity].
    destruct (append_place _ _ _ _ _ _ PerCycle _ _ _ _) as [st2 [u2|]]; reflexivity.
Qed.

Lemma prepare_place_keeps w state output st p expected q g : get_group A st q = Some g ->
  get_group A (fst (prepare_place A zero nan w state output st p expected)) q = Some g.
Proof.
  intros E. unfold prepare_place. destruct (what_at w p); try exact E.
  all: destruct (to_insert _ _ _ _ _ _); [|exact E].
  all: destruct (get_group A st p) eqn:Ep; [exact E|].
  all: assert (p <> q) as N by (intros ->; congruence).
  all: destruct (new_group _ _ _ _ _); cbn [fst]; now rewrite other_place.
Qed.
Lemma prepare_keeps s e a b p g : get_group A (handle s) p = Some g ->
  get_group A (handle (fst (prepare s e a b))) p = Some g.
Proof.
  intros E. unfold HDF5.prepare. destruct (negb _); [exact E|]. destruct (_ && _); [exact E|].
  destruct (e_state A e) as [state|]; [|cbn [fst]; now rewrite handle_put].
  destruct (new_gaussian _ _ _) as [output|]; [|cbn [fst]; now rewrite handle_put].
  match goal with |- context [prepare_place _ _ _ ?w ?x ?y ?st PerTimestep a] =>
    pose proof (prepare_place_keeps w x y st PerTimestep a p g) as K1;
    destruct (prepare_place A zero nan w x y st PerTimestep a) as [st1 [u|]] end; cbn [fst] in *.
  - match goal with |- context [prepare_place _ _ _ ?w ?x ?y ?st PerCycle b] =>
      pose proof (prepare_place_keeps w x y st PerCycle b p g) as K2;
      destruct (prepare_place A zero nan w x y st PerCycle b) as [st2 r2] end; cbn [fst] in *.
    rewrite handle_put. apply K2, K1. now rewrite !get_group_attr.
  - rewrite handle_put. apply K1. now rewrite !get_group_attr.
Qed.

(** Preparing never changes estimates that are already there. *)
Theorem C71_prepare_keeps_estimates : forall s e a b p key i v,
  raw (handle s) p key i = Some v -> raw (handle (fst (prepare s e a b))) p key i = Some v.
Proof.
  intros s e a b p key i v. unfold Spec_HDF5.raw. destruct (get_group A (handle s) p) as [g|] eqn:E; [|discriminate].
  now rewrite (prepare_keeps s e a b p g E).
Qed.

(** Preparing succeeds in a new group if the sizes are known or the file is resizable. *)
Theorem C71_prepare_new : forall s e a b d,
  let w := sys_writer A s in
  w_ready w = true -> e_state A e = Ok (RGauss A d) -> 1 <= e_num_outputs A e ->
  (w_resizable w = false -> a <> None /\ b <> None) ->
  (forall p, what_at w p <> ONone -> get_group A (handle s) p = None) ->
  exists s', prepare s e a b = (s', Ok tt).
Proof.
  cbn zeta. intros s e a b d Rd Es No Rz New. unfold HDF5.prepare. rewrite Rd. cbn [negb].
  assert ((negb (w_resizable (sys_writer A s)) && match a, b with Some _, Some _ => false | _, _ => true end)%bool = false) as ->.
  { destruct (w_resizable (sys_writer A s)); [reflexivity|]. destruct (Rz eq_refl). destruct a, b; congruence || reflexivity. }
  rewrite Es. set (m := e_num_outputs A e) in *.
  assert (exists output, new_gaussian A (nd_of_list A (repeat zero m)) (mkNd [m; m] (repeat zero (m * m))) = Ok output) as (output & ->).
  { exists (Dist (repeat zero m) (mkArr m (repeat (repeat zero m) m))).
    rewrite <- (new_gaussian_valid A m (Dist (repeat zero m) (mkArr m (repeat (repeat zero m) m)))).
    - cbn [d_mean d_cov]. unfold nd_of_arr, anrows. cbn [arows acols]. rewrite repeat_length. do 2 f_equal.
      assert (forall k, repeat zero (k * m) = List.concat (repeat (repeat zero m) k)) as Z; [|apply Z].
      intros k. induction k as [|k IH]; [reflexivity|]. cbn. now rewrite repeat_app, IH.
    - repeat split; cbn; try rewrite repeat_length; auto. apply Forall_forall. intros r H. apply repeat_spec in H. subst. apply repeat_length. }
  assert (forall st p expected, (what_at (sys_writer A s) p <> ONone -> get_group A st p = None) ->
    (w_resizable (sys_writer A s) = false -> expected <> None) ->
    exists st', prepare_place A zero nan (sys_writer A s) (RGauss A d) (RGauss A output) st p expected = (st', Ok tt) /\
      forall q, q <> p -> get_group A st' q = get_group A st q) as Place.
  { intros st p ex Hn Hr. unfold prepare_place. destruct (what_at (sys_writer A s) p) eqn:W; [| | | |eauto].
    all: cbn [to_insert to_columns bind]; rewrite Hn by discriminate.
    all: match goal with |- context [new_group A nan ?w ?x ?l] =>
      assert (exists g, new_group A nan w x l = Ok g) as (g & ->) end;
      [|eexists; split; [reflexivity|]; intros q Nq; apply other_place; congruence].
    all: assert (forall l, exists g, new_group A nan (sys_writer A s) ex l = Ok g) as Z;
      [|apply Z].
    all: intros l; unfold new_group; rewrite (mapM_pure _ (fun kv => (fst kv,
           DS A (nshape (snd kv)) (repeat (nan_row A nan (nshape (snd kv))) (match ex with None => 128 | Some n => n end))
             ex (w_options (sys_writer A s) (w_resizable (sys_writer A s)) (match ex with None => 128 | Some n => n end) (nshape (snd kv)))))); [eauto|].
    all: intros x _; unfold new_dataset; destruct (w_resizable (sys_writer A s)) eqn:R; [destruct ex; reflexivity|].
    all: destruct ex; [reflexivity|now elim (Hr eq_refl)]. }
  match goal with |- context [prepare_place A zero nan _ _ _ ?st PerTimestep a] =>
    destruct (Place st PerTimestep a) as (st1 & -> & O1) end.
  { intros N. rewrite !get_group_attr. exact (New PerTimestep N). }
  { intros R. now destruct (Rz R). }
  destruct (Place st1 PerCycle b) as (st2 & -> & _).
  { intros N. rewrite O1 by discriminate. rewrite !get_group_attr. exact (New PerCycle N). }
  { intros R. now destruct (Rz R). }
  eauto.
Qed.

(** Preparing a group twice raises, but the names and the settings are overwritten. *)
Theorem C71_prepared_twice : forall s0 e a b s1 s1' e2 a2 b2 state2,
  let w := sys_writer A s1' in
  prepare s0 e a b = (s1, Ok tt) ->
  (* later, maybe with another writer of the same group *)
  handle s1' = handle s1 -> w_ready w = true ->
  (w_per_timestep w <> ONone /\ w_per_timestep (sys_writer A s0) = w_per_timestep w \/
   w_per_cycle w <> ONone /\ w_per_cycle (sys_writer A s0) = w_per_cycle w) ->
  (w_resizable w = false -> a2 <> None /\ b2 <> None) -> e_state A e2 = Ok state2 ->
  exists s2 err, prepare s1' e2 a2 b2 = (s2, Err err) /\
    find_attr A (st_attrs A (handle s2)) "state_names" = Some (ANames A (e_state_names A e2)) /\
    find_attr A (st_attrs A (handle s2)) "write_settings" = Some (ASettings A (w_per_timestep w) (w_per_cycle w)).
Proof.
  cbn zeta. intros s0 e a b s1 s1' e2 a2 b2 state2 Hp Hh Rd Same Rz Es.
  assert (forall p, what_at (sys_writer A s0) p <> ONone -> exists g, get_group A (handle s1') p = Some g) as G.
  { rewrite Hh. unfold HDF5.prepare in Hp. destruct (negb _); [discriminate|]. destruct (_ && _); [discriminate|].
    destruct (e_state A e) as [state|]; [|discriminate].
    destruct (new_gaussian _ _ _) as [output|]; [|discriminate].
    destruct (prepare_place _ _ _ _ _ _ _ PerTimestep a) as [st1 r1] eqn:E1. destruct r1 as [[]|]; [|discriminate].
    destruct (prepare_place _ _ _ _ _ _ _ PerCycle b) as [st2 r2] eqn:E2. destruct r2 as [[]|]; [|discriminate].
    injection Hp as <-. rewrite handle_put.
    assert (forall st p ex st', prepare_place A zero nan (sys_writer A s0) state (RGauss A output) st p ex = (st', Ok tt) ->
      what_at (sys_writer A s0) p <> ONone -> exists g, get_group A st' p = Some g) as Z.
    { intros st p ex st' H N. unfold prepare_place in H. destruct (what_at (sys_writer A s0) p); [| | | |congruence].
      all: destruct (to_insert _ _ _ _ _ _); [|discriminate].
      all: destruct (get_group A st p); [discriminate|].
      all: destruct (new_group _ _ _ _ _) as [g|]; [|discriminate].
      all: injection H as <-; exists g; apply same_place. }
    intros [|] N.
    - destruct (prepare_place_ok A zero nan _ _ _ _ _ _ _ E2) as (_ & O2 & _). rewrite O2 by discriminate. eapply Z; eauto.
    - eapply Z; eauto. }
  assert (forall st p ex state output g, get_group A st p = Some g -> what_at (sys_writer A s1') p <> ONone ->
    exists err, prepare_place A zero nan (sys_writer A s1') state output st p ex = (st, Err err)) as Y.
  { intros st p ex state output g Eg N. unfold prepare_place.
    destruct (what_at (sys_writer A s1') p); [| | | |congruence].
    all: destruct (to_insert _ _ _ _ _ _); [rewrite Eg|]; eauto. }
  unfold HDF5.prepare at 1. rewrite Rd. cbn [negb].
  assert ((negb (w_resizable (sys_writer A s1')) && match a2, b2 with Some _, Some _ => false | _, _ => true end)%bool = false) as ->.
  { destruct (w_resizable (sys_writer A s1')); [reflexivity|]. destruct (Rz eq_refl). destruct a2, b2; congruence || reflexivity. }
  rewrite Es.
  match goal with |- context [put A s1' ?st] =>
    match st with set_attr _ _ "initial_transient_state" _ => set (st0 := st) end end.
  assert (find_attr A (st_attrs A st0) "state_names" = Some (ANames A (e_state_names A e2)) /\
    find_attr A (st_attrs A st0) "write_settings" =
      Some (ASettings A (w_per_timestep (sys_writer A s1')) (w_per_cycle (sys_writer A s1')))) as At.
  { unfold st0. split; rewrite !find_set_attr_neq by discriminate; apply find_set_attr_eq. }
  assert (forall p, get_group A st0 p = get_group A (handle s1') p) as G0 by (intros p; unfold st0; now rewrite !get_group_attr).
  clearbody st0.
  destruct (new_gaussian _ _ _) as [output|]; [|do 2 eexists; rewrite handle_put; split; [reflexivity|exact At]].
  destruct Same as [[N E]|[N E]].
  - destruct (G PerTimestep) as (g & Eg); [cbn; congruence|].
    destruct (Y st0 PerTimestep a2 state2 (RGauss A output) g) as (err & ->); [now rewrite G0|exact N|].
    do 2 eexists; rewrite handle_put; split; [reflexivity|exact At].
  - destruct (G PerCycle) as (g & Eg); [cbn; congruence|].
    destruct (prepare_place A zero nan (sys_writer A s1') state2 (RGauss A output) st0 PerTimestep a2) as [st1 r1] eqn:E1.
    assert (st_attrs A st1 = st_attrs A st0 /\ get_group A st1 PerCycle = Some g) as [At1 G1].
    { pose proof (prepare_place_keeps (sys_writer A s1') state2 (RGauss A output) st0 PerTimestep a2 PerCycle g) as K.
      rewrite E1 in K. cbn [fst] in K. split; [|apply K; now rewrite G0].
      clear - E1. unfold prepare_place in E1. destruct (what_at _ PerTimestep); try (now injection E1 as <- _).
      all: destruct (to_insert _ _ _ _ _ _); [|now injection E1 as <- _].
      all: destruct (get_group A st0 PerTimestep); [now injection E1 as <- _|].
      all: destruct (new_group _ _ _ _ _); now injection E1 as <- _. }
    destruct r1 as [u|e1].
    + destruct (Y st1 PerCycle b2 state2 (RGauss A output) g G1 N) as (err & ->).
      do 2 eexists; rewrite handle_put; split; [reflexivity|]. rewrite At1. exact At.
    + do 2 eexists; rewrite handle_put; split; [reflexivity|]. rewrite At1. exact At.
Qed.

(** A group that is opened again is overwritten from its beginning. *)
Theorem C71_reopened_is_overwritten : forall s x s',
  let w := sys_writer A s in
  w_per_timestep w <> ONone ->
  append_step (enter (exit s)) (s_time x) (s_cycle x) (s_state x) (s_output x) = (s', Ok tt) ->
  raw (handle s') PerTimestep "time" 0 = Some (mkNd [] [s_time x]).
Proof.
  cbn zeta. intros s x s' N H. unfold HDF5.append_step in H. cbn [w_ready with_state sys_writer HDF5.enter negb] in H.
  destruct (append_place _ _ _ _ _ _ PerTimestep _ _ _ _) as [st1 r1] eqn:E1. destruct r1 as [[]|]; [|discriminate].
  destruct (append_place _ _ _ _ _ _ PerCycle _ _ _ _) as [st2 r2] eqn:E2. destruct r2 as [[]|]; [|discriminate].
  injection H as <-.
  match goal with |- raw (handle ?h) _ _ _ = _ => assert (handle h = st2) as -> end.
  { unfold HDF5.handle; cbn. now rewrite find_store_set. }
  destruct (append_place_ok A zero nan is_nan _ _ _ _ _ _ E2) as [_ O2]. unfold Spec_HDF5.raw. rewrite O2 by discriminate.
  rewrite append_place_eq in E1 by exact N.
  destruct (get_group A _ PerTimestep) as [g|]; [|discriminate].
  destruct (to_insert _ _ _ _ _ _) as [cols|] eqn:Ec; [|discriminate].
  destruct (to_insert_shape A zero _ _ _ _ _ Ec) as (ND & rest & ->).
  destruct (write_columns _ _ _ _ _) as [g' r] eqn:Ew. injection E1 as <- ->.
  destruct (write_columns_ok A nan _ _ _ _ ND Ew) as (_ & Wr & _).
  destruct (Wr _ _ (or_introl eq_refl)) as (d & d' & _ & Ed & (_ & _ & _ & _ & L & _ & C & _)).
  cbn [w_position with_state] in L, C. cbn [get_group set_group st_timestep]. rewrite Ed, (cell_nth A nan) by exact L. now rewrite C.
Qed.

(** * C91 *)
Lemma append_place_keeps w st p ind t s o st' r :
  append_place A zero nan is_nan w st p ind t s o = (st', r) ->
  forall q k j v, (q = p -> j <> ind) -> raw st q k j = Some v -> raw st' q k j = Some v.
Proof.
  intros H q k j v Hj E.
  assert (what_at w p = ONone \/ what_at w p <> ONone) as [N|N] by (destruct (what_at w p); auto; right; discriminate).
  { unfold append_place in H. rewrite N in H. now injection H as <- _. }
  rewrite append_place_eq in H by exact N. destruct (get_group A st p) as [g|] eqn:Eg; [|now injection H as <- _].
  destruct (match p with PerTimestep => _ | PerCycle => _ end) as [[|]|]; try (now injection H as <- _).
  destruct (to_insert _ _ _ _ _ _) as [cols|]; [|now injection H as <- _].
  destruct (write_columns _ _ _ _ _) as [g' r'] eqn:Ew. injection H as <- _.
  assert (q = p \/ q <> p) as [->|Nq] by (destruct p, q; auto; right; discriminate).
  - unfold Spec_HDF5.raw in *. rewrite same_place. rewrite Eg in E.
    destruct (column A g k) as [ds|] eqn:Ek; [|discriminate].
    destruct (write_columns_keeps A nan _ _ _ _ _ Ew k ds Ek) as (ds' & -> & _ & K). now apply K; auto.
  - unfold Spec_HDF5.raw in *. now rewrite other_place by congruence.
Qed.
Lemma cycle_place_final w st ind t s o st' r c tc :
  append_place A zero nan is_nan w st PerCycle ind t s o = (st', r) ->
  raw st PerCycle "time" c = Some (mkNd [] [tc]) -> is_nan tc = false ->
  forall k v, raw st PerCycle k c = Some v -> raw st' PerCycle k c = Some v.
Proof.
  intros H Et Nt k v E. destruct (Nat.eq_dec c ind) as [->|Nc].
  - assert (what_at w PerCycle = ONone \/ what_at w PerCycle <> ONone) as [N|N] by (destruct (what_at w PerCycle); auto; right; discriminate).
    { unfold append_place in H. rewrite N in H. now injection H as <- _. }
    rewrite append_place_eq in H by exact N. unfold Spec_HDF5.raw in Et. destruct (get_group A st PerCycle) as [g|] eqn:Eg; [|discriminate].
    destruct (column A g "time") as [ds|] eqn:Ed; [|discriminate].
    assert (already_written A nan is_nan g ind = Ok true) as Aw.
    { unfold already_written. rewrite Ed. rewrite (proj2 (Nat.ltb_lt _ _)) by (apply nth_error_Some; congruence).
      rewrite (nth_error_nth _ _ _ Et). cbn. now rewrite Nt. }
    rewrite Aw in H. now injection H as <- _.
  - eapply append_place_keeps; eauto.
Qed.

(** Once a time is stored for a cycle, nothing that is stored for this cycle ever
    changes, whatever is called and whether it raises or not. *)
Theorem C91_cycle_record_is_final : forall s calls c t,
  raw (handle s) PerCycle "time" c = Some (mkNd [] [t]) -> is_nan t = false ->
  forall key v, raw (handle s) PerCycle key c = Some v -> raw (handle (perform_all s calls)) PerCycle key c = Some v.
Proof.
  intros s calls c t. revert s. induction calls as [|call calls IH]; intros s Et Nt key v E; [exact E|].
  cbn [Spec_HDF5.perform_all].
  assert (forall k x, raw (handle s) PerCycle k c = Some x -> raw (handle (fst (perform s call))) PerCycle k c = Some x) as One.
  { intros k x Ex. destruct call as [| |e a b|y]; cbn [Spec_HDF5.perform fst].
    - assert (handle (enter s) = handle s) as ->; [|exact Ex]. unfold HDF5.handle, HDF5.enter. cbn.
      destruct (find_store A (sys_root A s) (w_key (sys_writer A s))) eqn:F; cbn; [now rewrite F|now rewrite find_store_set].
    - exact Ex.
    - now apply C71_prepare_keeps_estimates.
    - unfold HDF5.append_step. destruct (negb _); [exact Ex|].
      destruct (append_place _ _ _ _ _ _ PerTimestep _ _ _ _) as [st1 r1] eqn:E1.
      assert (forall k x, raw (handle s) PerCycle k c = Some x -> raw st1 PerCycle k c = Some x) as K1.
      { intros k' x' Ex'. eapply append_place_keeps; eauto. discriminate. }
      destruct r1 as [u|]; [|cbn [fst]; rewrite handle_put; auto].
      destruct (append_place _ _ _ _ _ _ PerCycle _ _ _ _) as [st2 r2] eqn:E2.
      assert (raw st2 PerCycle k c = Some x) as K2 by (eapply cycle_place_final; eauto).
      destruct r2; cbn [fst]; [|now rewrite handle_put].
      match goal with |- raw (handle ?h) _ _ _ = _ => assert (handle h = st2) as -> end; [|exact K2].
      unfold HDF5.handle; cbn. now rewrite find_store_set. }
  apply IH; auto.
Qed.

(** Until the group is opened again, rows before the current position never change. *)
Theorem C91_past_rows_are_final : forall s calls i,
  ~ In (CEnter A) calls -> i < w_position (sys_writer A s) ->
  forall key v, raw (handle s) PerTimestep key i = Some v -> raw (handle (perform_all s calls)) PerTimestep key i = Some v.
Proof.
  intros s calls i. revert s. induction calls as [|call calls IH]; intros s NE L key v E; [exact E|].
  cbn [Spec_HDF5.perform_all]. apply IH.
  - intros H. apply NE. now right.
  - pose proof (C71_position s call) as P. cbn zeta in P. rewrite P.
    destruct call as [| |e a b|y]; try (exfalso; apply NE; now left); match goal with |- context [snd ?r] => destruct (snd r) | _ => idtac end; lia.
  - destruct call as [| |e a b|y]; cbn [Spec_HDF5.perform fst].
    + exfalso. apply NE. now left.
    + exact E.
    + now apply C71_prepare_keeps_estimates.
    + unfold HDF5.append_step. destruct (negb _); [exact E|].
      destruct (append_place _ _ _ _ _ _ PerTimestep _ _ _ _) as [st1 r1] eqn:E1.
      assert (raw st1 PerTimestep key i = Some v) as K1.
      { eapply append_place_keeps; eauto. intros _. lia. }
      destruct r1 as [u|]; [|cbn [fst]; now rewrite handle_put].
      destruct (append_place _ _ _ _ _ _ PerCycle _ _ _ _) as [st2 r2] eqn:E2.
      assert (raw st2 PerTimestep key i = Some v) as K2 by (eapply append_place_keeps; eauto; discriminate).
      destruct r2; cbn [fst]; [|now rewrite handle_put].
      match goal with |- raw (handle ?h) _ _ _ = _ => assert (handle h = st2) as -> end; [|exact K2].
      unfold HDF5.handle; cbn. now rewrite find_store_set.
Qed.

(** * C57: estimates of the dual estimator cannot be stored *)
Theorem C57_dual_cannot_be_prepared : forall FT FA (KT : filter A FT) (KA : filter A FA) dual s e a b,
  e_state A e = dual_state A zero FT FA KT KA dual ->
  exists err, snd (prepare s e a b) = Err err.
Proof.
  intros FT FA KT KA dual s e a b E. destruct (C57_state_always_raises A zero FT FA KT KA dual) as [(x & X) _].
  unfold HDF5.prepare. destruct (negb _); [cbn; eauto|]. destruct (_ && _); [cbn; eauto|].
  rewrite E, X. cbn. eauto.
Qed.
End Files.
Print Assumptions C67_round_trip.
Print Assumptions C67_round_trip_path.
Print Assumptions C67_metadata.
Print Assumptions C67_wrong_type.
Print Assumptions C67_other_name_not_found.
Print Assumptions C68_first_of_cycle.
Print Assumptions C69_until_missing.
Print Assumptions C69_counted_from_one.
Print Assumptions C70_fits.
Print Assumptions C70_no_more_than_expected.
Print Assumptions C70_jump_raises.
Print Assumptions C71_only_while_open.
Print Assumptions C71_position.
Print Assumptions C71_prepare_keeps_estimates.
Print Assumptions C71_prepare_new.
Print Assumptions C71_prepared_twice.
Print Assumptions C71_reopened_is_overwritten.
Print Assumptions C91_cycle_record_is_final.
Print Assumptions C91_past_rows_are_final.
Print Assumptions C57_dual_cannot_be_prepared.

(** * Concrete files: numbers are natural numbers, [None] is the missing number. *)
Module Concrete.
Definition num := option nat.
Definition zero : num := Some 0.
Definition nan : num := None.
Definition is_nan (x : num) : bool := match x with None => true | Some _ => false end.
Notation prepare := (prepare num zero nan).
Notation append_step := (append_step num zero nan is_nan).
Notation append_all := (append_all num zero nan is_nan).
Notation raw := (raw num).

Definition gauss2 (a b c d e : nat) : rv num :=
  RGauss num (Dist [Some a; Some b] (mkArr 2 [[Some c; Some d]; [Some d; Some e]])).
Definition gauss1 (a c : nat) : rv num := RGauss num (Dist [Some a] (mkArr 1 [[Some c]])).
Definition estimator : described num :=
  Described num ["soc"; "r0"] ["terminal_voltage"] "JointEstimator" (Ok (gauss2 0 0 1 0 1))
    "EquivalentCircuitModel" (HV false [] []) [("soc", Some (mkArr 1 [[Some 0]]))] 1.
(** Two rows in a chunk. *)
Definition file (resizable : bool) (per_step per_cycle : out_type) : system num :=
  System num (Writer "state_estimates" (fun _ _ _ => Some 2) resizable per_step per_cycle false 0) [].
Definition steps : list (step num) :=
  [Step (Some 1) 0 (gauss2 1 2 3 4 5) (gauss1 6 7);
   Step (Some 2) 0 (gauss2 2 2 3 4 5) (gauss1 7 7);
   Step (Some 3) 1 (gauss2 3 2 3 4 5) (gauss1 8 7)].

Definition prepared r a b es ec := prepare (enter num (file r a b)) estimator es ec.
Definition filled r a b es ec := append_all (fst (prepared r a b es ec)) steps.

Lemma gauss2_proper a b c d e : proper num (gauss2 a b c d e).
Proof. exists 2. repeat (split || constructor). Qed.
Lemma gauss1_proper a c : proper num (gauss1 a c).
Proof. exists 1. repeat (split || constructor). Qed.
Lemma steps_storable what : Forall (storable num is_nan what) steps.
Proof.
  assert (forall t c a b x d e y z, storable num is_nan what (Step (Some t) c (gauss2 a b x d e) (gauss1 y z))) as H.
  { intros. split; [reflexivity|]. split; [apply gauss2_proper|]. split; [apply gauss1_proper|]. intros _. now split. }
  unfold steps. now repeat (apply Forall_cons; [apply H|]).
Qed.

(** Everything, and for each cycle the means and variances, in a file of fixed size. *)
Example C67_round_trip_case :
  read_file num zero is_nan (sys_root num (exit num (fst (filled false OFull OMeanVar (Some 4) (Some 2))))) PerTimestep TGauss
  = (map (record_of num zero OFull) steps, Ok tt).
Proof.
  apply (C67_round_trip_path num zero nan is_nan eq_refl (file false OFull OMeanVar) estimator (Some 4) (Some 2)
    (fst (prepared false OFull OMeanVar (Some 4) (Some 2)))); try (vm_compute; reflexivity); try discriminate.
  - intros p _. apply steps_storable.
  - intros _. split; [reflexivity|]. eexists. reflexivity.
Qed.
Example C67_wrong_type_case :
  read_group num zero is_nan (handle num (exit num (fst (append_all (fst (prepared false OFull OMeanVar (Some 4) (Some 2))) steps)))) PerTimestep TDelta
  = ([], Err ValueError).
Proof.
  apply (C67_wrong_type num zero nan is_nan (file false OFull OMeanVar) estimator (Some 4) (Some 2) _ steps TDelta PerTimestep
    (gauss2 0 0 1 0 1)); [vm_compute; reflexivity|reflexivity|].
  right. split; [reflexivity|discriminate].
Qed.
(** An estimator whose state is known exactly: its file is read as exact values. *)
Definition exact_estimator : described num :=
  Described num ["soc"; "r0"] ["terminal_voltage"] "Exact" (Ok (RDelta num [Some 0; Some 1]))
    "EquivalentCircuitModel" (HV false [] []) [("soc", Some (mkArr 1 [[Some 0]]))] 1.
Example C67_wrong_type_exact_case :
  let s1 := fst (prepare (enter num (file true OFull OMean)) exact_estimator None None) in
  let steps := [Step (Some 1) 0 (RDelta num [Some 2; Some 3]) (RDelta num [Some 4])] in
  snd (append_all s1 steps) = Ok tt /\
  read_group num zero is_nan (handle num (exit num (fst (append_all s1 steps)))) PerTimestep TGauss = ([], Err ValueError) /\
  read_group num zero is_nan (handle num (exit num (fst (append_all s1 steps)))) PerTimestep TDelta =
    ([(Some 1, RDelta num [Some 2; Some 3], RDelta num [Some 4])], Ok tt).
Proof.
  cbn zeta. split; [vm_compute; reflexivity|]. split; [|vm_compute; reflexivity].
  apply (C67_wrong_type num zero nan is_nan (file true OFull OMean) exact_estimator None None _ _ TGauss PerTimestep
    (RDelta num [Some 0; Some 1])); [vm_compute; reflexivity|reflexivity|].
  right. split; [reflexivity|discriminate].
Qed.
Example C67_metadata_case :
  find_attr num (st_attrs num (handle num (exit num (fst (append_all (fst (prepared false OFull OMeanVar (Some 4) (Some 2))) steps))))) "state_names"
  = Some (ANames num ["soc"; "r0"]).
Proof.
  apply (C67_metadata num zero nan is_nan (file false OFull OMeanVar) estimator (Some 4) (Some 2)). vm_compute; reflexivity.
Qed.
Example C67_other_name_case :
  let s := System num (Writer "mine" (fun _ _ _ => Some 2) true OFull ONone false 0) [] in
  let s := perform_all num zero nan is_nan s (CEnter _ :: CPrepare _ estimator None None :: map (CAppend _) steps) in
  snd (read_group num zero is_nan (handle num s) PerTimestep TGauss) = Ok tt /\
  read_file num zero is_nan (sys_root num s) PerTimestep TGauss = ([], Err KeyError).
Proof. cbv zeta. split; [vm_compute; reflexivity|]. apply C67_other_name_not_found; [discriminate|reflexivity]. Qed.

Example C68_case :
  let st := handle num (fst (filled false OFull OMeanVar (Some 4) (Some 3))) in
  raw st PerCycle "state_mean" 0 = Some (mkNd [2] [Some 1; Some 2]) /\
  raw st PerCycle "state_mean" 1 = Some (mkNd [2] [Some 3; Some 2]) /\
  raw st PerCycle "time" 2 = Some (mkNd [] [None]).
Proof.
  cbv zeta.
  pose proof (C68_first_of_cycle num zero nan is_nan eq_refl (file false OFull OMeanVar) estimator (Some 4) (Some 3)
    (fst (prepared false OFull OMeanVar (Some 4) (Some 3))) (fst (filled false OFull OMeanVar (Some 4) (Some 3))) steps) as H.
  cbv zeta in H.
  assert (forall c, _) as H' by
    (apply H; [discriminate|vm_compute; reflexivity|vm_compute; reflexivity|intros p _; apply steps_storable|discriminate]).
  split; [exact (proj1 (proj2 (H' 0)))|]. split; [exact (proj1 (proj2 (H' 1)))|].
  destruct (H' 2) as [E|E]; [vm_compute in E; discriminate E|exact E].
Qed.

Example C69_case : exists firsts,
  read_group num zero is_nan (handle num (exit num (fst (filled true ONone OMean (Some 2) (Some 4))))) PerCycle TGauss
    = (map (record_of num zero OMean) firsts, Ok tt) /\ List.length firsts = 2.
Proof.
  destruct (C69_until_missing num zero nan is_nan eq_refl (file true ONone OMean) estimator (Some 2) (Some 4)
    (fst (prepared true ONone OMean (Some 2) (Some 4))) (fst (filled true ONone OMean (Some 2) (Some 4))) steps TGauss)
    as (firsts & F & L & R); try (vm_compute; reflexivity); try discriminate.
  { intros p _. apply steps_storable. }
  exists firsts. split; [exact R|].
  destruct firsts as [|a [|b [|c l]]]; [discriminate L|discriminate L|reflexivity|].
  specialize (F 2 c eq_refl). discriminate F.
Qed.
(** The same data with cycles counted from one. *)
Definition from_one : list (step num) :=
  map (fun x => Step (s_time x) (S (s_cycle x)) (s_state x) (s_output x)) steps.
Example C69_counted_from_one_case :
  read_group num zero is_nan
    (handle num (exit num (fst (append_all (fst (prepared true ONone OMean (Some 2) (Some 4))) from_one)))) PerCycle TGauss = ([], Ok tt).
Proof.
  apply (C69_counted_from_one num zero nan is_nan eq_refl (file true ONone OMean) estimator (Some 2) (Some 4)
    (fst (prepared true ONone OMean (Some 2) (Some 4))) _ from_one TGauss); try (vm_compute; reflexivity); try discriminate.
  - intros p _. pose proof (steps_storable (what_at (sys_writer num (file true ONone OMean)) p)) as H.
    unfold from_one. apply Forall_map. eapply Forall_impl; [|exact H]. intros x. exact (fun h => h).
  - repeat constructor; cbn; lia.
Qed.

Example C70_fits_case : exists s2, append_all (fst (prepared false OFull OMeanVar (Some 3) (Some 2))) steps = (s2, Ok tt).
Proof.
  apply (C70_fits num zero nan is_nan eq_refl (file false OFull OMeanVar) estimator (Some 3) (Some 2)
    (fst (prepared false OFull OMeanVar (Some 3) (Some 2))) steps
    (Dist [Some 0; Some 0] (mkArr 2 [[Some 1; Some 0]; [Some 0; Some 1]]))); try (vm_compute; reflexivity); try discriminate.
  - apply gauss2_proper.
  - intros p _. apply steps_storable.
  - repeat constructor.
  - intros _ n [= <-]. cbn. lia.
  - intros _. repeat constructor.
Qed.
(** One row too few. *)
Example C70_too_many_case :
  (exists s1, prepared true OFull OMeanVar (Some 2) (Some 2) = (s1, Ok tt)) /\
  exists err, snd (filled true OFull OMeanVar (Some 2) (Some 2)) = Err err.
Proof. split; eexists; vm_compute; reflexivity. Qed.
Example C70_jump_case : exists err,
  snd (append_step (fst (prepared true ONone OMean None None)) (Some 1) 130 (gauss2 1 2 3 4 5) (gauss1 6 7)) = Err err.
Proof.
  destruct (get_group num (handle num (fst (prepared true ONone OMean None None))) PerCycle) as [g|] eqn:Eg; [|discriminate Eg].
  destruct (column num g "time") as [ds|] eqn:Ed; [|vm_compute in Eg; injection Eg as <-; discriminate Ed].
  apply (C70_jump_raises num zero nan is_nan _ g ds 2 (Step (Some 1) 130 (gauss2 1 2 3 4 5) (gauss1 6 7)));
    [discriminate|exact Eg|exact Ed|..].
  all: vm_compute in Eg; injection Eg as <-; vm_compute in Ed; injection Ed as <-; first [reflexivity|cbn; lia].
Qed.

Example C71_only_while_open_case :
  let s := perform_all num zero nan is_nan (file true OFull ONone)
             [CEnter _; CPrepare _ estimator None None; CExit _; CAppend _ (nth 0 steps (Step None 0 (gauss1 0 0) (gauss1 0 0)))] in
  append_step s (Some 1) 0 (gauss2 1 2 3 4 5) (gauss1 6 7) = (s, Err ValueError) /\
  find_attr num (st_attrs num (handle num s)) "estimator_name" = Some (AText num "JointEstimator").
Proof. cbv zeta. split; [apply C71_only_while_open; reflexivity|vm_compute; reflexivity]. Qed.
Example C71_prepare_new_case : exists s', prepare (enter num (file false OMeanCov OMean)) estimator (Some 3) (Some 2) = (s', Ok tt).
Proof.
  apply (C71_prepare_new num zero nan _ _ _ _ (Dist [Some 0; Some 0] (mkArr 2 [[Some 1; Some 0]; [Some 0; Some 1]])));
    [reflexivity|reflexivity|exact (le_n 1)|split; discriminate|now intros [|] _].
Qed.
Example C71_prepared_twice_case : exists s2 err,
  prepare (fst (filled true OFull ONone None None))
    (Described num ["other"] ["terminal_voltage"] "JointEstimator" (Ok (gauss1 0 0)) "X" (HV false [] []) [] 1) None None = (s2, Err err) /\
  find_attr num (st_attrs num (handle num (fst (filled true OFull ONone None None)))) "state_names" = Some (ANames num ["soc"; "r0"]) /\
  find_attr num (st_attrs num (handle num s2)) "state_names" = Some (ANames num ["other"]) /\
  raw (handle num s2) PerTimestep "state_mean" 0 = Some (mkNd [2] [Some 1; Some 2]).
Proof. do 2 eexists. split; [vm_compute; reflexivity|]. repeat split; vm_compute; reflexivity. Qed.
Example C71_prepared_twice_hypotheses : exists s2 err,
  prepare (fst (prepared true OFull ONone None None))
    (Described num ["other"] ["terminal_voltage"] "JointEstimator" (Ok (gauss1 0 0)) "X" (HV false [] []) [] 1) None None = (s2, Err err) /\
  find_attr num (st_attrs num (handle num s2)) "state_names" = Some (ANames num ["other"]).
Proof.
  destruct (C71_prepared_twice num zero nan (enter num (file true OFull ONone)) estimator None None
    (fst (prepared true OFull ONone None None)) (fst (prepared true OFull ONone None None))
    (Described num ["other"] ["terminal_voltage"] "JointEstimator" (Ok (gauss1 0 0)) "X" (HV false [] []) [] 1) None None (gauss1 0 0))
    as (s2 & err & E & N & _); try (vm_compute; reflexivity).
  - left. split; [discriminate|reflexivity].
  - discriminate.
  - eauto.
Qed.
Example C71_reopened_case :
  let s := fst (filled true OFull ONone (Some 4) (Some 3)) in
  let s' := fst (append_step (enter num (exit num s)) (Some 9) 0 (gauss2 1 2 3 4 5) (gauss1 6 7)) in
  raw (handle num s) PerTimestep "time" 0 = Some (mkNd [] [Some 1]) /\
  raw (handle num s') PerTimestep "time" 0 = Some (mkNd [] [Some 9]).
Proof.
  cbv zeta. split; [vm_compute; reflexivity|].
  apply (C71_reopened_is_overwritten num zero nan is_nan (fst (filled true OFull ONone (Some 4) (Some 3)))
    (Step (Some 9) 0 (gauss2 1 2 3 4 5) (gauss1 6 7))); [discriminate|vm_compute; reflexivity].
Qed.

Example C91_case : forall calls,
  raw (handle num (perform_all num zero nan is_nan (fst (filled true OFull OMean (Some 4) (Some 3))) calls)) PerCycle "state_mean" 0
  = Some (mkNd [2] [Some 1; Some 2]).
Proof.
  intros calls. apply (C91_cycle_record_is_final num zero nan is_nan) with (t := Some 1); vm_compute; reflexivity.
Qed.
Example C91_past_case : forall calls, ~ In (CEnter num) calls ->
  raw (handle num (perform_all num zero nan is_nan (fst (filled true OFull OMean (Some 4) (Some 3))) calls)) PerTimestep "state_mean" 1
  = Some (mkNd [2] [Some 2; Some 2]).
Proof.
  intros calls N. apply (C91_past_rows_are_final num zero nan is_nan); [exact N|vm_compute; lia|vm_compute; reflexivity].
Qed.

(** An append that raises is not undone: the time of the cycle is stored already, the
    rest is missing, and appending the step once more succeeds without storing it. *)
Theorem C91_failed_append_is_not_undone_refuted : exists s1 x bad s2 s3 err,
  s_time x = s_time bad /\ s_cycle x = s_cycle bad /\ storable num is_nan OMean x /\
  append_step s1 (s_time bad) (s_cycle bad) (s_state bad) (s_output bad) = (s2, Err err) /\
  append_step s2 (s_time x) (s_cycle x) (s_state x) (s_output x) = (s3, Ok tt) /\
  raw (handle num s1) PerCycle "time" (s_cycle x) = Some (mkNd [] [None]) /\
  raw (handle num s3) PerCycle "time" (s_cycle x) = Some (mkNd [] [s_time x]) /\
  raw (handle num s3) PerCycle "state_mean" (s_cycle x) = Some (mkNd [2] [None; None]).
Proof.
  exists (fst (prepared true ONone OMean (Some 2) (Some 4))), (Step (Some 1) 0 (gauss2 1 2 3 4 5) (gauss1 6 7)),
    (Step (Some 1) 0 (gauss1 1 1) (gauss1 6 7)).
  do 3 eexists. split; [reflexivity|]. split; [reflexivity|]. split.
  { pose proof (steps_storable OMean) as H. now inversion H. }
  repeat split; vm_compute; reflexivity.
Qed.
Print Assumptions C91_failed_append_is_not_undone_refuted.

Example C57_dual_case : exists err,
  snd (prepare (enter num (file true OFull OMean))
        (Described num ["soc"; "r0"] ["v"] "DualEstimator" (Err AttributeError) "X" (HV false [] []) [] 1) None None) = Err err.
Proof. eexists. reflexivity. Qed.
End Concrete.

(** C99: at which states, inputs and health parameters the wrappers evaluate the models. *)
From Coq Require Import String List Arith Bool Lia.
Import ListNotations.
From Verif Require Import Res Arr Arr_lemmas Container Container_proofs Spec_Container Names Health Spec_Health
  Health_lemmas Health_proofs Simulator Wrappers Spec_Wrappers
  Properties_Container Properties_Health Wrappers_proofs Properties_Wrappers.
Local Open Scope string_scope.
Local Open Scope list_scope.
Local Open Scope nat_scope.

Section C99.
Variable A : Type.

(** The inputs that controls stand for: the template of the wrapper with the converted
    values. *)
Definition stands_for (w : wrapper A) (u : arr A) (i : container A) : Prop :=
  exists v, op_samples A (control_conversion A w) u = Ok v /\ i = make_copy (w_inputs A w) (V2 v).

(** A health variable that agrees with the template except for the selected
    parameters, which are the given array, one member of the batch per row. *)
Definition health_with (w : wrapper A) (v : arr A) (a : hv A) : Prop :=
  (asoh_inputs A w <> [] -> get_parameters a (asoh_inputs A w) = Ok v) /\
  (asoh_inputs A w = [] -> a = w_asoh A w) /\
  (forall nm m, ~ In nm (asoh_inputs A w) -> (holds a nm m <-> holds (w_asoh A w) nm m)).

(** What the filter sees of the outputs of the model. *)
Definition as_measurement (w : wrapper A) (r : res (container A)) : res (arr A) :=
  let! y := r in let! ym := to_numpy y in op_inverse_samples A (output_conversion A w) ym.

(** The transient state of the wrapper with other values, one member of the batch per
    row. *)
Definition transients_with (w : wrapper A) (v : arr A) (t : container A) : Prop :=
  t = make_copy (w_transients A w) (V2 v) /\ to_numpy t = Ok v.

(** The joint wrapper predicts the voltage of the model at the transient state and the
    health parameters of the hidden state. *)
Theorem C99_joint_prediction : forall (w : wrapper A) x j u i,
  ready A w -> lossless A (num_hidden_dimensions A w) (hidden_conversion A w) ->
  batch_of A (num_hidden_dimensions A w) x ->
  op_samples A (hidden_conversion A w) x = Ok j -> stands_for w u i ->
  exists a t, transients_with w (take_cols (num_transients A w) j) t /\
    health_with w (drop_cols (num_transients A w) j) a /\
    joint_predict A w x u = as_measurement w (snd (cm_voltage (cell_of A w) i t a)).
Proof.
  intros w x j u i Rd [L _] Bx Ej (v & Ev & ->). destruct (L x Bx) as (j' & Ej' & Bj & _ & _).
  rewrite Ej in Ej'. injection Ej' as <-.
  destruct (decode_spec A w x j Rd Ej Bj) as (a & t & D & Et & _ & G & N & _ & T & K).
  exists a, t. split; [now split|]. split; [now split|].
  unfold joint_predict, controls_to_inputs. rewrite Ev. cbn [bind]. rewrite D. cbn [bind].
  now destruct (cm_voltage _ _ _ _).
Qed.

(** A joint update raises if the model returns a batch of another size than the one of
    the hidden states and than one. *)
Theorem C99_wrong_batch : forall (w : wrapper A) x j pc nc p n a t t' tm y d,
  ready A w -> lossless A (num_hidden_dimensions A w) (hidden_conversion A w) ->
  batch_of A (num_hidden_dimensions A w) x ->
  op_samples A (hidden_conversion A w) x = Ok j -> stands_for w pc p -> stands_for w nc n ->
  create_cell_model_inputs A w x = Ok (a, t) ->
  (forall p n t a, fst (cm_update (cell_of A w) p n t a) = a) ->
  (forall u t a, fst (cm_voltage (cell_of A w) u t a) = a) ->
  snd (cm_update (cell_of A w) p n t a) = Ok t' -> to_numpy t' = Ok tm ->
  snd (cm_voltage (cell_of A w) p t a) = Ok y -> deg_model A w a p t y = Ok d ->
  anrows tm <> 1 -> anrows tm <> anrows x ->
  joint_update A w x pc nc = Err ValueError.
Proof.
  intros w x j pc nc p n a t t' tm y d Rd [L _] Bx Ej (v & Ev & ->) (v' & Ev' & ->) D P1 P2 Eu Et Ey Ed H1 H2.
  destruct (L x Bx) as (j' & Ej' & Bj & Rj & _). rewrite Ej in Ej'. injection Ej' as <-.
  unfold joint_update, controls_to_inputs. rewrite Ev, Ev'. cbn [bind]. rewrite D. cbn [bind]. rewrite Ej. cbn [bind].
  set (p := make_copy _ (V2 v)) in *. set (n := make_copy _ (V2 v')) in *.
  specialize (P1 p n t a). destruct (cm_update (cell_of A w) p n t a) as [a1 r1]. cbn [fst snd] in *. subst a1 r1. cbn [bind].
  specialize (P2 p t a). destruct (cm_voltage (cell_of A w) p t a) as [a2 r2]. cbn [fst snd] in *. subst a2 r2. cbn [bind].
  rewrite Ed, Et. cbn [bind]. unfold assign_cols, broadcast_to, stretch.
  destruct (Nat.eqb_spec (List.length (arows tm)) (anrows j)) as [E|_].
  { destruct H2. unfold anrows at 1. now rewrite E, Rj. }
  destruct (arows tm) as [|r [|]] eqn:Er; [reflexivity| |reflexivity].
  destruct H1. unfold anrows. now rewrite Er.
Qed.

(** Nor is it accepted if it has the wrong number of values (one value would be repeated). *)
Theorem C99_wrong_width : forall (w : wrapper A) x j pc nc p n a t t' tm y d,
  ready A w -> lossless A (num_hidden_dimensions A w) (hidden_conversion A w) ->
  batch_of A (num_hidden_dimensions A w) x ->
  op_samples A (hidden_conversion A w) x = Ok j -> stands_for w pc p -> stands_for w nc n ->
  create_cell_model_inputs A w x = Ok (a, t) ->
  (forall p n t a, fst (cm_update (cell_of A w) p n t a) = a) ->
  (forall u t a, fst (cm_voltage (cell_of A w) u t a) = a) ->
  snd (cm_update (cell_of A w) p n t a) = Ok t' -> to_numpy t' = Ok tm ->
  snd (cm_voltage (cell_of A w) p t a) = Ok y -> deg_model A w a p t y = Ok d ->
  acols tm <> 1 -> acols tm <> num_transients A w ->
  joint_update A w x pc nc = Err ValueError.
Proof.
  intros w x j pc nc p n a t t' tm y d Rd [L _] Bx Ej (v & Ev & ->) (v' & Ev' & ->) D P1 P2 Eu Et Ey Ed H1 H2.
  destruct (L x Bx) as (j' & Ej' & Bj & Rj & _). rewrite Ej in Ej'. injection Ej' as <-.
  unfold joint_update, controls_to_inputs. rewrite Ev, Ev'. cbn [bind]. rewrite D. cbn [bind]. rewrite Ej. cbn [bind].
  set (p := make_copy _ (V2 v)) in *. set (n := make_copy _ (V2 v')) in *.
  specialize (P1 p n t a). destruct (cm_update (cell_of A w) p n t a) as [a1 r1]. cbn [fst snd] in *. subst a1 r1. cbn [bind].
  specialize (P2 p t a). destruct (cm_voltage (cell_of A w) p t a) as [a2 r2]. cbn [fst snd] in *. subst a2 r2. cbn [bind].
  rewrite Ed, Et. cbn [bind]. unfold assign_cols, broadcast_to.
  assert (C : Nat.min (num_transients A w) (acols j) = num_transients A w).
  { destruct Bj as (_ & _ & ->). unfold num_hidden_dimensions. lia. }
  rewrite C, Nat.sub_0_r, (proj2 (Nat.eqb_neq _ _) H2), (proj2 (Nat.eqb_neq _ _) H1).
  unfold stretch. destruct (Nat.eqb (List.length (arows tm)) (anrows j)); [reflexivity|].
  destruct (arows tm) as [|r [|]]; reflexivity.
Qed.

(** The wrapper of the transient state evaluates the model at the transient state of
    the hidden state, with its own health variable. *)
Theorem C99_transient_wrapper : forall (w : wrapper A) x j u i pc p nc n,
  well_formed (w_transients A w) -> nonempty (w_transients A w) ->
  batch_of A (width (w_transients A w)) j ->
  op_samples A (hidden_conversion A w) x = Ok j ->
  stands_for w u i -> stands_for w pc p -> stands_for w nc n ->
  exists t, transients_with w j t /\
    snd (cell_predict A w x u) = as_measurement w (snd (cm_voltage (cell_of A w) i t (w_asoh A w))) /\
    snd (cell_update A w x pc nc) =
      (let! t' := snd (cm_update (cell_of A w) p n t (w_asoh A w)) in
       let! tm := to_numpy t' in op_inverse_samples A (hidden_conversion A w) tm).
Proof.
  intros w x j u i pc p nc n Wt Nt (Wj & Rj & Cj) Ej (v & Ev & ->) (v1 & E1 & ->) (v2 & E2 & ->).
  exists (make_copy (w_transients A w) (V2 j)). split; [split; [reflexivity|]|].
  { apply (C01_encode_after_decode A (w_transients A w) (V2 j)); auto. }
  unfold cell_predict, cell_update, hidden_to_transients, controls_to_inputs. rewrite Ej, Ev, E1, E2. cbn [bind].
  destruct (cm_voltage _ _ _ _), (cm_update _ _ _ _ _). now split.
Qed.

(** The wrapper of the health parameters degrades the health variable of the hidden
    state, with the new inputs and the transient state of the wrapper; its prediction
    propagates this transient state from the previous inputs of the last update to
    the new ones. *)
Theorem C99_health_update : forall (w : wrapper A) x j previous pc p nc n,
  ready A w -> op_samples A (hidden_conversion A w) x = Ok j -> batch_of A (num_asoh A w) j ->
  stands_for w pc p -> stands_for w nc n ->
  (forall u t a, fst (cm_voltage (cell_of A w) u t a) = a) ->
  exists a, health_with w j a /\
    snd (degradation_update A w previous x pc nc) =
      (let! y := snd (cm_voltage (cell_of A w) n (w_transients A w) a) in
       let! d := deg_model A w a n (w_transients A w) y in
       let! am := get_parameters d (asoh_inputs A w) in
       op_inverse_samples A (hidden_conversion A w) am).
Proof.
  intros w x j previous pc p nc n Rd Ej Bj (v & Ev & ->) (v' & Ev' & ->) P.
  destruct (decode_asoh A w j Rd Bj) as (a & Ea & _ & G & N & _ & K).
  exists a. split; [now split|].
  unfold degradation_update, hidden_to_asoh, controls_to_inputs. rewrite Ev, Ev'. cbn [bind snd]. rewrite Ej. cbn [bind].
  rewrite Ea. cbn [bind]. set (n := make_copy _ (V2 v')).
  specialize (P n (w_transients A w) a). destruct (cm_voltage _ _ _ _) as [a1 r]. cbn [fst snd] in *. now subst a1.
Qed.
Theorem C99_health_prediction : forall (w : wrapper A) x j x' previous pc p nc u i,
  ready A w -> op_samples A (hidden_conversion A w) x = Ok j -> batch_of A (num_asoh A w) j ->
  stands_for w pc p -> stands_for w u i ->
  (forall p n t a, fst (cm_update (cell_of A w) p n t a) = a) ->
  exists a, health_with w j a /\
    degradation_predict A w (fst (degradation_update A w previous x' pc nc)) x u =
      (let! t := snd (cm_update (cell_of A w) p i (w_transients A w) a) in
       as_measurement w (snd (cm_voltage (cell_of A w) i t a))).
Proof.
  intros w x j x' previous pc p nc u i Rd Ej Bj (v & Ev & ->) (v' & Ev' & ->) P.
  destruct (decode_asoh A w j Rd Bj) as (a & Ea & _ & G & N & _ & K).
  exists a. split; [now split|].
  unfold degradation_predict, degradation_update, hidden_to_asoh, controls_to_inputs. rewrite Ev, Ev'. cbn [bind fst].
  rewrite Ej. cbn [bind]. rewrite Ea. cbn [bind].
  set (p := make_copy _ (V2 v)). set (i := make_copy _ (V2 v')).
  specialize (P p i (w_transients A w) a). destruct (cm_update _ _ _ _ _) as [a1 [t|e]]; cbn [fst snd bind] in *; [|reflexivity].
  subst a1. now destruct (cm_voltage _ _ _ _).
Qed.

(** If the previous controls cannot be converted, the update raises and the inputs of
    the update before it stay in use. *)
Theorem C99_health_update_raises : forall (w : wrapper A) x previous pc nc e,
  op_samples A (control_conversion A w) pc = Err e ->
  degradation_update A w previous x pc nc = (previous, Err e).
Proof. intros w x previous pc nc e E. unfold degradation_update, controls_to_inputs. now rewrite E. Qed.
End C99.
Print Assumptions C99_joint_prediction.
Print Assumptions C99_wrong_batch.
Print Assumptions C99_wrong_width.
Print Assumptions C99_transient_wrapper.
Print Assumptions C99_health_update.
Print Assumptions C99_health_prediction.
Print Assumptions C99_health_update_raises.

(** * Cases *)

(** The voltage of the toy model is the hidden capacity plus the current. *)
Example C99_joint_case :
  let w := toy_wrapper toy_names 3 no_degradation in
  ready nat w /\ lossless nat (num_hidden_dimensions nat w) (hidden_conversion nat w) /\
  batch_of nat (num_hidden_dimensions nat w) two_states /\ stands_for nat w (mkArr 1 [[4]]) [("i", Some (mkArr 1 [[4]]))] /\
  joint_predict nat w two_states (mkArr 1 [[4]]) = Ok (mkArr 1 [[13]; [23]]).
Proof.
  cbn zeta. split; [apply toy_ready|]. split; [apply lossless_reverse|]. split; [|split].
  - split; [repeat constructor|]. cbn. split; [lia|reflexivity].
  - eexists. split; reflexivity.
  - reflexivity.
Qed.
Example C99_health_case :
  let w := toy_wrapper toy_names 3 toy_degradation in
  let x := mkArr 3 [[9; 8; 7]] in
  ready nat w /\ batch_of nat (num_asoh nat w) (mkArr 3 [[7; 8; 9]]) /\
  op_samples nat (hidden_conversion nat w) x = Ok (mkArr 3 [[7; 8; 9]]) /\
  degradation_update nat w [] x (mkArr 1 [[3]]) (mkArr 1 [[4]]) =
    ([("i", Some (mkArr 1 [[3]]))], Ok (mkArr 3 [[22; 8; 7]])) /\
  degradation_predict nat w [("i", Some (mkArr 1 [[3]]))] (mkArr 3 [[9; 8; 7]; [19; 18; 17]]) (mkArr 1 [[4]])
    = Ok (mkArr 1 [[13]; [23]]).
Proof.
  cbn zeta. split; [apply toy_ready|]. split; [|split; [reflexivity|split; reflexivity]].
  split; [repeat constructor|]. cbn. split; [lia|reflexivity].
Qed.
(** A model that forgets the batch. *)
Definition three_rows : cell_model (container nat) (container nat) (hv nat) (container nat) :=
  {| cm_update := fun p n t a => (a, Ok [("q", Some (mkArr 1 [[1]; [2]; [3]])); ("v", Some (mkArr 2 [[1; 2]; [1; 2]; [1; 2]]))]);
     cm_voltage := cm_voltage toy |}.
Example C99_wrong_batch_case :
  let w := toy_wrapper toy_names 3 no_degradation in
  let w := Wrapper nat three_rows (w_asoh nat w) (w_transients nat w) (w_inputs nat w) (asoh_inputs nat w) no_degradation
     reverse_operator (identity_operator nat) (identity_operator nat) 3 3 1 in
  exists a t tm y d, create_cell_model_inputs nat w two_states = Ok (a, t) /\
    (let! t' := snd (cm_update (cell_of nat w) toy_inputs toy_inputs t a) in to_numpy t') = Ok tm /\
    anrows tm <> 1 /\ anrows tm <> anrows two_states /\
    snd (cm_voltage (cell_of nat w) toy_inputs t a) = Ok y /\ deg_model nat w a toy_inputs t y = Ok d /\
    joint_update nat w two_states (mkArr 1 [[3]]) (mkArr 1 [[3]]) = Err ValueError.
Proof.
  cbn zeta. eexists. eexists. eexists. eexists. eexists.
  split; [vm_compute; reflexivity|]. split; [vm_compute; reflexivity|].
  split; [vm_compute; discriminate|]. split; [vm_compute; discriminate|].
  split; [vm_compute; reflexivity|]. split; [vm_compute; reflexivity|]. vm_compute. reflexivity.
Qed.
(** A model that forgets a state. *)
Definition two_columns : cell_model (container nat) (container nat) (hv nat) (container nat) :=
  {| cm_update := fun p n t a => (a, Ok [("q", Some (mkArr 2 [[1; 2]; [3; 4]]))]);
     cm_voltage := cm_voltage three_rows |}.
Example C99_wrong_width_case :
  let w := toy_wrapper toy_names 3 no_degradation in
  let w := Wrapper nat two_columns (w_asoh nat w) (w_transients nat w) (w_inputs nat w) (asoh_inputs nat w) no_degradation
     reverse_operator (identity_operator nat) (identity_operator nat) 3 3 1 in
  exists a t tm y d, create_cell_model_inputs nat w two_states = Ok (a, t) /\
    (let! t' := snd (cm_update (cell_of nat w) toy_inputs toy_inputs t a) in to_numpy t') = Ok tm /\
    acols tm <> 1 /\ acols tm <> num_transients nat w /\
    snd (cm_voltage (cell_of nat w) toy_inputs t a) = Ok y /\ deg_model nat w a toy_inputs t y = Ok d /\
    joint_update nat w two_states (mkArr 1 [[3]]) (mkArr 1 [[3]]) = Err ValueError.
Proof.
  cbn zeta. eexists. eexists. eexists. eexists. eexists.
  split; [vm_compute; reflexivity|]. split; [vm_compute; reflexivity|].
  split; [vm_compute; discriminate|]. split; [vm_compute; discriminate|].
  split; [vm_compute; reflexivity|]. split; [vm_compute; reflexivity|]. vm_compute. reflexivity.
Qed.

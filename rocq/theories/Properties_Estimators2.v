(** C101: what the filters inside the estimators are given. *)
From Coq Require Import String List Arith Bool Lia.
Import ListNotations.
From Verif Require Import Res Arr Arr_lemmas NdArray Container Names Health Simulator Distributions
  Wrappers Spec_Wrappers Estimators Spec_Estimators Wrappers_proofs Properties_Health Properties_Wrappers Properties_Estimators.
Local Open Scope string_scope.
Local Open Scope list_scope.
Local Open Scope nat_scope.

Section C101.
Variable A : Type.
Variable z : A.

(** The filter is certain of a vector that the conversion turns into the values of the
    container. *)
Definition converts_to (op : operator A) (v : rv A) (c : container A) : Prop :=
  exists x y, v = RDelta A x /\ op_samples A op (row A x) = Ok (row A y) /\ to_numpy c = Ok (row A y).

(** A container for a single cell, whose values can be converted. *)
Definition convertible (op : operator A) (c : container A) : Prop :=
  exists y, to_numpy c = Ok (row A y) /\ lossless A (List.length y) op.

Lemma convertible_spec op c : convertible op c -> exists x,
  (let! v := convert_vals_model_to_filter A c None in convert A op true v) = Ok (RDelta A x) /\ converts_to op (RDelta A x) c.
Proof.
  intros (y & Ey & _ & L). destruct (L (row A y)) as (j & Ej & Bj & Rj & Eb); [now apply batch_row|].
  assert (exists x, j = row A x) as [x ->].
  { destruct j as [c0 [|r [|? ?]]]; cbn in Rj; try discriminate. exists r. destruct Bj as (W & _ & C). unfold row.
    unfold wf_arr in W. cbn in *. apply Forall_inv in W. now rewrite W. }
  exists x. split; [|now exists x, y].
  unfold convert_vals_model_to_filter. rewrite Ey. cbn [bind arows row List.concat]. rewrite app_nil_r.
  rewrite new_delta_list. cbn [bind convert]. unfold on_vector. fold (row A y). rewrite Ej. cbn [bind arows row].
  now rewrite new_delta_list.
Qed.

(** A step of the joint estimator is a step of its filter, on the inputs and the
    measurements in the coordinates of the filter; the results are converted back. *)
Theorem C101_joint_step : forall F (K : filter A F) e inputs measurements,
  convertible (control_conversion A (j_wrapper A F e)) inputs ->
  convertible (output_conversion A (j_wrapper A F e)) measurements ->
  exists u y, converts_to (control_conversion A (j_wrapper A F e)) u inputs /\
    converts_to (output_conversion A (j_wrapper A F e)) y measurements /\
    let s := f_step A F K (j_wrapper A F e) (j_filter A F e) u y in
    let e' := fst (joint_step A F K e inputs measurements) in
    j_filter A F e' = snd (fst s) /\ w_asoh A (j_wrapper A F e') = fst (fst s) /\ j_base A F e' = j_base A F e /\
    snd (joint_step A F K e inputs measurements) =
      (let! (h, p) := snd s in
       let! h := convert A (hidden_conversion A (j_wrapper A F e)) false h in
       let! p := convert A (output_conversion A (j_wrapper A F e)) false p in Ok (h, p)).
Proof.
  intros F K e inputs measurements Cu Cy.
  destruct (convertible_spec _ _ Cu) as (x & Ex & Hx). destruct (convertible_spec _ _ Cy) as (x' & Ex' & Hx').
  exists (RDelta A x), (RDelta A x'). split; [exact Hx|]. split; [exact Hx'|]. cbn zeta.
  unfold joint_step. destruct (convert_vals_model_to_filter A inputs None) as [u0|]; [|discriminate].
  destruct (convert_vals_model_to_filter A measurements None) as [y0|]; [|discriminate]. cbn [bind] in *.
  rewrite Ex, Ex'. cbn [bind]. destruct (f_step A F K _ _ _ _) as [[a f] r]. now repeat split.
Qed.

(** A step of the dual estimator steps the filter of the transient state with the
    estimated health variable, then, if this succeeds, the filter of the health
    parameters with the transient state estimated before.  Both are given the inputs and
    the measurements, each in its own coordinates. *)
Theorem C101_dual_step : forall FT FA (KT : filter A FT) (KA : filter A FA) e inputs measurements t a,
  dual_estimated A FT FA KT KA e = Ok (t, a) ->
  let wc := with_asoh A (d_cell A FT FA e) a in
  let wd := with_transients A (d_asoh A FT FA e) t in
  convertible (control_conversion A wc) inputs -> convertible (output_conversion A wc) measurements ->
  convertible (control_conversion A wd) inputs -> convertible (output_conversion A wd) measurements ->
  exists u y u' y', converts_to (control_conversion A wc) u inputs /\ converts_to (output_conversion A wc) y measurements /\
    converts_to (control_conversion A wd) u' inputs /\ converts_to (output_conversion A wd) y' measurements /\
    let s := f_step A FT KT wc (d_tfilter A FT FA e) u y in
    let s' := f_step A FA KA wd (d_afilter A FT FA e) u' y' in
    let e' := fst (dual_step A z FT FA KT KA e inputs measurements) in
    d_tfilter A FT FA e' = snd (fst s) /\
    d_afilter A FT FA e' = (match snd s with Ok _ => snd (fst s') | Err _ => d_afilter A FT FA e end) /\
    snd (dual_step A z FT FA KT KA e inputs measurements) =
      (let! (h, p) := snd s in
       let! (h', p') := snd s' in
       let! h := convert A (hidden_conversion A wc) false h in
       let! h' := convert A (hidden_conversion A wd) false h' in
       let! p := convert A (output_conversion A wc) false p in
       let! _ := convert A (output_conversion A wd) false p' in
       let! all := combine_items A z h [IDist A h'] in Ok (all, p)).
Proof.
  intros FT FA KT KA e inputs measurements t a D wc wd C1 C2 C3 C4.
  destruct (convertible_spec _ _ C1) as (x1 & E1 & H1). destruct (convertible_spec _ _ C2) as (x2 & E2 & H2).
  destruct (convertible_spec _ _ C3) as (x3 & E3 & H3). destruct (convertible_spec _ _ C4) as (x4 & E4 & H4).
  exists (RDelta A x1), (RDelta A x2), (RDelta A x3), (RDelta A x4). do 4 (split; [assumption|]). cbn zeta.
  unfold dual_step. destruct (convert_vals_model_to_filter A inputs None) as [u0|]; [|discriminate].
  destruct (convert_vals_model_to_filter A measurements None) as [y0|]; [|discriminate]. cbn [bind] in *.
  rewrite D. cbn [bind]. fold wc. fold wd. rewrite E1, E2. cbn [bind].
  destruct (f_step A FT KT _ _ _ _) as [[a1 ft] [[h p]|x]]; cbn [fst snd bind]; [|now repeat split].
  rewrite E3, E4. cbn [bind].
  destruct (f_step A FA KA _ _ _ _) as [[a2 fa] [[h' p']|x]]; cbn [fst snd bind]; now repeat split.
Qed.
End C101.
Print Assumptions C101_joint_step.
Print Assumptions C101_dual_step.

(** * Cases *)

(** Coordinates in which the first three numbers are exchanged in a cycle. *)
Definition turn (x : nat) : nat := match x with 0 => 1 | 1 => 2 | 2 => 0 | n => n end.
Definition turn_back (x : nat) : nat := match x with 0 => 2 | 1 => 0 | 2 => 1 | n => n end.
Definition each (f : nat -> nat) (x : arr nat) : res (arr nat) := Ok (mkArr (acols x) (map (map f) (arows x))).
Definition turning : operator nat := Operator nat (each turn) (fun s _ => Ok s) (each turn_back) (fun s _ => Ok s).
Lemma lossless_turning n : lossless nat n turning.
Proof.
  assert (G : forall f g, (forall x, g (f x) = x) -> there_and_back nat n (each f) (each g)).
  { intros f g H x (W & R & C). eexists. split; [reflexivity|]. split; [split; [|split]|split].
    - unfold wf_arr in *. cbn. apply Forall_map. eapply Forall_impl; [|exact W]. intros r Hr. now rewrite map_length.
    - unfold anrows in *. cbn. now rewrite map_length.
    - exact C.
    - unfold anrows. cbn. now rewrite map_length.
    - unfold each. cbn. rewrite map_map. f_equal. destruct x as [c rs]. cbn. f_equal.
      rewrite <- (map_id rs) at 2. apply map_ext. intros r. rewrite map_map. rewrite <- (map_id r) at 2. now apply map_ext. }
  split; apply G; intros [|[|[|x]]]; reflexivity.
Qed.

(** A filter that remembers what it is given. *)
Definition recorder : filter nat (list nat) :=
  Filter nat (list nat) (fun f => RDelta nat f)
    (fun w f u y => (w_asoh nat w, mean_of nat u ++ mean_of nat y, Ok (RDelta nat f, u))).
Definition turned_wrapper : wrapper nat :=
  let w := toy_wrapper toy_names 3 no_degradation in
  Wrapper nat (cell_of nat w) (w_asoh nat w) (w_transients nat w) (w_inputs nat w) (asoh_inputs nat w) no_degradation
    turning turning (identity_operator nat) 3 3 1.
Definition one_amp : container nat := [("i", Some (mkArr 1 [[1]]))].
Example C101_joint_case : exists e, joint_estimator nat (list nat) turned_wrapper [1; 2; 3; 4; 5; 6] = Ok e /\
  convertible nat (control_conversion nat (j_wrapper nat _ e)) one_amp /\
  convertible nat (output_conversion nat (j_wrapper nat _ e)) measured /\
  j_filter nat _ (fst (joint_step nat _ recorder e one_amp measured)) = [0; 100] /\
  snd (joint_step nat _ recorder e one_amp measured) =
    Ok (RDelta nat [2; 0; 3; 4; 5; 6], RDelta nat [0]).
Proof.
  eexists. split; [reflexivity|]. split; [|split; [|split; reflexivity]].
  - exists [1]. split; [reflexivity|]. apply lossless_turning.
  - exists [100]. split; [reflexivity|]. apply lossless_identity.
Qed.
Example C101_dual_case : exists e t a, toy_dual (updatable_names ex) [31; 30; 21; 20; 11; 10; 7] = Ok e /\
  dual_estimated nat _ _ recorder adder e = Ok (t, a) /\
  convertible nat (control_conversion nat (with_asoh nat (d_cell nat _ _ e) a)) toy_inputs /\
  convertible nat (output_conversion nat (with_asoh nat (d_cell nat _ _ e) a)) measured /\
  convertible nat (control_conversion nat (with_transients nat (d_asoh nat _ _ e) t)) toy_inputs /\
  convertible nat (output_conversion nat (with_transients nat (d_asoh nat _ _ e) t)) measured.
Proof.
  do 3 eexists. split; [reflexivity|]. split; [reflexivity|].
  repeat split; try (exists [3]; split; [reflexivity|apply lossless_identity]); exists [100]; (split; [reflexivity|apply lossless_identity]).
Qed.

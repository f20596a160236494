(** C114: offline estimation from simulated data. *)
From Coq Require Import String List Arith Bool Reals Lia Lra.
Import ListNotations.
From Verif Require Properties_ECM_joint Interface_ECM_case.
From Verif Require Import Res Arr Arr_lemmas NdArray Container Spec_Container Container_proofs Health Spec_Health NdR Interp ECM Spec_ECM
  Simulator Spec_Simulator Properties_Simulator Interface Spec_Interface Offline Spec_Offline Offline_proofs Properties_Offline
  Batdata Properties_Batdata ECM_objects Spec_ECM_objects ECM_circuit Spec_Fit Fit_ECM.
Local Open Scope string_scope.
Local Open Scope list_scope.

Notation row_of x := (Offline.one_row x).

Lemma read_same is_finite x : with_temperature is_finite x -> as_read R is_finite 25%R x = given R x.
Proof. destruct x as [[tm i] T]. intros (v & E & F). cbn in E. subst T. unfold as_read. now rewrite F. Qed.
Lemma read_same_all is_finite l : Forall (with_temperature is_finite) l -> map (as_read R is_finite 25%R) l = map (given R) l.
Proof. induction 1 as [|x l H _ IH]; [reflexivity|]. cbn [map]. now rewrite read_same, IH. Qed.
Lemma read_known is_finite l : tempered is_finite l -> map (as_read R is_finite 25%R) l = map (fun x => given R (known x)) l.
Proof.
  intros [F|F]; induction F as [|x l H _ IH]; [reflexivity| |reflexivity|]; cbn [map]; rewrite IH; f_equal.
  - rewrite (read_same is_finite) by exact H. destruct x as [[tm i] T], H as (v & E & _). cbn in E. now subst T.
  - destruct x as [[tm i] T]. cbn in H. now subst T.
Qed.
Lemma known_all is_finite l : Forall (with_temperature is_finite) l -> map known l = l.
Proof. induction 1 as [|x l (T & E & _) _ IH]; [reflexivity|]. cbn [map]. rewrite IH. destruct x as [[tm i] T']. cbn in E. now subst T'. Qed.
Lemma tempered_uniform is_finite l : tempered is_finite l -> uniform R l.
Proof.
  intros [F|F]; [left|right]; intros x H; rewrite Forall_forall in F; [|now apply F]. destruct (F x H) as (v & -> & _). discriminate.
Qed.
Lemma all_uniform is_finite l : Forall (with_temperature is_finite) l -> uniform R l.
Proof. intros F. left. intros x H. rewrite Forall_forall in F. destruct (F x H) as (v & -> & _). discriminate. Qed.
Lemma terminal_single v : single (terminal v) v.
Proof. exists (mkArr 1 [[v]]). repeat split. Qed.
Lemma terminals_single vs : Forall2 single (map terminal vs) vs.
Proof. induction vs as [|v vs IH]; cbn [map]; constructor; auto using terminal_single. Qed.

(** ** C114. The data are those of a simulation of the true cell.  It has the health [a] and
    the state [t], which differ from the guesses only in the values that are estimated: h of
    the health and r of the state. *)
Section Fit.
Variable is_finite : R -> bool.
Variable nan : R.
Variable M : cmodel.
Variables (guess_a : hv R) (guess_t : container R) (h r : list R) (a : hv R) (t : container R).
Hypothesis true_health : update_parameters guess_a (V2 (row_of h)) (updatable_names guess_a) = (a, Ok tt).
Hypothesis true_state : make_copy guess_t (V2 (row_of r)) = t.
Hypothesis true_width : List.length r = clen guess_t.
(** A model of one cell. *)
Variables (healthy : hv R -> Prop) (shaped : container R -> Prop) (names : list string).
Hypothesis cell : one_cell R M no_degradation healthy shaped names.
Hypothesis start : healthy a /\ shaped t.
Hypothesis plain : forall nm, In nm names -> ~ In nm reserved.
(** The simulation, along rows that all have a finite temperature. *)
Variables (x0 : R * R * option R) (xs : list (R * R * option R)).
Hypothesis temps : Forall (with_temperature is_finite) (x0 :: xs).
Variables (s s' : sim (container R) (container R) (hv R) (container R)) (ys : list (container R)) (extra : bool).
Hypothesis starts : init M a t (given R x0) true = Ok s.
Hypothesis evolves : evolve M no_degradation s (map (given R) xs) = (s', Ok ys).
Variables (d : Interface.frame R) (ex : list string).
Hypothesis exported : to_batdata R nan s' extra = Ok [(d, ex)].
Let l : loss := Loss M guess_a guess_t (Some d).

Lemma voltages_of : exists vs, measurement s :: ys = map terminal vs /\ List.length vs = S (List.length xs) /\
  predicted M a t (given R x0) (map (given R) xs) vs.
Proof.
  assert (E := evolves). apply evolve_trajectory in E as (st & T & -> & _).
  assert (I := starts). unfold init in I. destruct (cm_voltage M (given R x0) t a) as [a0 [y0|]] eqn:V; [|discriminate].
  cbn [bind] in I. injection I as <-. cbn [asoh transient previous_input measurement] in *.
  destruct start as [Ha Ht]. destruct (oc_voltage R M no_degradation healthy shaped names cell _ _ _ _ _ Ha Ht V) as (Ha0 & v0 & ->).
  destruct (trajectory_states R M no_degradation healthy shaped names cell xs a0 t x0 st Ha0 Ht T) as (_ & Fo & Ls).
  assert (exists vs, map out_of st = map terminal vs) as (vs & Ev).
  { clear - Fo. induction Fo as [|y q (v & ->) _ (vs & IH)]; [now exists []|]. exists (v :: vs). cbn [map]. now rewrite IH. }
  exists (v0 :: vs). split; [cbn [map]; now rewrite Ev|]. split.
  - cbn. f_equal. apply (f_equal (@List.length _)) in Ev. rewrite !map_length in Ev. congruence.
  - exists a0, [("terminal_voltage", one R v0)], st. split; [exact V|]. split; [exact T|]. rewrite Ev.
    exact (terminals_single (v0 :: vs)).
Qed.

(** What is read from the exported data. *)
Lemma observed_rows : exists vs, measurement s :: ys = map terminal vs /\ List.length vs = S (List.length xs) /\
  predicted M a t (given R x0) (map (given R) xs) vs /\
  Forall2 (observed is_finite (f_columns R d)) (f_rows R d) (combine (map (given R) (x0 :: xs)) vs).
Proof.
  destruct voltages_of as (vs & Ev & Lv & P). exists vs. split; [exact Ev|]. split; [exact Lv|]. split; [exact P|].
  destruct start as [Ha Ht].
  destruct (C100_read_back R 0%R nan is_finite is_finite (fun _ => Ok 0%nat) 25%R M no_degradation healthy shaped a t x0 xs names s s' ys extra cell Ha Ht plain
    (all_uniform is_finite _ temps) starts evolves) as (d' & ex' & Ed & _ & _ & Hr).
  rewrite exported in Ed. injection Ed as <- <-.
  rewrite (read_same_all is_finite _ temps), Ev in Hr.
  revert Hr. generalize (f_rows R d) (map (given R) (x0 :: xs)) vs. clear.
  intros rs. induction rs as [|row rows IH]; intros us vs H; cbn in H.
  - destruct us as [|u us], vs as [|v vs]; try discriminate; constructor.
  - apply bind_ok in H as ([u y] & Hu & H). apply bind_ok in H as (rest & Hrest & H). injection H as H.
    destruct us as [|u' us], vs as [|v vs]; try discriminate. cbn [map combine] in H. injection H as <- -> ->.
    cbn [combine]. constructor; [|now apply IH].
    apply row_inputs in Hu as (v' & Ho & E). unfold terminal, one, scalar in E. injection E as ->. exact Ho.
Qed.

Lemma combine_fst {A B} (us : list A) : forall vs : list B, List.length vs = List.length us -> map fst (combine us vs) = us.
Proof. induction us as [|u us IH]; intros [|v vs] L; try discriminate; cbn; [reflexivity|]. f_equal. apply IH. now injection L. Qed.
Lemma combine_snd {A B} (us : list A) : forall vs : list B, List.length vs = List.length us -> map snd (combine us vs) = vs.
Proof. induction us as [|u us IH]; intros [|v vs] L; try discriminate; cbn; [reflexivity|]. f_equal. apply IH. now injection L. Qed.

(** The comparison of the data with the cell of any vector. *)
Lemma compared_vector x obs ws : compared is_finite l (row_of x) obs ws ->
  exists b, update_parameters guess_a (V2 (health_part (clen guess_t) (row_of x))) (updatable_names guess_a) = (b, Ok tt) /\
    predicted M b (make_copy guess_t (V2 (state_part (clen guess_t) (row_of x)))) (given R x0) (map (given R) xs) ws /\
    map terminal obs = measurement s :: ys.
Proof.
  intros (raw & rows & b & first & later & E1 & E2 & E3 & F & P & ->). cbn [l_data l] in E1. injection E1 as <-. subst rows.
  destruct observed_rows as (vs & Ev & Lv & _ & F2).
  assert (D : forall rows us vs', Forall2 (observed is_finite (f_columns R d)) rows us -> Forall2 (observed is_finite (f_columns R d)) rows vs' -> us = vs').
  { clear. induction rows as [|row rows IH]; intros us vs' A B; inversion A as [|? u ? us' A1 A2]; subst; inversion B as [|? v ? ws B1 B2]; subst; [reflexivity|].
    f_equal; [|now apply IH]. destruct u as [u w], v as [u' w']. destruct A1 as [(y & E) R1], B1 as [(y' & E') R2]. cbn [fst snd] in *.
    rewrite E in E'. injection E' as <- <-. f_equal. apply (row_inputs is_finite) in E as (v & [_ Rv] & _). cbn [snd] in Rv.
    unfold reads in *. apply Interface_proofs.cell_reads in R1, R2. congruence. }
  assert (E := D _ _ _ F F2).
  assert (Lc : List.length vs = List.length (map (given R) (x0 :: xs))) by (now rewrite map_length).
  exists b. split; [exact E3|]. split.
  - apply (f_equal (map fst)) in E. rewrite combine_fst in E by exact Lc. cbn [map] in E. injection E as <- <-. exact P.
  - rewrite E, combine_snd by exact Lc. now symmetry.
Qed.

Lemma truth_parts : state_part (clen guess_t) (row_of (r ++ h)) = row_of r /\ health_part (clen guess_t) (row_of (r ++ h)) = row_of h.
Proof.
  unfold state_part, health_part, Offline.one_row. cbn [acols arows map].
  rewrite app_length, <- true_width, firstn_app, skipn_app, Nat.sub_diag, firstn_O, firstn_all, skipn_all, app_nil_r. cbn [skipn app].
  split; f_equal; lia.
Qed.

(** The loss of the true values is zero, ... *)
Theorem C114_truth_has_no_loss : mean_squared_loss is_finite l (row_of (r ++ h)) = Ok [0%R].
Proof.
  destruct observed_rows as (vs & Ev & Lv & P & F).
  assert (Lc : List.length vs = List.length (map (given R) (x0 :: xs))) by (now rewrite map_length).
  destruct truth_parts as [P1 P2].
  assert (C : compared is_finite l (row_of (r ++ h)) vs vs).
  { destruct vs as [|v vs]; [discriminate|]. cbn [map combine] in F.
    exists d, (f_rows R d), a, (given R x0, v), (combine (map (given R) xs) vs).
    cbn [l_data l_asoh l_state l_model l]. split; [reflexivity|]. split; [reflexivity|]. split; [rewrite P2; exact true_health|].
    split; [exact F|]. cbn [fst snd]. rewrite combine_fst by (rewrite map_length in *; cbn in Lc; lia). split.
    - rewrite P1, true_state. exact P.
    - cbn [map snd]. f_equal. rewrite combine_snd; [reflexivity|]. rewrite map_length in *. cbn in Lc. lia. }
  destruct (C72_one_vector is_finite l (row_of (r ++ h)) vs vs) as (v & E & _ & _ & _ & Z); [repeat constructor|reflexivity|exact C|].
  rewrite E. now rewrite (proj2 Z eq_refl).
Qed.

(** ... no other values have a smaller one, ... *)
Theorem C114_truth_minimises :
  minimises (fun x => let! v := mean_squared_loss is_finite l (row_of x) in item v) (r ++ h).
Proof.
  exists 0%R. split; [rewrite C114_truth_has_no_loss; reflexivity|].
  intros y w H. apply bind_ok in H as (v & Hv & H). destruct v as [|v [|]]; try discriminate. injection H as ->.
  assert (Hv' := Hv). apply C72_value in Hv as (obs & vs & C & E); [|repeat constructor].
  destruct (C72_one_vector is_finite l (row_of y) obs vs) as (v & E' & _ & _ & P & _); [repeat constructor|reflexivity|exact C|].
  rewrite Hv' in E'. injection E' as ->. exact P.
Qed.

(** ... and an optimiser that finds a minimum wherever there is one is answered by a cell
    that has the voltages of the true one. *)
Theorem C114_estimate : forall opt e_t e_a,
  (forall g x x', opt g x = Ok x' -> (exists z, minimises g z) -> minimises g x') ->
  estimate l (mean_squared_loss is_finite l) opt = Ok (e_t, e_a) ->
  exists vs, measurement s :: ys = map terminal vs /\ predicted M e_a e_t (given R x0) (map (given R) xs) vs.
Proof.
  intros opt e_t e_a Ho E. apply C74_estimate in E as (z0 & y0 & z & Hx & Hy & Hz & -> & Ha).
  apply Ho in Hz; [|exists (r ++ h); apply C74_same_minimisers, C114_truth_minimises].
  apply C74_same_minimisers in Hz as (v & Hv & Mv).
  assert (V0 : v = 0%R).
  { apply Rle_antisym.
    - apply (Mv (r ++ h)). rewrite C114_truth_has_no_loss. reflexivity.
    - destruct C114_truth_minimises as (w & Hw & Mw). rewrite C114_truth_has_no_loss in Hw. injection Hw as <-. exact (Mw z v Hv). }
  subst v. apply bind_ok in Hv as (v & Hv & H). destruct v as [|v [|]]; try discriminate. injection H as ->.
  assert (Hv' := Hv). apply C72_value in Hv as (obs & vs & C & _); [|repeat constructor].
  destruct (C72_one_vector is_finite l (row_of z) obs vs) as (v & E' & _ & _ & _ & Z); [repeat constructor|reflexivity|exact C|].
  rewrite Hv' in E'. injection E' as <-. apply proj1 in Z. specialize (Z eq_refl). subst obs.
  destruct (compared_vector z vs vs C) as (b & Hb & P & Et). exists vs. split; [now symmetry|].
  cbn [l_asoh l_state l] in Ha. rewrite Ha in Hb. injection Hb as <-. exact P.
Qed.
End Fit.
Print Assumptions C114_truth_has_no_loss.
Print Assumptions C114_truth_minimises.
Print Assumptions C114_estimate.

(** ** The equivalent circuit model.  Any simulation of one usable circuit succeeds, the data
    are the voltages of its equations, and fitting them works as above. *)
Section Circuit.
Variable is_finite : R -> bool.
Variable nan : R.
Variable spline : nat -> list R -> res (list R -> R -> R).
Variable X : settings.
Variable mode : behavior.
Notation M := (ecm_cell spline X mode).

Lemma circuit_names_plain capacitor n nm : In nm (circuit_names capacitor n) -> ~ In nm reserved.
Proof.
  unfold circuit_names, state_with. cbn [xsoc xq xi xh].
  assert (B : forall i, ~ In (Names.indexed "i_rc" i) reserved).
  { intros i H. pose proof (Names_lemmas.indexed_has_bracket "i_rc" i) as K. unfold reserved in H. cbn [In] in H.
    repeat (destruct H as [H|H]; [rewrite <- H in K; cbn in K; repeat (destruct K as [K|K]; [discriminate|]); exact K|]). exact H. }
  assert (N : In nm (names_of_field "i_rc" (mkArr (List.length (repeat 0%R n)) [repeat 0%R n])) -> ~ In nm reserved).
  { unfold names_of_field. cbn [acols]. destruct (Nat.eqb _ 1).
    - intros [<-|[]]. cbn. intuition discriminate.
    - intros H. apply in_map_iff in H as (i & <- & _). apply B. }
  destruct capacitor; cbn [names_present one]; rewrite ?in_app_iff; intros H;
    repeat (destruct H as [H|H]; [try (now apply N); destruct H as [<-|[]]; cbn; intuition discriminate|]); contradiction.
Qed.

Notation cell_of_circuit e := (Spec_ECM.cell_of spline e 0).
(** Simulating a circuit and exporting its data. *)
Lemma simulated_circuit : forall a e s x0 xs extra,
  circuit_of X a e -> asoh_ok 1 e -> usable_asoh spline e ->
  List.length (xi s) = List.length (rcs e) -> (xq s <> None -> c0 e <> None) ->
  tempered is_finite (x0 :: xs) ->
  (mode = Linear -> distinct_times (numbers x0) (map numbers xs)) ->
  let vs := circuit_voltages mode (cell_of_circuit e) s (numbers x0) (map numbers xs) in
  exists sim sim' ys d ex,
    init M a (state_with s) (given R x0) true = Ok sim /\
    evolve M no_degradation sim (map (given R) xs) = (sim', Ok ys) /\
    to_batdata R nan sim' extra = Ok [(d, ex)] /\
    measurement sim :: ys = map terminal vs /\
    (forall nm, In nm (f_columns R d) -> nm <> "cycle_number") /\
    Forall (fun row => List.length row = List.length (f_columns R d)) (f_rows R d) /\
    mapM (fun row => row_to_inputs R is_finite (f_columns R d) row 25%R) (f_rows R d)
      = Ok (combine (map (fun x => given R (known x)) (x0 :: xs)) (map terminal vs)).
Proof.
  intros a e s x0 xs extra Ca Oa Ua Ln HC HT HD vs. apply circuit_read in Ca.
  set (capacitor := is_some (xq s)). set (n := List.length (rcs e)).
  pose proof (ecm_one_cell spline X mode capacitor n) as OC.
  assert (Ha : circuit_health X n a) by (exists e; auto).
  assert (Hs : circuit_state capacitor n (state_with s)) by (exists s; split; [split; auto|reflexivity]).
  destruct (cell_voltage_total spline X mode x0 s a e Ca Oa Ua Ln HC) as (a0 & y0 & V).
  destruct (cell_voltage spline X mode x0 s a a0 y0 e Ca Oa Ln V) as (Ea0 & Ey).
  set (e0 := after_voltage (input_with x0) (ecm_with s) e) in *.
  assert (L0 : List.length (xi s) = List.length (rcs e0)) by (unfold e0; now rewrite ECM_batch.length_rcs_voltage).
  assert (C0 : xq s <> None -> c0 e0 <> None).
  { intros H. specialize (HC H). unfold e0. cbn [after_voltage c0]. destruct (q0 (ecm_with s)); [|exact HC]. destruct (c0 e); [discriminate|contradiction]. }
  destruct (cell_trajectory spline X mode xs x0 s a0 e0 Ea0 (ECM_batch.asoh_after_voltage 1 _ _ e Oa) (ECM_total.usable_voltage spline _ _ e Ua) L0 C0 HD) as (st & T & Eo).
  unfold e0 in Eo. rewrite ECM_batch.cell_after_voltage in Eo.
  set (sim := {| transient := state_with s; asoh := a0; previous_input := given R x0; measurement := y0;
    hist := Some {| h_input := [given R x0]; h_transient := [state_with s]; h_asoh := [a0]; h_output := [y0] |} |}).
  assert (I : init M a (state_with s) (given R x0) true = Ok sim) by (unfold init; now rewrite V).
  destruct (C18_trajectory_is_followed _ _ _ _ M no_degradation (map (given R) xs) st a0 (state_with s) (given R x0) sim T eq_refl eq_refl eq_refl) as (sim' & Ev).
  pose proof (circuit_names_plain capacitor n) as Pl.
  destruct (C100_read_back R 0%R nan is_finite is_finite (fun _ => Ok 0%nat) 25%R M no_degradation (circuit_health X n) (circuit_state capacitor n) a (state_with s) x0 xs _ sim sim' _ extra OC Ha Hs Pl
    (tempered_uniform is_finite _ HT) I Ev) as (d & ex & Ed & Nc & Fr & Hr).
  assert (Em : measurement sim :: map out_of st = map terminal vs).
  { cbn [measurement sim]. rewrite Ey, Eo. reflexivity. }
  exists sim, sim', (map out_of st), d, ex. split; [exact I|]. split; [exact Ev|]. split; [exact Ed|]. split; [exact Em|].
  split; [exact Nc|]. split; [exact Fr|]. rewrite (read_known is_finite _ HT), Em in Hr. exact Hr.
Qed.
Theorem C114_circuit : forall a e s x0 xs extra,
  circuit_of X a e -> asoh_ok 1 e -> usable_asoh spline e ->
  List.length (xi s) = List.length (rcs e) -> (xq s <> None -> c0 e <> None) ->
  Forall (with_temperature is_finite) (x0 :: xs) ->
  (mode = Linear -> distinct_times (numbers x0) (map numbers xs)) ->
  let vs := circuit_voltages mode (cell_of_circuit e) s (numbers x0) (map numbers xs) in
  exists sim sim' ys d ex,
    init M a (state_with s) (given R x0) true = Ok sim /\
    evolve M no_degradation sim (map (given R) xs) = (sim', Ok ys) /\
    to_batdata R nan sim' extra = Ok [(d, ex)] /\
    (* the data are the voltages of the equations *)
    mapM (fun row => row_to_inputs R is_finite (f_columns R d) row 25%R) (f_rows R d)
      = Ok (combine (map (given R) (x0 :: xs)) (map terminal vs)) /\
    (* the guesses differ from the truth in the estimated values *)
    forall guess_a guess_t h r,
      update_parameters guess_a (V2 (row_of h)) (updatable_names guess_a) = (a, Ok tt) ->
      make_copy guess_t (V2 (row_of r)) = state_with s -> List.length r = clen guess_t ->
      let l := Loss M guess_a guess_t (Some d) in
      mean_squared_loss is_finite l (row_of (r ++ h)) = Ok [0%R] /\
      minimises (fun x => let! v := mean_squared_loss is_finite l (row_of x) in item v) (r ++ h) /\
      forall opt e_t e_a, (forall g x x', opt g x = Ok x' -> (exists z, minimises g z) -> minimises g x') ->
        estimate l (mean_squared_loss is_finite l) opt = Ok (e_t, e_a) ->
        predicted M e_a e_t (given R x0) (map (given R) xs) vs.
Proof.
  intros a e s x0 xs extra Ca Oa Ua Ln HC HT HD vs.
  destruct (simulated_circuit a e s x0 xs extra Ca Oa Ua Ln HC (or_introl HT) HD) as (sim & sim' & ys & d & ex & I & Ev & Ed & Em & _ & _ & Hr).
  rewrite <- (map_map known (given R)), (known_all is_finite _ HT) in Hr.
  fold vs in Em, Hr. apply circuit_read in Ca.
  set (capacitor := is_some (xq s)). set (n := List.length (rcs e)).
  pose proof (ecm_one_cell spline X mode capacitor n) as OC.
  assert (Ha : circuit_health X n a) by (exists e; auto).
  assert (Hs : circuit_state capacitor n (state_with s)) by (exists s; split; [split; auto|reflexivity]).
  pose proof (circuit_names_plain capacitor n) as Pl.
  exists sim, sim', ys, d, ex. split; [exact I|]. split; [exact Ev|]. split; [exact Ed|]. split; [exact Hr|].
  intros guess_a guess_t h r Hh Hr' Lr l. split; [|split].
  - exact (C114_truth_has_no_loss is_finite nan M guess_a guess_t h r a (state_with s) Hh Hr' Lr _ _ _ OC (conj Ha Hs) Pl x0 xs HT sim sim' _ extra I Ev d ex Ed).
  - exact (C114_truth_minimises is_finite nan M guess_a guess_t h r a (state_with s) Hh Hr' Lr _ _ _ OC (conj Ha Hs) Pl x0 xs HT sim sim' _ extra I Ev d ex Ed).
  - intros opt e_t e_a Ho Es.
    destruct (C114_estimate is_finite nan M guess_a guess_t h r a (state_with s) Hh Hr' Lr _ _ _ OC (conj Ha Hs) Pl x0 xs HT sim sim' _ extra I Ev d ex Ed opt e_t e_a Ho Es)
      as (ws & Ew & P).
    replace vs with ws; [exact P|]. rewrite Em in Ew. clear - Ew. revert ws Ew. generalize vs.
    induction vs0 as [|v vs0 IH]; intros [|w ws] E; try discriminate; [reflexivity|]. cbn [map] in E. injection E as <- E. f_equal. now apply IH.
Qed.
End Circuit.
Print Assumptions C114_circuit.

(** The cell of [Properties_ECM_joint.Concrete], whose current is 1 A.  It is guessed with
    another series resistance, and at another state of charge. *)
Module Concrete.
Import Interface_ECM_case Properties_ECM_joint.Concrete.
Definition guessed_cell : hv R :=
  HV false ["r0"; "ce"; "rc_elements"]
    [("q_t", FSub (HV false [] [("base_values", row1 [10%R])]));
     ("ce", row1 [1%R]);
     ("ocv", FSub (HV false [] [("ocv_ref", FSub (curve [] [3%R; 4%R] [("reference_temperature", row1 [25%R])]));
                                ("ocv_ent", FSub (curve [] [0%R] []))]));
     ("r0", FSub (resistor 5%R));
     ("c0", FOther);
     ("rc_elements", FTuple [element 1%R; element 2%R]);
     ("h0", FSub (curve [] [0%R] [("gamma", row1 [50%R])]))].
Definition guessed_state : cstate := {| xsoc := (1/2)%R; xq := None; xi := [0; 0]%R; xh := 0%R |}.
Definition true_state : cstate := {| xsoc := (1/4)%R; xq := None; xi := [0; 0]%R; xh := 0%R |}.
Definition rows : list (R * R * option R) := [(0, 1, Some 25); (60, 1, Some 26); (120, 1, Some 27)]%R.

Lemma circuit_of_tree : exists e, circuit_of X tree e /\ asoh_ok 1 e /\ usable_asoh no_spline e /\ List.length (rcs e) = 2%nat.
Proof.
  destruct warm_cell as (e & OC & _ & L). exists e. split; [apply OC|]. split; [apply OC|]. split; [apply OC|exact L].
Qed.
Example C114_case :
  exists e, circuit_of X tree e /\ asoh_ok 1 e /\ usable_asoh no_spline e /\
  List.length (xi true_state) = List.length (rcs e) /\ (xq true_state <> None -> c0 e <> None) /\
  Forall (with_temperature (fun _ => true)) rows /\
  distinct_times (numbers (0, 1, Some 25)%R) (map numbers (tl rows)) /\
  update_parameters guessed_cell (V2 (row_of [1; 2; 1; 2]%R)) (updatable_names guessed_cell) = (tree, Ok tt) /\
  make_copy (state_with guessed_state) (V2 (row_of [1/4; 0; 0; 0]%R)) = state_with true_state /\
  List.length [1/4; 0; 0; 0]%R = clen (state_with guessed_state).
Proof.
  destruct circuit_of_tree as (e & C & O & U & L). exists e. split; [exact C|]. split; [exact O|]. split; [exact U|]. split; [now rewrite L|].
  split; [intros H; now destruct H|]. split; [|split; [|split; [reflexivity|split; reflexivity]]].
  - repeat constructor; eexists; split; reflexivity.
  - cbn. lra.
Qed.
End Concrete.

(** C93-C96: writing parameters and states as JSON text and reading them back. *)
From Coq Require Import String List Arith Bool Lia Reals Lra.
Import ListNotations.
From Verif Require Names Properties_Health.
From Verif Require Import Properties_ECM ECM_total.
From Verif Require Import Res Arr NdArray NdArray_proofs Container Health Json Spec_Json Json_proofs Json_classes Json_objects.
From Verif Require Import NdR Interp Simulator ECM Spec_ECM.
Local Open Scope string_scope.
Local Open Scope nat_scope.

(** * C93: what was written is what is read *)

(** For every class and every object of it. *)
Theorem C93_round_trip : forall A (nonneg : A -> bool) (c : cls A) (o : obj A),
  instance nonneg c o -> exists j, dump c o = Ok j /\ load nonneg c j = Ok o.
Proof. intros A nn c o I. destruct (round_trip nn c o I) as (j & ? & ? & _). eauto. Qed.

(** For every equivalent circuit with consistent shapes, whose hysteresis rate is one
    non-negative number and whose SOC grids are not set, whatever is updatable. *)
Theorem C93_circuit : forall (u : string -> list string) (B : nat) (a : ecm_asoh),
  (forall p, NoDup (u p)) -> 0 < B -> asoh_ok B a ->
  one_nonnegative (hys_gamma (h0 a)) -> no_grids a ->
  exists j, dump (ECMASOH fracR) (asoh_obj u a) = Ok j /\ load nonnegR (ECMASOH fracR) j = Ok (asoh_obj u a).
Proof. intros. eapply C93_round_trip, asoh_instance; eauto. Qed.

(** For every state of a circuit. *)
Theorem C93_state : forall (B n : nat) (s : ecm_state), 0 < B -> state_ok B n s ->
  exists j, dump (ECMTransientVector fracR) (state_obj s) = Ok j /\
            load nonnegR (ECMTransientVector fracR) j = Ok (state_obj s).
Proof. intros. eapply C93_round_trip, state_instance; eauto. Qed.

(** The object determines every entry of the arrays. *)
Lemma app_eq_len {X} (a b c d : list X) : List.length a = List.length c -> (a ++ b = c ++ d)%list -> a = c /\ b = d.
Proof.
  revert c. induction a as [|x a IH]; intros [|y c] L E; try discriminate; cbn in *; auto.
  injection E as -> E. destruct (IH c ltac:(lia) E) as [-> ->]. auto.
Qed.
Theorem C93_entries : forall x y : t2, t2_nd x = t2_nd y ->
  r2 x = r2 y /\ c2 x = c2 y /\ forall i j, i < r2 x -> j < c2 x -> a2 x i j = a2 y i j.
Proof.
  intros x y [= Er Ec E]. repeat split; auto. intros i j Hi Hj. rewrite <- Er, <- Ec in E. clear Er Ec.
  assert (G : forall l, flat_map (fun i => map (a2 x i) (seq 0 (c2 x))) l = flat_map (fun i => map (a2 y i) (seq 0 (c2 x))) l ->
            forall i, List.In i l -> map (a2 x i) (seq 0 (c2 x)) = map (a2 y i) (seq 0 (c2 x))).
  { induction l as [|k t IH]; cbn; intros H q I; [destruct I|].
    apply app_eq_len in H as [H1 H2]; [|now rewrite !map_length]. destruct I as [<-|I]; auto. }
  specialize (G _ E i). assert (I : List.In i (seq 0 (r2 x))) by (apply in_seq; lia). specialize (G I).
  assert (N := f_equal (fun l => nth j l 0%R) G). cbn in N.
  rewrite !(nth_indep _ 0%R (a2 x i 0)) in N by (rewrite map_length, seq_length; lia).
  rewrite map_nth in N. rewrite (nth_indep _ (a2 x i 0) (a2 y i 0)) in N by (rewrite map_length, seq_length; lia).
  rewrite map_nth, seq_nth in N by lia. exact N.
Qed.

(** Two arrays, circuits and states with the same shapes, entries and settings. *)
Definition same2 (x y : t2) : Prop := r2 x = r2 y /\ c2 x = c2 y /\ forall i j, i < r2 x -> j < c2 x -> a2 x i j = a2 y i j.
Definition same_option {X} (same : X -> X -> Prop) (x y : option X) : Prop :=
  match x, y with Some a, Some b => same a b | None, None => True | _, _ => False end.
Definition same_interpolated (x y : sih) : Prop :=
  same2 (sv x) (sv y) /\ spin x = spin y /\ style_name (sstyle x) = style_name (sstyle y).
Definition same_resistance (x y : resistance) : Prop :=
  same_interpolated (res_sih x) (res_sih y) /\ res_tref x = res_tref y /\ same2 (res_fac x) (res_fac y).
Definition same_circuit (a b : ecm_asoh) : Prop :=
  same2 (q_base (q_t a)) (q_base (q_t b)) /\ same2 (ce a) (ce b) /\
  same_interpolated (ocv_ref (oc a)) (ocv_ref (oc b)) /\ same2 (ocv_tref (oc a)) (ocv_tref (oc b)) /\
  same_interpolated (ocv_ent (oc a)) (ocv_ent (oc b)) /\
  same_resistance (r0 a) (r0 b) /\ same_option same_interpolated (c0 a) (c0 b) /\
  Forall2 (fun x y => same_resistance (rc_r x) (rc_r y) /\ same_interpolated (rc_c x) (rc_c y)) (rcs a) (rcs b) /\
  same_interpolated (hys_sih (h0 a)) (hys_sih (h0 b)) /\ same2 (hys_gamma (h0 a)) (hys_gamma (h0 b)).
Definition same_state (s s' : ecm_state) : Prop :=
  same2 (soc s) (soc s') /\ same_option same2 (q0 s) (q0 s') /\ same2 (i_rc s) (i_rc s') /\ same2 (hyst s) (hyst s').

Definition part (key : string) (o : obj R) : option (value R) := assoc key (obj_fields o).
Lemma arr_same x y : Some (VArr (t2_nd x)) = Some (VArr (t2_nd y) : value R) -> same2 x y.
Proof. intros E. apply C93_entries. congruence. Qed.
Lemma sub_same (x y : obj R) : Some (VSub x) = Some (VSub y : value R) -> x = y.
Proof. congruence. Qed.
Lemma interpolated_same o o' x y rest rest' : obj_fields o = (sih_fields x ++ rest)%list -> obj_fields o' = (sih_fields y ++ rest')%list ->
  o = o' -> same_interpolated x y.
Proof.
  intros F F' ->. rewrite F in F'. assert (E : forall k, assoc k (sih_fields x ++ rest)%list = assoc k (sih_fields y ++ rest')%list) by (intros; congruence).
  split; [exact (arr_same _ _ (E "base_values"))|]. split.
  - assert (E2 := E "soc_pinpoints"). cbn in E2. destruct (spin x) as [g|], (spin y) as [h|]; try discriminate; [|reflexivity].
    injection E2 as _ ->. reflexivity.
  - assert (E3 := E "interpolation_style"). cbn in E3. congruence.
Qed.
Lemma resistance_same u p u' p' x y : resistance_obj u p x = resistance_obj u' p' y -> same_resistance x y.
Proof.
  intros E. split; [eapply interpolated_same; [| |exact E]; reflexivity|]. split.
  - assert (E1 := f_equal (part "reference_temperature") E). cbn in E1. destruct (res_tref x), (res_tref y); congruence.
  - apply arr_same. exact (f_equal (part "temperature_dependence_factor") E).
Qed.
Lemma capacitance_same u p u' p' x y : capacitance_obj u p x = capacitance_obj u' p' y -> same_interpolated x y.
Proof. intros E. eapply (interpolated_same _ _ _ _ [] []); [| |exact E]; reflexivity. Qed.

(** Circuits written as the same text are the same. *)
Theorem C93_circuit_determined : forall (u u' : string -> list string) (B B' : nat) (a a' : ecm_asoh) j,
  (forall p, NoDup (u p)) -> 0 < B -> asoh_ok B a -> one_nonnegative (hys_gamma (h0 a)) -> no_grids a ->
  (forall p, NoDup (u' p)) -> 0 < B' -> asoh_ok B' a' -> one_nonnegative (hys_gamma (h0 a')) -> no_grids a' ->
  dump (ECMASOH fracR) (asoh_obj u a) = Ok j -> dump (ECMASOH fracR) (asoh_obj u' a') = Ok j -> same_circuit a a'.
Proof.
  intros u u' B B' a a' j N1 P1 A1 G1 H1 N2 P2 A2 G2 H2 D1 D2.
  destruct (C93_circuit u B a N1 P1 A1 G1 H1) as (j1 & E1 & L1). destruct (C93_circuit u' B' a' N2 P2 A2 G2 H2) as (j2 & E2 & L2).
  assert (j1 = j) by congruence. assert (j2 = j) by congruence. subst j1 j2. rewrite L1 in L2. assert (E : asoh_obj u a = asoh_obj u' a') by congruence.
  clear -E. assert (F := fun key => f_equal (part key) E). clear E.
  assert (Q := sub_same _ _ (F "q_t")). assert (O := sub_same _ _ (F "ocv")). assert (R0 := sub_same _ _ (F "r0")). assert (H := sub_same _ _ (F "h0")).
  assert (O1 := sub_same _ _ (f_equal (part "ocv_ref") O)). assert (O2 := sub_same _ _ (f_equal (part "ocv_ent") O)).
  split; [exact (arr_same _ _ (f_equal (part "base_values") Q))|].
  split; [exact (arr_same _ _ (F "ce"))|].
  split; [eapply interpolated_same; [| |exact O1]; reflexivity|].
  split; [exact (arr_same _ _ (f_equal (part "reference_temperature") O1))|].
  split; [eapply (interpolated_same _ _ _ _ [] []); [| |exact O2]; reflexivity|].
  split; [exact (resistance_same _ _ _ _ _ _ R0)|].
  split.
  { assert (C := F "c0"). cbn in C. destruct (c0 a) as [x|], (c0 a') as [y|]; try discriminate; [|exact I].
    exact (capacitance_same _ _ _ _ _ _ (sub_same _ _ C)). }
  split.
  { assert (T := F "rc_elements"). cbn in T. assert (T' : rc_objs u 0 (rcs a) = rc_objs u' 0 (rcs a')) by congruence. clear -T'.
    revert T'. generalize 0 as i. generalize (rcs a') as l'. induction (rcs a) as [|x l IH]; intros [|y l'] i T; try discriminate; constructor.
    - assert (E : rc_obj u ("rc_elements." ++ Names.nat_str i) x = rc_obj u' ("rc_elements." ++ Names.nat_str i) y) by (cbn [rc_objs] in T; congruence).
      split; [exact (resistance_same _ _ _ _ _ _ (sub_same _ _ (f_equal (part "r") E)))|
              exact (capacitance_same _ _ _ _ _ _ (sub_same _ _ (f_equal (part "c") E)))].
    - apply (IH _ (S i)). cbn [rc_objs] in T. congruence. }
  split; [eapply interpolated_same; [| |exact H]; reflexivity|].
  exact (arr_same _ _ (f_equal (part "gamma") H)).
Qed.

(** States written as the same text are the same. *)
Theorem C93_state_determined : forall (B B' n n' : nat) (s s' : ecm_state) j, 0 < B -> state_ok B n s -> 0 < B' -> state_ok B' n' s' ->
  dump (ECMTransientVector fracR) (state_obj s) = Ok j -> dump (ECMTransientVector fracR) (state_obj s') = Ok j -> same_state s s'.
Proof.
  intros B B' n n' s s' j P1 A1 P2 A2 D1 D2.
  destruct (C93_state B n s P1 A1) as (j1 & E1 & L1). destruct (C93_state B' n' s' P2 A2) as (j2 & E2 & L2).
  assert (j1 = j) by congruence. assert (j2 = j) by congruence. subst j1 j2. rewrite L1 in L2. assert (E : state_obj s = state_obj s') by congruence.
  clear -E. assert (F := fun key => f_equal (part key) E). clear E.
  split; [exact (arr_same _ _ (F "soc"))|]. split; [|split; [exact (arr_same _ _ (F "i_rc"))|exact (arr_same _ _ (F "hyst"))]].
  assert (C := F "q0"). cbn [part state_obj obj_fields assoc String.eqb Ascii.eqb Bool.eqb] in C.
  destruct (q0 s) as [x|], (q0 s') as [y|]; try discriminate; [|exact I]. exact (arr_same _ _ C).
Qed.

(** A text is accepted for a parameter exactly if it describes an array, with the same number
    of entries in all parts of each list; then its entries are those of the text. *)
Theorem C93_texts : forall A dim (j : json A) x, load_param dim j = Ok x <->
  exists shape d, describes j shape d /\ enforce_dimensions (mkNd shape d) dim = Ok x.
Proof.
  intros A dim j x. assert (G : forall (j : json A) y, np_array j = Ok y <-> describes j (nshape y) (ndata y)).
  { clear. fix IH 1. intros j y. destruct j as [|a|s|l|fs]; cbn [np_array]; try (split; [discriminate|intros D; inversion D]).
    - split; [intros [= <-]; constructor|]. intros D. destruct y as [sh d]. cbn in D. inversion D. reflexivity.
    - assert (M : forall ys, mapR np_array l = Ok ys <-> Forall2 (fun j y => describes j (nshape y) (ndata y)) l ys).
      { induction l as [|h t IHl]; intros ys; cbn.
        - split; [intros [= <-]; constructor|intros F; inversion F; reflexivity].
        - destruct (np_array h) as [z|e] eqn:Ez; cbn.
          + destruct (mapR np_array t) as [zs|e] eqn:Et; cbn.
            * split; [intros [= <-]; constructor; [now apply IH|now apply IHl]|].
              intros F. inversion F as [|? ? ? ? D F' ]; subst. apply IH in D. apply IHl in F'. congruence.
            * split; [discriminate|]. intros F. inversion F as [|? ? ? ? D F' ]; subst. apply IHl in F'. congruence.
          + split; [discriminate|]. intros F. inversion F as [|? ? ? ? D F' ]; subst. apply IH in D. congruence. }
      split.
      + destruct (mapR np_array l) as [ys|e] eqn:Em; [|discriminate]. cbn [bind]. assert (F := proj1 (M ys) eq_refl). clear M Em.
        destruct ys as [|z zs]; cbn [stack_nd].
        * intros [= <-]. inversion F. constructor.
        * destruct (forallb _ zs) eqn:Ef; [|discriminate]. intros [= <-]. cbn [nshape ndata].
          rewrite forallb_forall in Ef. inversion F as [|h ? t ? D F']; subst.
          assert (Ln : List.length zs = List.length t) by (clear -F'; induction F'; cbn; congruence).
          rewrite Ln.
          apply (describes_rows (h :: t) (nshape z) (map ndata (z :: zs))); [discriminate|]. cbn [map]. constructor; [exact D|].
          clear -F' Ef. induction F' as [|a b t zs D F IHF]; cbn; constructor.
          -- specialize (Ef b (or_introl eq_refl)). destruct (list_eq_dec _ _ _) as [E|]; [|discriminate]. now rewrite <- E.
          -- apply IHF. intros q Iq. apply Ef. now right.
      + intros D. destruct y as [sh d]. cbn [nshape ndata] in D.
        inversion D as [|E1 E2 E3|l' shape ds NE F El Es Ed]; subst.
        * reflexivity.
        * assert (Fy : mapR np_array l = Ok (map (fun d => mkNd shape d) ds)).
          { apply M. clear -F. induction F; cbn; constructor; auto. }
          rewrite Fy. cbn [bind]. clear M Fy. destruct F as [|h d0 t ds D0 F]; [congruence|]. cbn [map stack_nd nshape ndata].
          replace (forallb _ _) with true.
          -- cbn [List.length map concat ndata]. rewrite map_length, map_map. cbn [ndata]. rewrite map_id. do 3 f_equal. clear -F. induction F; cbn; congruence.
          -- symmetry. apply forallb_forall. intros q Iq. apply in_map_iff in Iq as (d' & <- & _). cbn [nshape]. destruct (list_eq_dec Nat.eq_dec shape shape); congruence. }
  unfold load_param. split.
  - destruct (np_array j) as [y|e] eqn:E; [|discriminate]. cbn [bind]. intros V. destruct y as [sh d]. exists sh, d.
    split; [exact (proj1 (G j (mkNd sh d)) E)|]. destruct (enforce_dimensions (mkNd sh d) dim); cbn in V; [congruence|discriminate].
  - intros (sh & d & D & E). assert (N : np_array j = Ok (mkNd sh d)) by now apply G. rewrite N. cbn [bind]. now rewrite E.
Qed.

(** A scalar whose values were stored as a row (what [update_parameters] leaves in a
    batched scalar) is read as a column: the only change, and not an identity. *)
Theorem C93_scalar_row : forall A b (d : list A), List.length d = b ->
  load_param 0 (tolist (mkNd [1; b] d)) = Ok (mkNd [b; 1] d).
Proof.
  intros A b d E. unfold load_param, tolist. cbn [nshape ndata].
  rewrite np_array_tolist; [|cbn; lia|cbn; lia]. cbn [bind]. rewrite enforce0_ok.
  - cbn. now rewrite E.
  - unfold wf_nd. cbn. lia.
  - cbn. destruct (negb _); cbn; lia.
Qed.

(** * C94: grids cannot be read *)

(** For every class and object. *)
Theorem C94_refused : forall A (nonneg : A -> bool) (c : cls A) (o : obj A) j,
  unreadable nonneg c o -> dump c o = Ok j -> load nonneg c j = Err ValidationError.
Proof.
  intros A nn c o j U D. destruct (load nn c j) as [o'|e] eqn:E.
  - exfalso. apply (unreadable_refused nn c o j U D). now exists o'.
  - f_equal. exact (load_only_validation nn c j e E).
Qed.

(** A list of updatable parameters that holds anything but texts is refused, for every class
    that has one. *)
Theorem C94_updatable : forall A (nonneg : A -> bool) name k fields check kvs l j,
  k <> Plain -> last_assoc "updatable" kvs = Some (JArr l) -> In j l -> (forall s, j <> JStr s) ->
  load nonneg (Cls name k fields check) (JObj kvs) = Err ValidationError.
Proof.
  intros A nn name k fields check kvs l j K U I N.
  assert (L : load_upd k kvs = Err ValidationError).
  { unfold load_upd. rewrite U. assert (M : mapR load_text l = Err ValidationError).
    { clear U. induction l as [|x l IH]; [destruct I|]. cbn [mapR]. destruct I as [->|I].
      - destruct j; try reflexivity. now destruct (N s).
      - rewrite (IH I). destruct x; reflexivity. }
    rewrite M. destruct k; [congruence| |]; reflexivity. }
  cbn [load]. now rewrite L.
Qed.
Print Assumptions C94_updatable.
Example C94_updatable_case : load (fun _ => true) (@MaxTheoreticalCapacity nat)
    (JObj [("updatable", JArr [JStr "base_values"; JNum 1]); ("base_values", JNum 1)]) = Err ValidationError /\
  exists o, load (fun _ => true) (@MaxTheoreticalCapacity nat)
    (JObj [("updatable", JArr [JStr "base_values"]); ("base_values", JNum 1)]) = Ok o.
Proof. split; [apply C94_updatable with (l := [JStr "base_values"; JNum 1]) (j := JNum 1); try discriminate; [reflexivity|cbn; auto]|eexists; vm_compute; reflexivity]. Qed.

(** The parts of a model that are in a list (not a tuple) have no names that resolve (C07),
    also when it was read. *)
Theorem C93_lists : forall A name k upd (fields : list (string * value A)) key l rest, Names.no_char Names.dot key ->
  assoc key fields = Some (VList l) ->
  get_model_chain (to_hv (Obj name k upd fields)) (key ++ "." ++ rest)%string = Err ValueError.
Proof.
  intros A name k upd fields key l rest N E. apply Properties_Health.C07_lists_never_resolve with (l := map to_hv l); [exact N|].
  unfold get_field. cbn [to_hv]. induction fields as [|[a v] fs IH]; [discriminate|].
  cbn [hv_fields map assoc fst snd] in *. destruct (String.eqb a key); [injection E as ->; reflexivity|exact (IH E)].
Qed.
Print Assumptions C93_lists.
Example C93_lists_case :
  let o := Obj "Stack" Health [] [("cells", VList [soc_polynomial [] (mkNd [1; 2] [3; 4])])] in
  hv_all_names (to_hv o) = ["cells.0.coeffs"] /\ get_model_chain (to_hv o) "cells.0.coeffs" = Err ValueError.
Proof. split; vm_compute; reflexivity. Qed.

Lemma no_grid_dec s : {no_grid s} + {~ no_grid s}.
Proof. unfold no_grid. destruct (spin s); [right; discriminate|left; reflexivity]. Qed.
Lemma grid_set s : ~ no_grid s -> exists g, assoc "soc_pinpoints" (sih_fields s) = Some (VArr (mkNd [List.length g] g)).
Proof. unfold no_grid, sih_fields. destruct (spin s) as [g|]; [|congruence]. intros _. now exists g. Qed.
Lemma grid_wf {A} (g : list A) : wf_nd (mkNd [List.length g] g).
Proof. unfold wf_nd. cbn. lia. Qed.

Ltac nodup := repeat (constructor; [cbn; intuition discriminate|]); constructor.
(** The sub-objects that hold a grid. *)
Lemma unreadable_interp name (fs : list field_decl) ch name' k' upd s rest :
  NoDup (map fst (interpolated_fields None ++ fs)) -> ~ no_grid s ->
  unreadable nonnegR (Cls name Interpolated (interpolated_fields None ++ fs) ch) (Obj name' k' upd (sih_fields s ++ rest)).
Proof.
  intros N G. destruct (grid_set s G) as (g & E). eapply unreadable_in with (key := "soc_pinpoints"); [exact N|cbn; tauto| |].
  - unfold sih_fields in *. cbn in *. exact E.
  - constructor. apply grid_wf.
Qed.
Lemma unreadable_resistance u p r : ~ no_grid (res_sih r) -> unreadable nonnegR (Resistance fracR) (resistance_obj u p r).
Proof. intros G. apply unreadable_interp; auto. cbn. nodup. Qed.
Lemma unreadable_capacitance u p c : ~ no_grid c -> unreadable nonnegR Capacitance (capacitance_obj u p c).
Proof.
  intros G. assert (H := unreadable_interp "Capacitance" [] no_check "Capacitance" Interpolated (u p) c []).
  rewrite !app_nil_r in H. apply H; auto. cbn. nodup.
Qed.
Lemma unreadable_hysteresis u h : ~ no_grid (hys_sih h) -> unreadable nonnegR (HysteresisParameters fracR) (hysteresis_obj u h).
Proof. intros G. apply unreadable_interp; auto. cbn. nodup. Qed.

Ltac at_field name := eapply unreadable_in with (key := name); [cbn; nodup|cbn; tauto|reflexivity|].

Lemma unreadable_circuit u a : ~ no_grids a -> unreadable nonnegR (ECMASOH fracR) (asoh_obj u a).
Proof.
  intros G.
  destruct (no_grid_dec (ocv_ref (oc a))) as [N1|N1].
  2:{ at_field "ocv". constructor. at_field "ocv_ref". constructor. apply unreadable_interp; auto. cbn. nodup. }
  destruct (no_grid_dec (ocv_ent (oc a))) as [N2|N2].
  2:{ at_field "ocv". constructor. at_field "ocv_ent". constructor.
      destruct (grid_set _ N2) as (g & E). eapply unreadable_in with (key := "soc_pinpoints"); [cbn; nodup|cbn; tauto|exact E|].
      constructor. apply grid_wf. }
  destruct (no_grid_dec (res_sih (r0 a))) as [N3|N3].
  2:{ at_field "r0". constructor. now apply unreadable_resistance. }
  destruct (no_grid_dec (hys_sih (h0 a))) as [N4|N4].
  2:{ at_field "h0". constructor. now apply unreadable_hysteresis. }
  assert (D : opt no_grid (c0 a) \/ exists c, c0 a = Some c /\ ~ no_grid c).
  { destruct (c0 a) as [c|]; cbn; auto. destruct (no_grid_dec c); eauto. }
  destruct D as [N5|(c & Ec & N5)].
  2:{ eapply unreadable_in with (key := "c0"); [cbn; nodup|cbn; tauto|cbn; rewrite Ec; reflexivity|].
      constructor. now apply unreadable_capacitance. }
  assert (D : Forall (fun c => no_grid (res_sih (rc_r c)) /\ no_grid (rc_c c)) (rcs a) \/
              Exists (fun c => ~ no_grid (res_sih (rc_r c)) \/ ~ no_grid (rc_c c)) (rcs a)).
  { clear. induction (rcs a) as [|c t [IH|IH]]; [left; constructor| |right; now right].
    destruct (no_grid_dec (res_sih (rc_r c))), (no_grid_dec (rc_c c)); [left; constructor; auto|right; left; auto..]. }
  destruct D as [N6|N6]; [exfalso; apply G; repeat split; auto|].
  at_field "rc_elements". constructor. clear -N6. generalize 0 as i.
  induction N6 as [c t [N|N]|c t N IH]; intros i; cbn.
  - left. at_field "r". constructor. now apply unreadable_resistance.
  - left. at_field "c". constructor. now apply unreadable_capacitance.
  - right. apply IH.
Qed.

(** A circuit in which an SOC grid is set can be written, but not read. *)
Theorem C94_circuit : forall u a, ~ no_grids a ->
  exists j, dump (ECMASOH fracR) (asoh_obj u a) = Ok j /\ load nonnegR (ECMASOH fracR) j = Err ValidationError.
Proof.
  intros u a G. destruct (dump_asoh u a) as (j & E). exists j. split; [exact E|].
  eapply C94_refused; [exact (unreadable_circuit u a G)|exact E].
Qed.

(** So a circuit whose open circuit voltage has several values cannot be read back once
    its terminal voltage has been calculated. *)
Theorem C94_after_voltage : forall spline mode u new s a a' v,
  cm_voltage (ecm_model spline mode) new s a = (a', Ok v) -> c2 (sv (ocv_ref (oc a))) <> 1 ->
  exists j, dump (ECMASOH fracR) (asoh_obj u a') = Ok j /\ load nonnegR (ECMASOH fracR) j = Err ValidationError.
Proof.
  intros spline mode u new s a a' v E W. apply C94_circuit. intros (N & _).
  cbn in E. destruct (calculate_terminal_voltage _ _ _ _) in E; [|discriminate]. injection E as <- _.
  unfold no_grid, after_voltage, freeze_ocv, after_value in N. cbn in N.
  rewrite (proj2 (Nat.eqb_neq _ _) W) in N. discriminate N.
Qed.

(** * C96: the hysteresis rate *)

(** A circuit whose hysteresis rate is batched or negative (which an update of the
    parameters can make it) can be written, but not read. *)
Theorem C96_rate : forall u a, c2 (hys_gamma (h0 a)) = 1 -> ~ one_nonnegative (hys_gamma (h0 a)) ->
  exists j, dump (ECMASOH fracR) (asoh_obj u a) = Ok j /\ load nonnegR (ECMASOH fracR) j = Err ValidationError.
Proof.
  intros u a C G. destruct (dump_asoh u a) as (j & E). exists j. split; [exact E|].
  eapply C94_refused; [|exact E]. at_field "h0". constructor.
  eapply unreadable_in with (key := "gamma"); [cbn; nodup|cbn; tauto|reflexivity|].
  assert (L := t2_nd_length (hys_gamma (h0 a))). unfold t2_nd in *. cbn [ndata] in L. rewrite C in *. constructor.
  - rewrite L. lia.
  - intros x Ex. rewrite Ex in L. cbn in L. assert (Er : r2 (hys_gamma (h0 a)) = 1) by lia.
    rewrite Er in Ex. cbn in Ex. injection Ex as <-. unfold nonnegR. destruct (Rle_dec 0 _) as [P|]; [|reflexivity].
    exfalso. apply G. repeat split; auto.
Qed.

(** * C95: the parameters of a Thevenin circuit are lost *)
Section C95.
  Context {A : Type} (frac : nat -> nat -> A) (nonneg : A -> bool).

  (** A Thevenin circuit with its five scalars, its open circuit voltage, resistances
      and capacitances. *)
  Definition thevenin_obj (upd : list string) (capacity mass c_p h_thermal a_therm : nd A)
      (ocv : obj A) (r c : list (obj A)) : obj A :=
    Obj "TheveninASOH" Health upd
      [("capacity", VArr capacity); ("mass", VArr mass); ("c_p", VArr c_p); ("h_thermal", VArr h_thermal);
       ("a_therm", VArr a_therm); ("ocv", VSub ocv); ("r", VTuple r); ("c", VTuple c)].

  Lemma dump_abstract nm (o : obj A) :
    dump (Cls nm Health [] no_check) o = Ok (JObj [("updatable", JArr (map JStr (obj_upd o)))]).
  Proof. reflexivity. Qed.
  Lemma dump_abstract_list nm (l : list (obj A)) :
    mapR (dump (Cls nm Health [] no_check)) l =
      Ok (map (fun us => JObj [("updatable", JArr (map JStr us))]) (map obj_upd l)).
  Proof. induction l as [|o t IH]; cbn [mapR map]; [reflexivity|]. rewrite dump_abstract. cbn [bind]. now rewrite IH. Qed.

  (** Two circuits that differ in all coefficients are written as the same text. *)
  Theorem C95_same_text : forall upd capacity mass c_p h_thermal a_therm ocv ocv' r r' c c',
    obj_upd ocv = obj_upd ocv' -> map obj_upd r = map obj_upd r' -> map obj_upd c = map obj_upd c' ->
    dump (TheveninASOH frac) (thevenin_obj upd capacity mass c_p h_thermal a_therm ocv r c) =
    dump (TheveninASOH frac) (thevenin_obj upd capacity mass c_p h_thermal a_therm ocv' r' c').
  Proof.
    intros upd q m cp h at' ocv ocv' r r' c c' E1 E2 E3. unfold TheveninASOH, thevenin_obj. rewrite !dump_eq.
    cbn [mapR obj_fields assoc of_opt bind dump_field String.eqb Ascii.eqb Bool.eqb obj_upd].
    unfold SOCDependentVariable, SOCTempDependentVariable.
    rewrite !dump_abstract, !dump_abstract_list, E1, E2, E3. reflexivity.
  Qed.

  (** What is read has no parameter but the five scalars. *)
  Theorem C95_read_back : forall upd capacity mass c_p h_thermal a_therm ocv r c B,
    0 < B -> NoDup upd -> NoDup (obj_upd ocv) -> Forall (fun o => NoDup (obj_upd o)) r -> Forall (fun o => NoDup (obj_upd o)) c ->
    List.length r = S (List.length c) ->
    Forall (fun x : nd A => exists b, nshape x = [b; 1] /\ List.length (ndata x) = b /\ (b = 1 \/ b = B))
      [capacity; mass; c_p; h_thermal; a_therm] ->
    exists j o', dump (TheveninASOH frac) (thevenin_obj upd capacity mass c_p h_thermal a_therm ocv r c) = Ok j /\
      load nonneg (TheveninASOH frac) j = Ok o' /\
      iter_parameters false true (to_hv o') =
        map (fun kx : string * nd A => (fst kx, V2 (mkArr 1 (map (fun a => [a]) (ndata (snd kx))))))
          [("capacity", capacity); ("mass", mass); ("c_p", c_p); ("h_thermal", h_thermal); ("a_therm", a_therm)].
  Proof.
    intros upd q m cp h at' ocv r c B P N N1 N2 N3 L F.
    set (bare nm (o : obj A) := Obj nm Health (obj_upd o) [] : obj A).
    set (o' := thevenin_obj upd q m cp h at' (bare "SOCDependentVariable" ocv)
                 (map (bare "SOCTempDependentVariable") r) (map (bare "SOCTempDependentVariable") c)).
    assert (Bare : forall nm (o : obj A), NoDup (obj_upd o) -> instance nonneg (Cls nm Health [] no_check) (bare nm o) /\ all_rows B (bare nm o)).
    { intros nm o No. assert (Rw : all_rows B (bare nm o)) by (constructor; intros ? ? []). split; [|exact Rw].
      constructor; auto; [apply NoDup_nil|congruence|intros _; now apply (all_rows_batch B)]. }
    assert (Bares : forall nm l, Forall (fun o : obj A => NoDup (obj_upd o)) l ->
      Forall (instance nonneg (Cls nm Health [] no_check)) (map (bare nm) l) /\ Forall (all_rows B) (map (bare nm) l)).
    { intros nm l Fl. split; apply Forall_forall; intros o Io; apply in_map_iff in Io as (o0 & <- & Io);
        rewrite Forall_forall in Fl; now apply Bare, Fl. }
    destruct (Bare "SOCDependentVariable" ocv N1) as [I1 R1].
    destruct (Bares "SOCTempDependentVariable" r N2) as [I2 R2].
    destruct (Bares "SOCTempDependentVariable" c N3) as [I3 R3].
    inversion F as [|? ? (b1 & S1 & D1 & P1) F1]; inversion F1 as [|? ? (b2 & S2 & D2 & P2) F2];
    inversion F2 as [|? ? (b3 & S3 & D3 & P3) F3]; inversion F3 as [|? ? (b4 & S4 & D4 & P4) F4];
    inversion F4 as [|? ? (b5 & S5 & D5 & P5) _]; subst x x0 x1 x2 x3. clear F F1 F2 F3 F4.
    destruct q as [sq dq], m as [sm dm], cp as [scp dcp], h as [sh dh], at' as [sat dat]. cbn in S1, S2, S3, S4, S5, D1, D2, D3, D4, D5.
    subst.
    assert (I : instance nonneg (TheveninASOH frac) o').
    { constructor; auto; [nodup|cbn; intuition discriminate|congruence| | |].
      - repeat (constructor; [split; [reflexivity|now constructor]|]).
        constructor; [split; [reflexivity|constructor; [rewrite map_length; lia|exact I2]]|].
        constructor; [split; [reflexivity|constructor; [lia|exact I3]]|]. constructor.
      - intros _. apply (all_rows_batch B); auto. constructor. intros key v Iv.
        assert (RF : forall d : list A, List.length d = 1 \/ List.length d = B -> rows_fine B (mkNd [List.length d; 1] d)).
        { intros d Hd. exists (List.length d), [1]. repeat split; auto. unfold wf_nd. cbn. lia. }
        repeat destruct Iv as [Iv|Iv]; try injection Iv as <- <-; try destruct Iv; (split; [|]).
        all: try (intros x [= <-]; now apply RF); try (intros x [=]); try (cbn; intros ? []; fail).
        + cbn. intros o [<-|[]]. exact R1.
        + cbn. now apply Forall_forall.
        + cbn. now apply Forall_forall.
      - cbn. rewrite !map_length, L. apply Nat.eqb_refl. }
    destruct (C93_round_trip _ _ _ _ I) as (j & E1 & E2). exists j, o'. split; [|split; [exact E2|]].
    - rewrite <- E1. apply C95_same_text; [reflexivity| |]; rewrite map_map; reflexivity.
    - assert (RO : forall d : list A, rows_of (List.length d) 1 d = map (fun a => [a]) d).
      { induction d as [|x t IH]; cbn; [reflexivity|]. now rewrite IH. }
      assert (FM : forall (g : nat -> hv A -> list (string * vals A)) l i, (forall i h, In h l -> g i h = []) -> flat_mapi g i l = []).
      { intros g l. induction l as [|x t IH]; intros i Hg; cbn; [reflexivity|]. rewrite Hg by now left. apply IH. intros; apply Hg; now right. }
      cbn. rewrite !RO. rewrite !FM; [reflexivity| |]; intros i h Ih; apply in_map_iff in Ih as (o & <- & Io);
        apply in_map_iff in Io as (o0 & <- & _); reflexivity.
  Qed.
End C95.

(** * Cases *)

(** The demo circuits meet the hypotheses of C93; reading them back after one voltage
    calculation, or with two hysteresis rates or a negative one, does not work. *)
Definition all_fixed (p : string) : list string := [].
Example C93_case : exists j,
  dump (ECMASOH fracR) (asoh_obj all_fixed batch_asoh) = Ok j /\ load nonnegR (ECMASOH fracR) j = Ok (asoh_obj all_fixed batch_asoh).
Proof.
  apply (C93_circuit all_fixed 2).
  - intros p. constructor.
  - lia.
  - repeat split; cbn; auto; try (now left); try (now right). repeat constructor; cbn; auto.
  - cbn. repeat split; cbn; lra.
  - repeat split. cbn. repeat constructor.
Qed.
Example C93_state_case : exists j,
  dump (ECMTransientVector fracR) (state_obj batch_state) = Ok j /\ load nonnegR (ECMTransientVector fracR) j = Ok (state_obj batch_state).
Proof.
  apply (C93_state 2 2); [lia|]. repeat split; cbn; auto; try (now left); now right.
Qed.
(** Two texts, one of which describes an array. *)
Example C93_texts_case :
  describes (JArr [JArr [JNum 1; JNum 2]; JArr [JNum 3; JNum 4]]) [2; 2] [1; 2; 3; 4] /\
  forall shape d, ~ describes (JArr [JArr [JNum 1; JNum 2]; JArr [JNum 3]]) shape d.
Proof.
  split.
  - assert (P : forall a b : nat, describes (JArr [JNum a; JNum b]) [2] [a; b]).
    { intros a b. apply (describes_rows [JNum a; JNum b] [] [[a]; [b]]); [discriminate|]. repeat constructor. }
    apply (describes_rows [JArr [JNum 1; JNum 2]; JArr [JNum 3; JNum 4]] [2] [[1; 2]; [3; 4]]); [discriminate|].
    constructor; [apply P|]. constructor; [apply P|constructor].
  - intros sh d D. inversion D as [| |? ? ? _ F]; subst. inversion F as [|? ? ? ? D1 F1]; subst. inversion F1 as [|? ? ? ? D2 F2]; subst.
  inversion D1; inversion D2; subst. discriminate.
Qed.
Example C94_case : exists a' v j,
  cm_voltage (ecm_model no_spline Constant) (at_ 0 0) demo_state demo_asoh = (a', Ok v) /\
  dump (ECMASOH fracR) (asoh_obj all_fixed a') = Ok j /\ load nonnegR (ECMASOH fracR) j = Err ValidationError.
Proof.
  assert (F : Properties_ECM.fits 1 demo_asoh demo_state (at_ 0 0) []) by (apply demo_fits; [apply at_ok|constructor]).
  destruct F as (Ha & Hs & Hp & _).
  destruct (voltage_total no_spline (at_ 0 0) demo_state demo_asoh Ha demo_usable Hs Hp) as [v E]; [discriminate|].
  assert (E' : cm_voltage (ecm_model no_spline Constant) (at_ 0 0) demo_state demo_asoh = (after_voltage (at_ 0 0) demo_state demo_asoh, Ok v)).
  { cbn [cm_voltage ecm_model]. now rewrite E. }
  destruct (C94_after_voltage _ _ all_fixed _ _ _ _ _ E') as (j & D & L); [cbn; lia|].
  exists (after_voltage (at_ 0 0) demo_state demo_asoh), v, j. auto.
Qed.
Example C96_case :
  ~ one_nonnegative (sc (-1)) /\ ~ one_nonnegative (T2 2 1 (fun _ _ => 1%R)) /\ one_nonnegative (sc 50).
Proof. unfold one_nonnegative. cbn. repeat split; try lra; intros (? & ? & ?); try lia; lra. Qed.
(** Two Thevenin circuits with different coefficients, as written and as read. *)
Example C95_case :
  let x := mkNd [1; 1] [7] in
  let a := thevenin_obj ["ocv"] x x x x x (soc_polynomial ["coeffs"] (mkNd [1; 2] [3; 4]))
             [soc_temp_polynomial [] x (mkNd [2; 1] [5; 6]) x] [] in
  let b := thevenin_obj ["ocv"] x x x x x (soc_polynomial ["coeffs"] (mkNd [1; 3] [8; 9; 10]))
             [soc_temp_polynomial [] x (mkNd [1; 1] [11]) x] [] in
  a <> b /\ dump (TheveninASOH Nat.div) a = dump (TheveninASOH Nat.div) b /\
  exists j o, dump (TheveninASOH Nat.div) a = Ok j /\ load (fun _ => true) (TheveninASOH Nat.div) j = Ok o /\
    hv_all_names (to_hv o) = ["capacity"; "mass"; "c_p"; "h_thermal"; "a_therm"] /\
    hv_all_names (to_hv a) = ["capacity"; "mass"; "c_p"; "h_thermal"; "a_therm"; "ocv.coeffs"; "r.0.t_ref"; "r.0.soc_coeffs"; "r.0.t_coeffs"].
Proof.
  cbv zeta. split; [discriminate|]. split; [apply C95_same_text; reflexivity|]. do 2 eexists. split; [vm_compute; reflexivity|].
  split; [vm_compute; reflexivity|]. split; vm_compute; reflexivity.
Qed.
(** Reading fills in defaults, and refuses ragged lists and inconsistent batches. *)
Example C93_defaults :
  let text := JObj [("q_t", JObj [("base_values", JNum 10)]);
                    ("ocv", JObj [("ocv_ref", JObj [("base_values", JArr [JNum 3; JNum 4])])]);
                    ("r0", JObj [("base_values", JNum 5)]); ("unknown", JNull)] in
  (exists o, load (fun _ => true) (ECMASOH Nat.div) text = Ok o /\
     map (fun nv => fst nv) (iter_parameters false true (to_hv o)) =
       ["q_t.base_values"; "ce"; "ocv.ocv_ref.base_values"; "ocv.ocv_ref.reference_temperature"; "ocv.ocv_ent.base_values";
        "r0.base_values"; "r0.temperature_dependence_factor"; "h0.base_values"; "h0.gamma"]) /\
  load (fun _ => true) (@MaxTheoreticalCapacity nat) (JObj []) = Err ValidationError /\
  load (fun _ => true) (@Capacitance nat) (JObj [("base_values", JArr [JArr [JNum 1]; JNum 2])]) = Err ValidationError /\
  load (fun _ => true) (ReferenceOCV Nat.div)
    (JObj [("base_values", JArr [JArr [JNum 1]; JArr [JNum 2]]); ("reference_temperature", JArr [JNum 1; JNum 2; JNum 3])]) = Err ValidationError.
Proof. cbv zeta. split; [eexists; split; vm_compute; reflexivity|]. repeat split; vm_compute; reflexivity. Qed.

Print Assumptions C93_round_trip.
Print Assumptions C93_circuit.
Print Assumptions C93_state.
Print Assumptions C93_entries.
Print Assumptions C93_circuit_determined.
Print Assumptions C93_state_determined.
Print Assumptions C93_texts.
Print Assumptions C93_scalar_row.
Print Assumptions C94_refused.
Print Assumptions C94_circuit.
Print Assumptions C94_after_voltage.
Print Assumptions C95_same_text.
Print Assumptions C95_read_back.
Print Assumptions C96_rate.

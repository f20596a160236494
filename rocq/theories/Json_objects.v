(** The circuits of ECM.v as objects: they are what their classes describe. *)
From Coq Require Import String List Arith Bool Lia Reals.
Import ListNotations.
From Verif Require Import Res Arr NdArray Container Health Json Spec_Json Json_proofs Json_classes.
From Verif Require Import NdR Interp ECM Spec_ECM.
Local Open Scope string_scope.
Local Open Scope nat_scope.

(** * Batch sizes *)
Section ObjInd.
  Context {A : Type} (P : obj A -> Prop).
  Definition parts (v : value A) : list (obj A) :=
    match v with
    | VSub o => [o] | VTuple l | VList l => l | VDict d => map snd d | _ => []
    end.
  Hypothesis step : forall name k upd fields,
    (forall key v o, In (key, v) fields -> In o (parts v) -> P o) -> P (Obj name k upd fields).
  Fixpoint obj_nested_ind (o : obj A) : P o.
  Proof.
    destruct o as [name k upd fields]. apply step.
    induction fields as [|[key' v'] fields IH]; [intros ? ? ? []|].
    assert (T : forall o, In o (parts v') -> P o).
    { destruct v' as [|x|a|s|o'|l|l|d]; cbn; [intros ? []|intros ? []|intros ? []|intros ? []| | | |].
      - intros o [<-|[]]. apply obj_nested_ind.
      - induction l as [|x t IHl]; [intros ? []|]. intros o [<-|I]; [apply obj_nested_ind|exact (IHl o I)].
      - induction l as [|x t IHl]; [intros ? []|]. intros o [<-|I]; [apply obj_nested_ind|exact (IHl o I)].
      - induction d as [|[q x] t IHl]; [intros ? []|]. cbn. intros o [<-|I]; [apply obj_nested_ind|exact (IHl o I)]. }
    intros key v o [E|I] J.
    - injection E as _ ->. exact (T o J).
    - exact (IH key v o I J).
  Defined.
End ObjInd.

(** Every array of the object, at any depth, has one row or [B] rows. *)
Section Rows.
  Context {A : Type} (B : nat).
  Definition rows_fine (x : nd A) : Prop := exists n rest, nshape x = n :: rest /\ (n = 1 \/ n = B) /\ wf_nd x.
  Inductive all_rows : obj A -> Prop :=
  | all_rows_in : forall name k upd fields,
      (forall key v, In (key, v) fields ->
         (forall x, v = VArr x -> rows_fine x) /\ (forall o, In o (parts v) -> all_rows o)) ->
      all_rows (Obj name k upd fields).

  Lemma flat_mapi_In {X Y} (f : nat -> X -> list Y) l : forall i y, In y (flat_mapi f i l) -> exists n x, In x l /\ In y (f n x).
  Proof.
    induction l as [|x t IH]; intros i y I; [destruct I|]. cbn in I. apply in_app_or in I as [I|I].
    - exists i, x. cbn. auto.
    - destruct (IH _ _ I) as (n & z & ? & ?). exists n, z. cbn. auto.
  Qed.

  Lemma all_rows_params : forall o : obj A, all_rows o ->
    Forall (fun nv => shape0 (snd nv) = 1 \/ shape0 (snd nv) = B) (iter_parameters false true (to_hv o)).
  Proof.
    apply (obj_nested_ind (fun o => all_rows o -> Forall (fun nv => shape0 (snd nv) = 1 \/ shape0 (snd nv) = B) (iter_parameters false true (to_hv o)))).
    intros name k upd fields IH H. inversion H as [? ? ? ? R]; subst.
    apply Forall_forall. intros nv I. cbn in I. apply filter_In in I as [I _].
    apply in_flat_map in I as ([key v'] & I & J). apply in_map_iff in I as ([key0 v] & E & I). injection E as <- <-.
    specialize (IH key0 v). destruct (R key0 v I) as [Rx Ro]. cbn in J.
    assert (K : forall o, In o (parts v) -> forall nv, In nv (iter_parameters false true (to_hv o)) -> shape0 (snd nv) = 1 \/ shape0 (snd nv) = B).
    { intros o Io. apply Forall_forall. apply (IH o I Io). exact (Ro o Io). }
    clear IH R Ro. destruct v as [|x|a|s|o|l|l|d]; cbn in J, K; try contradiction.
    - destruct (Rx x eq_refl) as (n & rest & Es & Hn & W). unfold arr_field in J. unfold wf_nd in W. rewrite Es in *. destruct rest as [|m rest].
      + destruct J as [<-|[]]. cbn in *. rewrite W, Nat.mul_1_r. exact Hn.
      + destruct J as [<-|[]]. cbn. unfold anrows. cbn. rewrite rows_of_len. exact Hn.
    - apply in_map_iff in J as (nv' & <- & J). cbn. exact (K o (or_introl eq_refl) nv' J).
    - apply flat_mapi_In in J as (n & h & Ih & J). apply in_map_iff in J as (nv' & <- & J). cbn.
      apply in_map_iff in Ih as (o & <- & Io). exact (K o Io nv' J).
    - apply flat_mapi_In in J as (n & h & Ih & J). apply in_map_iff in J as (nv' & <- & J). cbn.
      apply in_map_iff in Ih as (o & <- & Io). exact (K o Io nv' J).
    - apply in_flat_map in J as ([kk h] & Ih & J). apply in_map_iff in J as (nv' & <- & J). cbn.
      apply in_map_iff in Ih as ([k1 o] & E & Io). injection E as <- <-.
      apply (K o); [|exact J]. apply in_map_iff. exists (k1, o). auto.
  Qed.

  Lemma batch_loop_fine dims cur : (cur = 1 \/ cur = B) -> 0 < B ->
    Forall (fun d => d = 1 \/ d = B) dims -> exists b, batch_loop cur dims = Ok b /\ 0 < b.
  Proof.
    revert cur. induction dims as [|d t IH]; intros cur Hc P F; cbn [batch_loop].
    - exists cur. split; auto. lia.
    - inversion F as [|? ? Hd F']; subst.
      replace (andb _ _) with false.
      + apply IH; auto. lia.
      + symmetry. destruct (Nat.ltb_spec 1 cur), (Nat.eqb_spec d 1), (Nat.eqb_spec d cur); cbn; auto; lia.
  Qed.

  Lemma all_rows_batch (o : obj A) : 0 < B -> all_rows o -> one_batch_size o.
  Proof.
    intros P H. unfold one_batch_size, hv_batch_size. apply batch_loop_fine; auto.
    apply all_rows_params in H. induction H; cbn; constructor; auto.
  Qed.
End Rows.

(** * The circuits *)
Lemma t2_nd_length x : List.length (ndata (t2_nd x)) = r2 x * c2 x.
Proof.
  cbn. generalize (seq_length (r2 x) 0). generalize (seq 0 (r2 x)) as l.
  intros l <-. induction l as [|i t IH]; cbn; [reflexivity|]. now rewrite app_length, map_length, seq_length, IH.
Qed.
Lemma t2_rows_fine B x : rows_ok B x -> rows_fine B (t2_nd x).
Proof.
  intros H. exists (r2 x), [c2 x]. split; [reflexivity|]. split; [exact H|].
  unfold wf_nd. rewrite t2_nd_length. cbn. lia.
Qed.
Lemma fits_column nn B x : column B x -> fits nn TScalar (VArr (t2_nd x)).
Proof.
  intros [_ E]. assert (L := t2_nd_length x). unfold t2_nd in *. cbn [ndata] in L. rewrite E in *.
  constructor. rewrite L. lia.
Qed.
Lemma fits_column_opt nn B x : column B x -> fits nn TOptScalar (VArr (t2_nd x)).
Proof.
  intros [_ E]. assert (L := t2_nd_length x). unfold t2_nd in *. cbn [ndata] in L. rewrite E in *.
  constructor. rewrite L. lia.
Qed.
Lemma fits_rows nn B x : 0 < B -> rows_ok B x -> fits nn TList (VArr (t2_nd x)).
Proof. intros P H. constructor; [destruct H; lia|]. apply t2_nd_length. Qed.
Lemma fits_style (nn : R -> bool) s : fits nn (TText styles) (VText (style_name s)).
Proof.
  constructor. destruct s as [k|]; [|now left]. unfold style_name.
  destruct (nth_in_or_default k styles "linear") as [I| ->]; [exact I|now left].
Qed.

Section Circuit.
  Variable u : string -> list string.
  Hypothesis sets : forall p, NoDup (u p).
  Variable B : nat.
  Hypothesis B0 : 0 < B.
  Notation instance := (instance nonnegR).
  Notation fits := (fits nonnegR).

  Definition no_grid (s : sih) : Prop := spin s = None.

  Lemma instance_built name k fields check p vs :
    NoDup (map fst fields) -> ~ In "updatable" (map fst fields) -> k <> Plain ->
    Forall2 (fun f kv => fst f = fst kv /\ fits (fst (snd f)) (snd kv)) fields vs ->
    (forall o, check o = true) -> all_rows B (Obj name k (u p) vs) ->
    instance (Cls name k fields check) (Obj name k (u p) vs).
  Proof.
    intros. constructor; auto; [congruence|]. intros _. now apply (all_rows_batch B).
  Qed.

  Ltac nodup := repeat (constructor; [cbn; intuition discriminate|]); constructor.
  Ltac notin := cbn; intuition discriminate.

  Lemma all_rows_app name k upd f1 f2 : all_rows B (A := R) (Obj name k upd f1) -> all_rows B (Obj name k upd f2) ->
    all_rows B (Obj name k upd (f1 ++ f2)).
  Proof.
    intros H1 H2. inversion H1 as [? ? ? ? R1]; inversion H2 as [? ? ? ? R2]; subst. constructor.
    intros key v I. apply in_app_or in I as [I|I]; eauto.
  Qed.
  Lemma all_rows_nil name k upd : all_rows B (A := R) (Obj name k upd []).
  Proof. constructor. intros ? ? []. Qed.
  Lemma all_rows_cons name k upd key v f :
    (forall x, v = VArr x -> rows_fine B x) -> (forall o, In o (parts v) -> all_rows B o) ->
    all_rows B (A := R) (Obj name k upd f) -> all_rows B (Obj name k upd ((key, v) :: f)).
  Proof.
    intros H1 H2 H3. inversion H3 as [? ? ? ? R3]; subst. constructor.
    intros key' v' [[= <- <-]|I]; eauto.
  Qed.
  Lemma all_rows_arr name k upd key x f : rows_fine B x ->
    all_rows B (A := R) (Obj name k upd f) -> all_rows B (Obj name k upd ((key, VArr x) :: f)).
  Proof. intros H. apply all_rows_cons; [intros ? [= <-]; auto|intros ? []]. Qed.
  Lemma all_rows_sub name k upd key o f : all_rows B o ->
    all_rows B (A := R) (Obj name k upd f) -> all_rows B (Obj name k upd ((key, VSub o) :: f)).
  Proof. intros H. apply all_rows_cons; [discriminate|cbn; intros ? [<-|[]]; auto]. Qed.

  Lemma sih_rows name k upd s : no_grid s -> rows_ok B (sv s) -> all_rows B (Obj name k upd (sih_fields s)).
  Proof.
    intros N H. unfold sih_fields. rewrite N. apply all_rows_arr; [now apply t2_rows_fine|].
    apply all_rows_cons; [discriminate|intros ? []|]. apply all_rows_cons; [discriminate|intros ? []|]. apply all_rows_nil.
  Qed.
  Lemma sih_fits s d : no_grid s -> rows_ok B (sv s) ->
    Forall2 (fun (f : field_decl) (kv : string * value R) => fst f = fst kv /\ fits (fst (snd f)) (snd kv)) (interpolated_fields d) (sih_fields s).
  Proof.
    intros N H. unfold sih_fields, interpolated_fields. rewrite N.
    constructor; [split; [reflexivity|now apply (fits_rows _ B)]|].
    constructor; [split; [reflexivity|constructor]|].
    constructor; [split; [reflexivity|apply fits_style]|]. constructor.
  Qed.

  Lemma capacity_instance p q : column B (q_base q) ->
    instance MaxTheoreticalCapacity (capacity_obj u p q) /\ all_rows B (capacity_obj u p q).
  Proof.
    intros H. assert (Rw : all_rows B (capacity_obj u p q)).
    { apply all_rows_arr; [apply t2_rows_fine, H|apply all_rows_nil]. }
    split; [|exact Rw]. apply instance_built; auto; [nodup|notin|discriminate|].
    constructor; [split; [reflexivity|now apply (fits_column _ B)]|]. constructor.
  Qed.

  Lemma resistance_instance p r : res_ok B r -> no_grid (res_sih r) ->
    instance (Resistance fracR) (resistance_obj u p r) /\ all_rows B (resistance_obj u p r).
  Proof.
    intros [H1 H2] N. assert (Rw : all_rows B (resistance_obj u p r)).
    { apply all_rows_app; [now apply sih_rows|].
      apply all_rows_cons; [destruct (res_tref r); discriminate|destruct (res_tref r); intros ? []|].
      apply all_rows_arr; [apply t2_rows_fine, H2|apply all_rows_nil]. }
    split; [|exact Rw]. apply instance_built; auto; [nodup|notin|discriminate|].
    apply Forall2_app; [now apply sih_fits|].
    constructor; [split; [reflexivity|destruct (res_tref r); constructor]|].
    constructor; [split; [reflexivity|now apply (fits_column _ B)]|]. constructor.
  Qed.

  Lemma capacitance_instance p c : rows_ok B (sv c) -> no_grid c ->
    instance Capacitance (capacitance_obj u p c) /\ all_rows B (capacitance_obj u p c).
  Proof.
    intros H N. assert (Rw : all_rows B (capacitance_obj u p c)) by now apply sih_rows.
    split; [|exact Rw]. apply instance_built; auto; [nodup|notin|discriminate|]. now apply sih_fits.
  Qed.

  Lemma rc_instance p c : res_ok B (rc_r c) -> rows_ok B (sv (rc_c c)) -> no_grid (res_sih (rc_r c)) -> no_grid (rc_c c) ->
    instance (RCComponent fracR) (rc_obj u p c) /\ all_rows B (rc_obj u p c).
  Proof.
    intros H1 H2 N1 N2. destruct (resistance_instance (p ++ ".r") _ H1 N1) as [I1 R1].
    destruct (capacitance_instance (p ++ ".c") _ H2 N2) as [I2 R2].
    assert (Rw : all_rows B (rc_obj u p c)) by (apply all_rows_sub; auto; apply all_rows_sub; auto; apply all_rows_nil).
    split; [|exact Rw]. apply instance_built; auto; [nodup|notin|discriminate|].
    constructor; [split; [reflexivity|now constructor]|]. constructor; [split; [reflexivity|now constructor]|]. constructor.
  Qed.

  Lemma ocv_instance o : rows_ok B (sv (ocv_ref o)) -> column B (ocv_tref o) -> rows_ok B (sv (ocv_ent o)) ->
    no_grid (ocv_ref o) -> no_grid (ocv_ent o) ->
    instance (OpenCircuitVoltage fracR) (ocv_obj u o) /\ all_rows B (ocv_obj u o).
  Proof.
    intros H1 H2 H3 N1 N2.
    set (ref := Obj "ReferenceOCV" Interpolated (u "ocv.ocv_ref")
          (sih_fields (ocv_ref o) ++ [("reference_temperature", VArr (t2_nd (ocv_tref o)))])%list).
    set (ent := Obj "EntropicOCV" Interpolated (u "ocv.ocv_ent") (sih_fields (ocv_ent o))).
    assert (R1 : all_rows B ref).
    { apply all_rows_app; [now apply sih_rows|]. apply all_rows_arr; [apply t2_rows_fine, H2|apply all_rows_nil]. }
    assert (R2 : all_rows B ent) by now apply sih_rows.
    assert (I1 : instance (ReferenceOCV fracR) ref).
    { apply instance_built; auto; [nodup|notin|discriminate|]. apply Forall2_app; [now apply sih_fits|].
      constructor; [split; [reflexivity|now apply (fits_column _ B)]|]. constructor. }
    assert (I2 : instance (EntropicOCV fracR) ent).
    { apply instance_built; auto; [nodup|notin|discriminate|]. now apply sih_fits. }
    assert (Rw : all_rows B (ocv_obj u o)) by (apply all_rows_sub; auto; apply all_rows_sub; auto; apply all_rows_nil).
    split; [|exact Rw]. apply instance_built; auto; [nodup|notin|discriminate|].
    constructor; [split; [reflexivity|now constructor]|]. constructor; [split; [reflexivity|now constructor]|]. constructor.
  Qed.

  Definition one_nonnegative (x : t2) : Prop := r2 x = 1 /\ c2 x = 1 /\ (0 <= a2 x 0 0)%R.

  Lemma hysteresis_instance h : rows_ok B (sv (hys_sih h)) -> one_nonnegative (hys_gamma h) -> no_grid (hys_sih h) ->
    instance (HysteresisParameters fracR) (hysteresis_obj u h) /\ all_rows B (hysteresis_obj u h).
  Proof.
    intros H (Er & Ec & P) N.
    assert (Rw : all_rows B (hysteresis_obj u h)).
    { apply all_rows_app; [now apply sih_rows|]. apply all_rows_arr; [apply t2_rows_fine; now left|apply all_rows_nil]. }
    split; [|exact Rw]. apply instance_built; auto; [nodup|notin|discriminate|].
    apply Forall2_app; [now apply sih_fits|].
    constructor; [split; [reflexivity|]|constructor].
    cbn. unfold t2_nd. rewrite Er, Ec. cbn. constructor. unfold nonnegR. now destruct (Rle_dec 0 _).
  Qed.

  (** No SOC grid is set in the circuit. *)
  Definition no_grids (a : ecm_asoh) : Prop :=
    no_grid (ocv_ref (oc a)) /\ no_grid (ocv_ent (oc a)) /\ no_grid (res_sih (r0 a)) /\
    opt no_grid (c0 a) /\ Forall (fun c => no_grid (res_sih (rc_r c)) /\ no_grid (rc_c c)) (rcs a) /\
    no_grid (hys_sih (h0 a)).

  Lemma rc_objs_instance l : forall i,
    Forall (fun c => res_ok B (rc_r c) /\ rows_ok B (sv (rc_c c))) l ->
    Forall (fun c => no_grid (res_sih (rc_r c)) /\ no_grid (rc_c c)) l ->
    Forall (instance (RCComponent fracR)) (rc_objs u i l) /\ Forall (all_rows B) (rc_objs u i l).
  Proof.
    induction l as [|c t IH]; intros i H N; cbn; [split; constructor|].
    inversion H as [|? ? [H1 H2] H']; inversion N as [|? ? [N1 N2] N']; subst.
    destruct (rc_instance ("rc_elements." ++ Names.nat_str i) c H1 H2 N1 N2). destruct (IH (S i) H' N'). split; constructor; auto.
  Qed.

  Theorem asoh_instance a : asoh_ok B a -> one_nonnegative (hys_gamma (h0 a)) -> no_grids a ->
    instance (ECMASOH fracR) (asoh_obj u a).
  Proof.
    intros (Hq & Hce & (Ho1 & Ho2 & Ho3) & Hr & Hc & Hrc & Hh & _) G (N1 & N2 & N3 & N4 & N5 & N6).
    destruct (capacity_instance "q_t" _ Hq) as [Iq Rq].
    destruct (ocv_instance _ Ho1 Ho2 Ho3 N1 N2) as [Io Ro].
    destruct (resistance_instance "r0" _ Hr N3) as [Ir Rr].
    destruct (rc_objs_instance _ 0 Hrc N5) as [Irc Rrc].
    destruct (hysteresis_instance _ Hh G N6) as [Ih Rh].
    apply instance_built; auto; [nodup|notin|discriminate| |].
    - constructor; [split; [reflexivity|now constructor]|].
      constructor; [split; [reflexivity|now apply (fits_column _ B)]|].
      constructor; [split; [reflexivity|now constructor]|].
      constructor; [split; [reflexivity|now constructor]|].
      constructor; [split; [reflexivity|]|].
      { destruct (c0 a) as [c|]; cbn in *; [|constructor]. constructor. now apply capacitance_instance. }
      constructor; [split; [reflexivity|constructor; [lia|exact Irc]]|].
      constructor; [split; [reflexivity|now constructor]|]. constructor.
    - apply all_rows_sub; auto. apply all_rows_arr; [apply t2_rows_fine, Hce|]. apply all_rows_sub; auto. apply all_rows_sub; auto.
      apply all_rows_cons.
      { destruct (c0 a); discriminate. }
      { destruct (c0 a) as [c|]; cbn in *; [|intros ? []]. intros o [<-|[]]. now apply capacitance_instance. }
      apply all_rows_cons; [discriminate|cbn; now apply Forall_forall|]. apply all_rows_sub; auto. apply all_rows_nil.
  Qed.

  Theorem state_instance n s : state_ok B n s -> instance (ECMTransientVector fracR) (state_obj s).
  Proof.
    intros (H1 & H2 & (H3 & _) & H4). constructor; auto; [nodup|notin|constructor| |congruence].
    constructor; [split; [reflexivity|now apply (fits_column _ B)]|].
    constructor; [split; [reflexivity|]|].
    { destruct (q0 s); cbn in *; [now apply (fits_column_opt _ B)|constructor]. }
    constructor; [split; [reflexivity|now apply (fits_rows _ B)]|].
    constructor; [split; [reflexivity|now apply (fits_column _ B)]|]. constructor.
  Qed.

  (** Circuits can always be written. *)
  Lemma dump_resistance p r : is_ok (dump (Resistance fracR) (resistance_obj u p r)).
  Proof. unfold resistance_obj, sih_fields. destruct (spin (res_sih r)), (res_tref r); eexists; reflexivity. Qed.
  Lemma dump_capacitance p c : is_ok (dump (@Capacitance R) (capacitance_obj u p c)).
  Proof. unfold capacitance_obj, sih_fields. destruct (spin c); eexists; reflexivity. Qed.
  Lemma dump_hysteresis h : is_ok (dump (HysteresisParameters fracR) (hysteresis_obj u h)).
  Proof. unfold hysteresis_obj, sih_fields. destruct (spin (hys_sih h)); eexists; reflexivity. Qed.
  Lemma dump_ocv o : is_ok (dump (OpenCircuitVoltage fracR) (ocv_obj u o)).
  Proof. unfold ocv_obj, sih_fields. destruct (spin (ocv_ref o)), (spin (ocv_ent o)); eexists; reflexivity. Qed.
  Lemma dump_rc p c : is_ok (dump (RCComponent fracR) (rc_obj u p c)).
  Proof.
    destruct (dump_resistance (p ++ ".r") (rc_r c)) as (j1 & E1). destruct (dump_capacitance (p ++ ".c") (rc_c c)) as (j2 & E2).
    unfold RCComponent, rc_obj. rewrite dump_eq. cbn [mapR obj_fields assoc of_opt bind dump_field String.eqb Ascii.eqb Bool.eqb].
    rewrite E1. cbn [bind]. rewrite E2. eexists; reflexivity.
  Qed.
  Lemma dump_rcs l : forall i, is_ok (mapR (dump (RCComponent fracR)) (rc_objs u i l)).
  Proof.
    induction l as [|c t IH]; intros i; cbn [rc_objs mapR]; [eexists; reflexivity|].
    destruct (dump_rc ("rc_elements." ++ Names.nat_str i) c) as (j & ->). destruct (IH (S i)) as (js & E). cbn [bind].
    rewrite E. eexists; reflexivity.
  Qed.
  Theorem dump_asoh a : is_ok (dump (ECMASOH fracR) (asoh_obj u a)).
  Proof.
    destruct (dump_ocv (oc a)) as (j1 & E1). destruct (dump_resistance "r0" (r0 a)) as (j2 & E2).
    destruct (dump_rcs (rcs a) 0) as (j3 & E3). destruct (dump_hysteresis (h0 a)) as (j4 & E4).
    unfold ECMASOH, asoh_obj. rewrite dump_eq. cbn [mapR obj_fields assoc of_opt bind dump_field String.eqb Ascii.eqb Bool.eqb].
    rewrite E1. cbn [bind]. rewrite E2. cbn [bind].
    replace (dump MaxTheoreticalCapacity (capacity_obj u "q_t" (q_t a))) with
      (Ok (JObj [("updatable", JArr (map JStr (u "q_t"))); ("base_values", tolist (t2_nd (q_base (q_t a))))])) by reflexivity.
    cbn [bind]. destruct (c0 a) as [c|].
    - destruct (dump_capacitance "c0" c) as (j5 & E5). rewrite E5. cbn [bind]. rewrite E3. cbn [bind]. rewrite E4. eexists; reflexivity.
    - cbn [bind]. rewrite E3. cbn [bind]. rewrite E4. eexists; reflexivity.
  Qed.
End Circuit.

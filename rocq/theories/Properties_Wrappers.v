(** C54, C55, C88: hidden states as arrays and as objects. *)
From Coq Require Import String List Arith Bool Lia.
Import ListNotations.
From Verif Require Import Res Arr Arr_lemmas Container Container_proofs Spec_Container Names Health Spec_Health
  Health_lemmas Health_resolve Health_update Health_proofs Health_misc Simulator Wrappers Spec_Wrappers
  Properties_Container Properties_Health Wrappers_proofs.
Local Open Scope string_scope.
Local Open Scope list_scope.
Local Open Scope nat_scope.

(** * Construction *)

(** The constructor establishes what the theorems below assume. *)
Theorem C54_constructed : forall A M D (a : hv A) t u names h c o w,
  only_reads A M -> well_formed_tree a -> well_formed t -> nonempty t ->
  (forall k f, has_field t k f -> 1 <= anrows f) -> rows_ge1 a ->
  match names with
  | None => True
  | Some l => NoDup l /\ Forall (may_update a) l
  end ->
  joint_init A M D a t u names h c o = Ok w ->
  ready A w /\ (forall k f, has_field t k f -> anrows f = 1) /\ unbatched a /\
  asoh_inputs A w = match names with None => updatable_names a | Some l => l end.
Proof.
  intros A M D a t u names h c o w [_ RO] W Wt NE Pt Ra HN E.
  unfold joint_init, base_init in E.
  destruct (hv_batch_size a) as [ba|] eqn:Ba; [|discriminate]. cbn [bind] in E.
  destruct (Nat.ltb_spec 1 ba) as [|La]; [discriminate|].
  destruct (batch_size t) as [bt|] eqn:Bt; [|discriminate]. cbn [bind] in E.
  destruct (Nat.ltb_spec 1 bt) as [|Lt]; [discriminate|].
  specialize (RO u t a). destruct (cm_voltage M u t a) as [a' r]. cbn [fst] in RO.
  destruct r as [y|]; [|discriminate]. cbn [bind] in E.
  destruct (to_numpy y) as [ym|]; [|discriminate]. cbn [bind] in E.
  destruct (to_numpy t) as [tm|] eqn:Et; [|discriminate]. cbn [bind] in E.
  set (ns := match names with None => updatable_names a' | Some l => l end) in *.
  destruct (get_parameters a' ns) as [am|] eqn:Ea; [|discriminate]. cbn [bind] in E.
  injection E as <-.
  pose proof (proj1 RO W) as W'. destruct (keeps_names A _ _ RO) as [N1 N2].
  assert (U : unbatched a).
  { apply C15_batch_size in Ba as [B1 B2]; [|now apply well_formed_distinct|exact Ra].
    intros r k v P. specialize (Ra r k v P). destruct (B1 r k v P); lia. }
  assert (U' : unbatched a') by (now apply (keeps_unbatched A a)).
  assert (ND : NoDup ns /\ Forall (may_update a') ns).
  { unfold ns. destruct names as [l|].
    - destruct HN as [H1 H2]. split; auto. eapply Forall_impl; [|exact H2]. intros x. now apply keeps_may_update.
    - split; [now apply (C06_listing_exact A a' true)|]. apply Forall_forall. intros x Hx. now apply may_update_iff. }
  assert (Ut : forall k f, has_field t k f -> anrows f = 1).
  { apply C04_batch_size_iff in Bt as [B1 _]; auto. intros k f H. specialize (Pt k f H). destruct (B1 k f H); lia. }
  split; [|split; [exact Ut|split; [exact U|cbn; unfold ns; rewrite N2; reflexivity]]].
  assert (I : incl ns (hv_all_names a')).
  { intros x Hx. apply updatable_in_all; auto. apply may_update_iff; auto. destruct ND as [_ ND]. rewrite Forall_forall in ND. auto. }
  split; cbn [w_asoh asoh_inputs w_transients num_transients num_asoh]; auto; try apply ND.
  - destruct (C01_encode_rows A t 1) as (m & E & _ & _ & C & _); auto.
    + split; [intros k f H; left; eauto|auto].
    + congruence.
  - destruct (get_parameters_shape a' 1 ns) as (m & G & _ & C); auto.
    + now apply unbatched_ge1.
    + now apply unbatched_size.
    + exists (map (lookup a') ns). rewrite map_map. split; [|congruence].
      clear - I W'. induction ns as [|x l IH]; cbn; constructor.
      * apply holds_lookup; auto. split; [apply I; now left|reflexivity].
      * apply IH. intros y Hy. apply I. now right.
Qed.
Print Assumptions C54_constructed.

(** * C54 *)

(** Encoding what was decoded from any batch of hidden states gives the batch back;
    the decoded transient state and the selected parameters are the two parts of
    the converted batch; parameters that are not selected are the template's. *)
Theorem C54_encode_decoded : forall A (w : wrapper A) x,
  ready A w -> lossless A (num_hidden_dimensions A w) (hidden_conversion A w) ->
  batch_of A (num_hidden_dimensions A w) x ->
  asoh_inputs A w <> [] \/ anrows x = 1 ->
  exists a t j, create_cell_model_inputs A w x = Ok (a, t) /\
    create_hidden_state A w a t = Ok x /\
    op_samples A (hidden_conversion A w) x = Ok j /\
    to_numpy t = Ok (take_cols (num_transients A w) j) /\
    get_parameters a (asoh_inputs A w) = Ok (drop_cols (num_transients A w) j) /\
    (forall nm m, ~ In nm (asoh_inputs A w) -> (holds a nm m <-> holds (w_asoh A w) nm m)).
Proof.
  intros A w x Rd [L _] Bx H. destruct (L x Bx) as (j & Ej & Bj & Rj & Ei).
  destruct (decode_spec A w x j Rd Ej Bj) as (a & t & D & Et & Wa & G & N & I & _ & K).
  assert (Ga : get_parameters a (asoh_inputs A w) = Ok (drop_cols (num_transients A w) j)).
  { destruct (asoh_inputs A w) as [|n ns] eqn:En; [|apply G; discriminate].
    destruct H as [H|H]; [congruence|]. rewrite (N eq_refl).
    destruct Rd as [W U _ _ _ _ (ms & Hm & Em)]. cbn [get_parameters].
    rewrite unbatched_size by auto. cbn. f_equal.
    rewrite En in Hm. inversion Hm; subst. cbn in Em.
    destruct Bj as (Wj & R1 & C). unfold num_hidden_dimensions in C. rewrite Em in C.
    unfold drop_cols. unfold anrows in *. destruct j as [cj rj]. cbn in *.
    destruct rj as [|r [|? ?]]; cbn in *; try lia.
    unfold wf_arr in Wj. cbn in Wj. apply Forall_inv in Wj. f_equal; [lia|]. f_equal. symmetry. apply skipn_all2. lia. }
  exists a, t, j. split; [exact D|]. split.
  - unfold create_hidden_state. rewrite Et, Ga. cbn [bind].
    rewrite hconcat2 by now rewrite anrows_take, anrows_drop. cbn [bind].
    now rewrite hcat2_take_drop.
  - repeat split; auto; now apply K.
Qed.
Print Assumptions C54_encode_decoded.

(** Decoding what was encoded from unbatched values restores the transient state
    and the selected parameters. *)
Theorem C54_decode_encoded : forall A (w : wrapper A) a t v,
  ready A w -> lossless A (num_hidden_dimensions A w) (hidden_conversion A w) ->
  well_formed_tree a -> unbatched a -> well_formed t -> (forall k f, has_field t k f -> anrows f = 1) ->
  layout A t = layout A (w_transients A w) ->
  get_parameters a (asoh_inputs A w) = Ok v -> acols v = num_asoh A w -> wf_arr v ->
  incl (asoh_inputs A w) (hv_all_names a) ->
  exists x a', create_hidden_state A w a t = Ok x /\ anrows x = 1 /\
    create_cell_model_inputs A w x = Ok (a', t) /\
    get_parameters a' (asoh_inputs A w) = Ok v /\
    (forall nm m, ~ In nm (asoh_inputs A w) -> (holds a' nm m <-> holds (w_asoh A w) nm m)).
Proof.
  intros A w a t v Rd [_ L] Wa Ua Wt Ut Lt G Cv Wv I.
  assert (NE : nonempty t).
  { destruct (ready_transients A w Rd) as [_ (k & f & H)]. unfold nonempty, has_field in *.
    apply (in_map (fun kf => (fst kf, option_map acols (snd kf)))) in H. fold (layout A (w_transients A w)) in H.
    rewrite <- Lt in H. apply in_map_iff in H as ([k' [f'|]] & E & H); cbn in E; [|discriminate]. eauto. }
  assert (Rv : anrows v = 1).
  { destruct (get_parameters_shape a 1 (asoh_inputs A w)) as (m & G' & Rm & _); auto.
    - now apply unbatched_ge1.
    - now apply unbatched_size.
    - congruence. }
  destruct (C01_encode_rows A t 1) as (tm & Et & Wtm & Rtm & Ctm & _); auto.
  { intros k f H. rewrite (Ut k f H). lia. }
  { split; [intros k f H; left; eauto|auto]. }
  rewrite (layout_width A _ _ Lt), <- (ready_width A w Rd) in Ctm.
  set (j := hcat2 tm v).
  assert (Bj : batch_of A (num_hidden_dimensions A w) j).
  { split; [now apply wf_hcat2|]. unfold j. rewrite anrows_hcat2 by congruence. split; [lia|].
    cbn. unfold num_hidden_dimensions. lia. }
  destruct (L j Bj) as (x & Ex & Bx & Rx & Es).
  destruct (decode_spec A w x j Rd Es Bj) as (a' & t' & D & Et' & Wa' & G' & N & I' & T & K).
  assert (Tk : take_cols (num_transients A w) j = tm) by (rewrite <- Ctm; apply take_hcat2; congruence).
  assert (Dr : drop_cols (num_transients A w) j = v) by (rewrite <- Ctm; apply drop_hcat2; congruence).
  rewrite Tk in *. rewrite Dr in *.
  assert (t' = t) as ->.
  { rewrite T. unfold make_copy. rewrite <- (from_numpy_layout A t _ _ Lt).
    destruct (C01_decode_after_encode_unbatched A t Wt NE Ut) as (v' & E1 & E2).
    rewrite Et in E1. injection E1 as <-. exact E2. }
  exists x, a'. split.
  - unfold create_hidden_state. rewrite Et, G. cbn [bind]. rewrite hconcat2 by congruence. exact Ex.
  - split; [rewrite Rx; unfold j; rewrite anrows_hcat2; congruence|]. split; [exact D|]. split; [|exact K].
    destruct (asoh_inputs A w) as [|n ns] eqn:En; [|apply G'; discriminate].
    rewrite (N eq_refl). cbn [get_parameters] in *. destruct Rd. rewrite unbatched_size in * by auto. exact G.
Qed.
Print Assumptions C54_decode_encoded.

(** Without selected parameters only single hidden states survive: encoding what was
    decoded from a larger batch raises. *)
Theorem C54_nothing_selected_refuted : forall A (w : wrapper A) x,
  ready A w -> lossless A (num_hidden_dimensions A w) (hidden_conversion A w) ->
  batch_of A (num_hidden_dimensions A w) x -> asoh_inputs A w = [] -> 2 <= anrows x ->
  exists a t, create_cell_model_inputs A w x = Ok (a, t) /\ create_hidden_state A w a t = Err ValueError.
Proof.
  intros A w x Rd [L _] Bx En H. destruct (L x Bx) as (j & Ej & Bj & Rj & Ei).
  destruct (decode_spec A w x j Rd Ej Bj) as (a & t & D & Et & Wa & G & N & I & _ & K).
  exists a, t. split; [exact D|]. unfold create_hidden_state. rewrite Et, En, (N En). cbn [bind get_parameters].
  destruct Rd. rewrite unbatched_size by auto. cbn [bind]. rewrite hconcat2_err; [reflexivity|].
  rewrite anrows_take. cbn. lia.
Qed.
Print Assumptions C54_nothing_selected_refuted.

(** * C55 and C88 *)

Lemma entry_hcat_left {A} (x y : arr A) r c : wf_arr x -> anrows y = anrows x -> c < acols x ->
  entry r c (hcat2 x y) = entry r c x.
Proof.
  destruct x as [cx rx], y as [cy ry]. unfold wf_arr, anrows, entry, hcat2. cbn.
  intros W L C. revert r ry L. induction W as [|q rx Hq W IH]; intros r [|s ry] L; cbn in L; try discriminate.
  - now destruct r.
  - destruct r as [|r]; cbn; [|apply IH; lia]. rewrite nth_error_app1; auto; lia.
Qed.
Lemma entry_hcat_right {A} (x y : arr A) r c : wf_arr x -> anrows y = anrows x ->
  entry r (acols x + c) (hcat2 x y) = entry r c y.
Proof.
  destruct x as [cx rx], y as [cy ry]. unfold wf_arr, anrows, entry, hcat2. cbn.
  intros W L. revert r ry L. induction W as [|q rx Hq W IH]; intros r [|s ry] L; cbn in L; try discriminate.
  - now destruct r.
  - destruct r as [|r]; cbn; [|apply IH; lia]. rewrite nth_error_app2 by lia. f_equal. lia.
Qed.
Lemma entry_drop {A} (x : arr A) n r c : entry r c (drop_cols n x) = entry r (n + c) x.
Proof.
  destruct x as [cx rx]. unfold entry, drop_cols. cbn. rewrite nth_error_map.
  destruct (nth_error rx r) as [q|]; cbn; [|reflexivity].
  revert n; induction q as [|a q IH]; intros [|n]; cbn; auto. now destruct c.
Qed.
Lemma entry_broadcast {A} (m : arr A) n r c : anrows m = 1 \/ anrows m = n -> r < n ->
  entry r c (broadcast_rows n m) = entry (if Nat.eqb (anrows m) 1 then 0 else r) c m.
Proof.
  intros H L. destruct m as [cm rm]. unfold entry, broadcast_rows, anrows in *. cbn in *.
  destruct rm as [|q [|q' rm]]; cbn in *; auto.
  rewrite nth_error_repeat; auto.
Qed.

(** What an update of the joint hidden state computes. *)
Lemma joint_update_spec : forall A (w : wrapper A) x pc nc j a t pi ni a1 t' a2 y0 d tm dm,
  ready A w -> lossless A (num_hidden_dimensions A w) (hidden_conversion A w) ->
  batch_of A (num_hidden_dimensions A w) x ->
  op_samples A (hidden_conversion A w) x = Ok j ->
  create_cell_model_inputs A w x = Ok (a, t) ->
  controls_to_inputs A w pc = Ok pi -> controls_to_inputs A w nc = Ok ni ->
  cm_update (cell_of A w) pi ni t a = (a1, Ok t') ->
  cm_voltage (cell_of A w) pi t a1 = (a2, Ok y0) ->
  deg_model A w a2 pi t y0 = Ok d ->
  to_numpy t' = Ok tm -> wf_arr tm -> acols tm = num_transients A w -> anrows tm = 1 \/ anrows tm = anrows x ->
  get_parameters d (asoh_inputs A w) = Ok dm -> wf_arr dm -> acols dm = num_asoh A w -> anrows dm = 1 \/ anrows dm = anrows x ->
  exists y, joint_update A w x pc nc = Ok y /\
    op_samples A (hidden_conversion A w) y = Ok (hcat2 (broadcast_rows (anrows x) tm) (broadcast_rows (anrows x) dm)) /\
    batch_of A (num_hidden_dimensions A w) y /\ anrows y = anrows x.
Proof.
  intros A w x pc nc j a t pi ni a1 t' a2 y0 d tm dm Rd [L1 L2] Bx Ej D Ep En Eu Ev Ed Et Wt Ct Rt Eg Wd Cd Rd'.
  destruct (L1 x Bx) as (j' & Ej' & Bj & Rj & _). rewrite Ej in Ej'. injection Ej' as <-.
  set (TM := broadcast_rows (anrows x) tm). set (DM := broadcast_rows (anrows x) dm).
  assert (RT : anrows TM = anrows x) by (now apply anrows_broadcast).
  assert (RD : anrows DM = anrows x) by (now apply anrows_broadcast).
  assert (WT : wf_arr TM) by (now apply wf_broadcast). assert (WD : wf_arr DM) by (now apply wf_broadcast).
  assert (CT : acols TM = num_transients A w) by (unfold TM; now rewrite acols_broadcast).
  assert (CD : acols DM = num_asoh A w) by (unfold DM; now rewrite acols_broadcast).
  destruct Bj as (Wj & R1 & Cj). unfold num_hidden_dimensions in Cj.
  assert (Bo : batch_of A (num_hidden_dimensions A w) (hcat2 TM DM)).
  { split; [now apply wf_hcat2|]. rewrite anrows_hcat2 by congruence. split; [rewrite RT; apply Bx|].
    cbn. unfold num_hidden_dimensions. lia. }
  destruct (L2 _ Bo) as (y & Ey & By & Ry & Es).
  exists y. split; [|split; [exact Es|split; [exact By|rewrite Ry, anrows_hcat2; congruence]]].
  unfold joint_update. rewrite Ep, En, D. cbn [bind]. rewrite Ej. cbn [bind]. rewrite Eu. cbn [bind].
  rewrite Ev. cbn [bind]. rewrite Ed, Et. cbn [bind].
  rewrite (assign_broadcast A 0 (num_transients A w) j tm); [|rewrite Rj; exact Rt|lia].
  rewrite Rj. fold TM. rewrite assign_take; auto; [|congruence|lia]. cbn [bind].
  rewrite Eg. cbn [bind].
  set (J := drop_cols (num_transients A w) j).
  assert (RJ : anrows J = anrows TM) by (unfold J; rewrite anrows_drop; congruence).
  assert (RH : anrows (hcat2 TM J) = anrows x) by (rewrite anrows_hcat2; congruence).
  rewrite assign_broadcast.
  - rewrite RH. fold DM. rewrite assign_drop; auto.
    + unfold J. now apply wf_drop.
    + congruence.
    + unfold J. cbn. lia.
  - rewrite RH. exact Rd'.
  - rewrite Nat.min_id. unfold J. cbn. lia.
Qed.

(** Without a degradation model, an update leaves the health part of every row of
    the hidden state unchanged and replaces the transient part by the cell model's
    update of the decoded state (in model coordinates). *)
Theorem C55_health_is_held : forall A (w : wrapper A) x pc nc j a t pi ni t' tm,
  ready A w -> lossless A (num_hidden_dimensions A w) (hidden_conversion A w) ->
  batch_of A (num_hidden_dimensions A w) x ->
  only_reads A (cell_of A w) -> deg_model A w = no_degradation ->
  op_samples A (hidden_conversion A w) x = Ok j ->
  create_cell_model_inputs A w x = Ok (a, t) ->
  controls_to_inputs A w pc = Ok pi -> controls_to_inputs A w nc = Ok ni ->
  snd (cm_update (cell_of A w) pi ni t a) = Ok t' ->
  to_numpy t' = Ok tm -> wf_arr tm -> acols tm = num_transients A w -> anrows tm = 1 \/ anrows tm = anrows x ->
  is_ok (snd (cm_voltage (cell_of A w) pi t (fst (cm_update (cell_of A w) pi ni t a)))) ->
  exists y j', joint_update A w x pc nc = Ok y /\ batch_of A (num_hidden_dimensions A w) y /\ anrows y = anrows x /\
    op_samples A (hidden_conversion A w) y = Ok j' /\
    (forall r c, num_transients A w <= c -> entry r c j' = entry r c j) /\
    (forall r c, r < anrows x -> c < num_transients A w ->
       entry r c j' = entry (if Nat.eqb (anrows tm) 1 then 0 else r) c tm).
Proof.
  intros A w x pc nc j a t pi ni t' tm Rd LL Bx [RO1 RO2] ND Ej D Ep En Eu Et Wt Ct Rt [y0 Ev].
  destruct (proj1 LL x Bx) as (j' & Ej' & Bj & Rj & _). rewrite Ej in Ej'. injection Ej' as <-.
  destruct (decode_spec A w x j Rd Ej Bj) as (a' & t1 & D' & _ & Wa & G & N & I & _ & _).
  rewrite D in D'. injection D' as <- <-.
  specialize (RO1 pi ni t a). destruct (cm_update (cell_of A w) pi ni t a) as [a1 r1] eqn:EU. cbn [fst snd] in *. subst r1.
  specialize (RO2 pi t a1). destruct (cm_voltage (cell_of A w) pi t a1) as [a2 r2] eqn:EV. cbn [fst snd] in *. subst r2.
  pose proof (keeps_trans A _ _ _ RO1 RO2) as K.
  assert (exists dm, get_parameters a2 (asoh_inputs A w) = Ok dm /\ wf_arr dm /\ acols dm = num_asoh A w /\
     (anrows dm = 1 \/ anrows dm = anrows x) /\
     broadcast_rows (anrows x) dm = drop_cols (num_transients A w) j) as (dm & Eg & Wd & Cd & Rd' & Bd).
  { rewrite (keeps_get A a a2) by auto. destruct (decode_parts A w j Rd Bj) as [_ (Wv & Rv & Cv)].
    rewrite anrows_drop in Rv.
    destruct (asoh_inputs A w) as [|n ns] eqn:En'.
    - exists (mkArr 0 [[]]). rewrite (N eq_refl). cbn [get_parameters]. destruct Rd.
      rewrite unbatched_size by auto. cbn.
      destruct ready_num as (ms & Hm & Em). rewrite En' in Hm. inversion Hm; subst. cbn in Em.
      split; [reflexivity|]. split; [repeat constructor|]. split; [lia|]. split; [now left|].
      rewrite Em in Cv. destruct j as [cj rj]. unfold drop_cols, anrows, wf_arr in *. cbn in *. rewrite Cv, <- Rj. f_equal.
      clear - Wv Cv. induction rj as [|q rj IH]; [reflexivity|]. cbn in *. inversion Wv; subst. f_equal; [|auto].
      symmetry. apply length_zero_iff_nil. lia.
    - exists (drop_cols (num_transients A w) j). split; [apply G; discriminate|]. split; [exact Wv|]. split; [exact Cv|].
      rewrite anrows_drop. split; [now right|]. apply broadcast_same. now rewrite anrows_drop. }
  destruct (joint_update_spec A w x pc nc j a t pi ni a1 t' a2 y0 a2 tm dm) as (y & Ey & Es & By & Ry); auto.
  { now rewrite ND. }
  exists y. eexists. split; [exact Ey|]. split; [exact By|]. split; [exact Ry|]. split; [exact Es|].
  set (TM := broadcast_rows (anrows x) tm) in *. rewrite Bd in *.
  assert (WT : wf_arr TM) by (now apply wf_broadcast).
  assert (CT : acols TM = num_transients A w) by (unfold TM; now rewrite acols_broadcast).
  assert (RT : anrows (drop_cols (num_transients A w) j) = anrows TM).
  { rewrite anrows_drop. unfold TM. rewrite anrows_broadcast; auto. }
  split.
  - intros r c L. replace c with (acols TM + (c - num_transients A w)) at 1 by lia.
    rewrite entry_hcat_right by auto. rewrite entry_drop. f_equal. lia.
  - intros r c Lr Lc. rewrite entry_hcat_left by (auto; lia). now apply entry_broadcast.
Qed.
Print Assumptions C55_health_is_held.

(** With a degradation model, the joint wrapper degrades with the previous inputs,
    the state before the update and the voltage predicted there: the new health
    part does not depend on the new controls. *)
Theorem C88_joint_degradation_lags : forall A (w : wrapper A) x pc nc j a t pi ni t' tm y0 d dm,
  ready A w -> lossless A (num_hidden_dimensions A w) (hidden_conversion A w) ->
  batch_of A (num_hidden_dimensions A w) x ->
  (forall p n t a, fst (cm_update (cell_of A w) p n t a) = a) ->
  (forall u t a, fst (cm_voltage (cell_of A w) u t a) = a) ->
  op_samples A (hidden_conversion A w) x = Ok j ->
  create_cell_model_inputs A w x = Ok (a, t) ->
  controls_to_inputs A w pc = Ok pi -> controls_to_inputs A w nc = Ok ni ->
  snd (cm_update (cell_of A w) pi ni t a) = Ok t' ->
  to_numpy t' = Ok tm -> wf_arr tm -> acols tm = num_transients A w -> anrows tm = 1 \/ anrows tm = anrows x ->
  snd (cm_voltage (cell_of A w) pi t a) = Ok y0 -> deg_model A w a pi t y0 = Ok d ->
  get_parameters d (asoh_inputs A w) = Ok dm -> wf_arr dm -> acols dm = num_asoh A w -> anrows dm = 1 \/ anrows dm = anrows x ->
  exists y j', joint_update A w x pc nc = Ok y /\
    op_samples A (hidden_conversion A w) y = Ok j' /\
    forall r c, r < anrows x ->
      entry r (num_transients A w + c) j' = entry (if Nat.eqb (anrows dm) 1 then 0 else r) c dm.
Proof.
  intros A w x pc nc j a t pi ni t' tm y0 d dm Rd LL Bx P1 P2 Ej D Ep En Eu Et Wt Ct Rt Ev Ed Eg Wd Cd Rd'.
  specialize (P1 pi ni t a). destruct (cm_update (cell_of A w) pi ni t a) as [a1 r1] eqn:EU. cbn [fst snd] in *. subst a1 r1.
  specialize (P2 pi t a). destruct (cm_voltage (cell_of A w) pi t a) as [a2 r2] eqn:EV. cbn [fst snd] in *. subst a2 r2.
  destruct (joint_update_spec A w x pc nc j a t pi ni a t' a y0 d tm dm) as (y & Ey & Es & By & Ry); auto.
  exists y. eexists. split; [exact Ey|]. split; [exact Es|]. intros r c L.
  replace (num_transients A w) with (acols (broadcast_rows (anrows x) tm)) by (now rewrite acols_broadcast).
  rewrite entry_hcat_right; [now apply entry_broadcast|now apply wf_broadcast|].
  rewrite !anrows_broadcast; auto.
Qed.
Print Assumptions C88_joint_degradation_lags.

(** * C89 *)

(** The two wrappers of a dual estimator predict the same measurement for the same
    health parameters and transient state: predicting from the updated transient
    state (transient wrapper) is predicting from the old one between the previous
    and the new controls (health wrapper). *)
Theorem C89_same_prediction : forall A (wc wd : wrapper A) x xt pc nc a p n t',
  cell_of A wd = cell_of A wc -> w_inputs A wd = w_inputs A wc ->
  control_conversion A wd = control_conversion A wc -> output_conversion A wd = output_conversion A wc ->
  lossless A (width (w_transients A wc)) (hidden_conversion A wc) ->
  hidden_to_asoh A wd x = Ok a -> w_asoh A wc = a ->
  hidden_to_transients A wc xt = Ok (w_transients A wd) ->
  controls_to_inputs A wc pc = Ok p -> controls_to_inputs A wc nc = Ok n ->
  snd (cm_update (cell_of A wc) p n (w_transients A wd) a) = Ok t' ->
  well_formed t' -> nonempty t' -> (forall k f, has_field t' k f -> anrows f = 1) ->
  layout A t' = layout A (w_transients A wc) ->
  exists xt', snd (cell_update A wc xt pc nc) = Ok xt' /\
    snd (cell_predict A (fst (cell_update A wc xt pc nc)) xt' nc) = degradation_predict A wd p x nc.
Proof.
  intros A wc wd x xt pc nc a p n t' Ec Ei Ek Eo [_ L] Ea Ew Et Ep En Eu Wt NE Ut Lt.
  destruct (C01_encode_rows A t' 1) as (tm & Em & Wtm & Rtm & Ctm & _); auto.
  { intros k f H. rewrite (Ut k f H). lia. }
  { split; [intros k f H; left; eauto|auto]. }
  rewrite (layout_width A _ _ Lt) in Ctm.
  destruct (L tm) as (xt' & Ex & Bx & _ & Es).
  { split; [exact Wtm|]. split; [lia|exact Ctm]. }
  unfold cell_update. rewrite Et, Ep, En. cbn [bind]. rewrite Ew.
  destruct (cm_update (cell_of A wc) p n (w_transients A wd) a) as [a1 r1] eqn:EU. cbn [fst snd] in *. subst r1.
  cbn [bind]. rewrite Em. cbn [bind]. exists xt'. split; [exact Ex|].
  unfold cell_predict, degradation_predict.
  assert (hidden_to_transients A (with_asoh A wc a1) xt' = Ok t') as ->.
  { unfold hidden_to_transients. cbn [hidden_conversion with_asoh w_transients]. rewrite Es. cbn [bind]. f_equal.
    unfold make_copy. rewrite <- (from_numpy_layout A t' _ _ Lt).
    destruct (C01_decode_after_encode_unbatched A t' Wt NE Ut) as (v' & E1 & E2).
    rewrite Em in E1. injection E1 as <-. exact E2. }
  assert (controls_to_inputs A (with_asoh A wc a1) nc = Ok n) as -> by exact En.
  assert (controls_to_inputs A wd nc = Ok n) as ->.
  { rewrite <- En. unfold controls_to_inputs. now rewrite Ei, Ek. }
  cbn [bind]. rewrite Ea. cbn [bind]. rewrite Ec, EU. cbn [bind]. cbn [with_asoh cell_of w_asoh output_conversion].
  destruct (cm_voltage (cell_of A wc) n t' a1) as [a2 [y|e]]; cbn [snd bind]; [|reflexivity].
  now rewrite Eo.
Qed.
Print Assumptions C89_same_prediction.

(** * Concrete cases *)

(** A conversion that reverses the coordinates. *)
Definition reverse_rows (x : arr nat) : arr nat := mkArr (acols x) (map (@rev nat) (arows x)).
Definition reverse_operator : operator nat :=
  Operator nat (fun x => Ok (reverse_rows x)) (fun s _ => Ok s) (fun x => Ok (reverse_rows x)) (fun s _ => Ok s).
Lemma lossless_reverse n : lossless nat n reverse_operator.
Proof.
  assert (forall x, reverse_rows (reverse_rows x) = x) as RR.
  { intros [c rs]. unfold reverse_rows. cbn. f_equal. induction rs; cbn; [auto|]. now rewrite rev_involutive, IHrs. }
  assert (there_and_back nat n (fun x => Ok (reverse_rows x)) (fun x => Ok (reverse_rows x))).
  { intros x (W & R1 & C). exists (reverse_rows x). split; [auto|]. split; [|split; [apply map_length|now rewrite RR]].
    split; [|split; [unfold anrows, reverse_rows; cbn; rewrite map_length; exact R1|exact C]].
    unfold wf_arr, reverse_rows in *. cbn. induction W; cbn; constructor; auto. now rewrite rev_length. }
  split; assumption.
Qed.
Lemma lossless_identity A n : lossless A n (identity_operator A).
Proof. split; intros x B; exists x; auto. Qed.

(** A cell whose charge counts the current and whose overpotential follows it, with
    the capacity as the voltage, evaluated for every member of the batch. *)
Definition column (k : string) (c : container nat) : list (list nat) :=
  match assoc k c with Some (Some f) => arows f | _ => [] end.
Definition first (r : list nat) : nat := List.hd 0 r.
Definition toy : cell_model (container nat) (container nat) (hv nat) (container nat) :=
  {| cm_update := fun p n t a =>
      (a, let i := first (List.hd [] (column "i" n)) in
          Ok [("q", Some (mkArr 1 (map (fun r => [first r + i]) (column "q" t))));
              ("v", Some (mkArr 2 (map (fun r => [i; first r]) (column "v" t))))]);
     cm_voltage := fun u t a =>
      (a, let! m := get_parameters a ["q_t"] in
          Ok [("y", Some (mkArr 1 (map (fun r => [first r + first (List.hd [] (column "i" u))]) (arows m))))]) |}.
Definition toy_transients : container nat :=
  [("q", Some (mkArr 1 [[5]])); ("v", Some (mkArr 2 [[1; 2]]))].
Definition toy_inputs : container nat := [("i", Some (mkArr 1 [[3]]))].
Definition toy_names := ["rc.1.base_values"; "q_t"].
Definition toy_wrapper (l : list string) (k : nat) (D : degradation_model _ _ _ _) : wrapper nat :=
  Wrapper nat toy ex toy_transients toy_inputs l D reverse_operator
    (identity_operator nat) (identity_operator nat) 3 k 1.

Lemma toy_reads : only_reads nat toy.
Proof. split; intros; apply keeps_refl. Qed.
Lemma toy_built D : joint_init nat toy D ex toy_transients toy_inputs (Some toy_names) reverse_operator
    (identity_operator nat) (identity_operator nat) = Ok (toy_wrapper toy_names 3 D).
Proof. reflexivity. Qed.
Lemma toy_unselected D : joint_init nat toy D ex toy_transients toy_inputs (Some []) reverse_operator
    (identity_operator nat) (identity_operator nat) = Ok (toy_wrapper [] 0 D).
Proof. reflexivity. Qed.
Lemma toy_wf : well_formed toy_transients /\ nonempty toy_transients /\
  (forall k f, has_field toy_transients k f -> anrows f = 1).
Proof.
  split; [split|split].
  - repeat constructor; cbn; intuition discriminate.
  - intros k f [E|[E|[]]]; inversion E; subst; repeat constructor.
  - exists "q", (mkArr 1 [[5]]). now left.
  - intros k f [E|[E|[]]]; inversion E; subst; reflexivity.
Qed.
Lemma toy_ready D : ready nat (toy_wrapper toy_names 3 D).
Proof.
  destruct toy_wf as (W & N & U).
  apply (C54_constructed nat toy D ex toy_transients toy_inputs (Some toy_names) reverse_operator
    (identity_operator nat) (identity_operator nat)); auto using toy_reads, wf_ex, unbatched_ge1, unbatched_ex.
  - intros k f H. rewrite (U k f H). lia.
  - split; [repeat constructor; cbn; intuition discriminate|].
    apply Forall_forall. intros x [<-|[<-|[]]]; apply may_update_iff; try apply wf_ex; cbn; auto.
Qed.
Lemma toy_ready0 D : ready nat (toy_wrapper [] 0 D).
Proof.
  destruct toy_wf as (W & N & U).
  apply (C54_constructed nat toy D ex toy_transients toy_inputs (Some []) reverse_operator
    (identity_operator nat) (identity_operator nat)); auto using toy_reads, wf_ex, unbatched_ge1, unbatched_ex.
  - intros k f H. rewrite (U k f H). lia.
  - split; constructor.
Qed.

(** Two hidden states, in filter coordinates (reversed): the last three columns are
    the transient state, read backwards. *)
Definition two_states : arr nat := mkArr 6 [[9; 8; 7; 3; 2; 1]; [19; 18; 17; 13; 12; 11]].

Example C54_case :
  let w := toy_wrapper toy_names 3 no_degradation in
  ready nat w /\ lossless nat (num_hidden_dimensions nat w) (hidden_conversion nat w) /\
  batch_of nat (num_hidden_dimensions nat w) two_states /\ asoh_inputs nat w <> [] /\
  exists a t, create_cell_model_inputs nat w two_states = Ok (a, t) /\
    t = [("q", Some (mkArr 1 [[1]; [11]])); ("v", Some (mkArr 2 [[2; 3]; [12; 13]]))] /\
    get_parameters a toy_names = Ok (mkArr 3 [[7; 8; 9]; [17; 18; 19]]) /\
    create_hidden_state nat w a t = Ok two_states /\
    create_hidden_state nat w ex toy_transients = Ok (mkArr 6 [[7; 21; 20; 2; 1; 5]]).
Proof.
  cbn zeta. split; [apply toy_ready|]. split; [apply lossless_reverse|]. split; [|split; [discriminate|]].
  - split; [repeat constructor|]. cbn. split; [lia|reflexivity].
  - eexists; eexists. split; [reflexivity|]. repeat split; reflexivity.
Qed.

Example C54_nothing_selected_case :
  let w := toy_wrapper [] 0 no_degradation in
  let x := mkArr 3 [[3; 2; 1]; [13; 12; 11]] in
  ready nat w /\ batch_of nat (num_hidden_dimensions nat w) x /\ asoh_inputs nat w = [] /\ 2 <= anrows x.
Proof.
  cbn zeta. split; [apply toy_ready0|]. split; [|split; [reflexivity|cbn; lia]].
  split; [repeat constructor|]. cbn. split; [lia|reflexivity].
Qed.

(** One update with the current 4: charges grow by 4, overpotentials shift, health
    is kept. *)
Example C55_case :
  joint_update nat (toy_wrapper toy_names 3 no_degradation) two_states (mkArr 1 [[3]]) (mkArr 1 [[4]])
    = Ok (mkArr 6 [[9; 8; 7; 2; 4; 5]; [19; 18; 17; 12; 4; 15]]).
Proof. reflexivity. Qed.

(** A degradation model that lowers nothing but adds the voltage to the capacity. *)
Definition toy_degradation : degradation_model (container nat) (container nat) (hv nat) (container nat) :=
  fun a u t y => let! m := get_parameters a ["q_t"] in
    snd (hv_make_copy a (V2 (mkArr 1 (map2 (fun r s => [first r + first s]) (arows m) (column "y" y)))) ["q_t"]).
(** Previous current 3, new current 4: the joint wrapper adds 9 + 3 to the capacity
    9, the health wrapper adds 9 + 4. *)
Example C88_case :
  let w := toy_wrapper toy_names 3 toy_degradation in
  let x := mkArr 6 [[9; 8; 7; 3; 2; 1]] in
  joint_update nat w x (mkArr 1 [[3]]) (mkArr 1 [[4]]) = Ok (mkArr 6 [[21; 8; 7; 2; 4; 5]]) /\
  joint_update nat w x (mkArr 1 [[3]]) (mkArr 1 [[5]]) = Ok (mkArr 6 [[21; 8; 7; 2; 5; 6]]) /\
  snd (degradation_update nat w toy_inputs (mkArr 3 [[9; 8; 7]]) (mkArr 1 [[3]]) (mkArr 1 [[4]]))
    = Ok (mkArr 3 [[22; 8; 7]]).
Proof. repeat split. Qed.

Example C89_case :
  let wc := toy_wrapper [] 0 no_degradation in
  let wd := toy_wrapper toy_names 3 no_degradation in
  hidden_to_transients nat wc (mkArr 3 [[2; 1; 5]]) = Ok (w_transients nat wd) /\
  degradation_predict nat wd [("i", Some (mkArr 1 [[3]]))] (mkArr 3 [[7; 21; 20]]) (mkArr 1 [[4]])
    = Ok (mkArr 1 [[11]]) /\
  hidden_to_asoh nat wd (mkArr 3 [[7; 21; 20]]) = Ok ex.
Proof. repeat split. Qed.

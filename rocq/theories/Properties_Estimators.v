(** C56-C60, C62, C90: joint and dual estimators. *)
From Coq Require Import String List Arith Bool Lia.
Import ListNotations.
From Verif Require Import Res Arr Arr_lemmas NdArray Container Container_proofs Spec_Container Names Health Spec_Health
  Health_lemmas Health_resolve Health_update Health_proofs Health_misc Simulator Distributions Spec_Distributions
  Distributions_proofs Wrappers Spec_Wrappers Estimators Spec_Estimators
  Properties_Container Properties_Health Wrappers_proofs Properties_Wrappers.
From Verif Require Properties_Distributions.
Local Open Scope string_scope.
Local Open Scope list_scope.
Local Open Scope nat_scope.

(** * Conversion of one distribution *)
Section Convert.
Variable A : Type.
Variable zero : A.

Lemma new_delta_list (l : list A) : new_delta A (nd_of_list A l) = Ok l.
Proof. reflexivity. Qed.

Lemma new_gaussian_valid n (d : dist A) : valid n d ->
  new_gaussian A (nd_of_list A (d_mean d)) (nd_of_arr A (d_cov d)) = Ok d.
Proof.
  destruct d as [m [c rs]]. intros (H1 & L & C & R & F). cbn in *. unfold new_gaussian, nd_of_list, nd_of_arr, anrows. cbn.
  rewrite R, C. rewrite L. destruct n as [|n]; [lia|]. cbn - [rows_of].
  unfold fields_dim, anrows. cbn - [rows_of].
  assert (rows_of (S n) (S n) (List.concat rs) = rs) as E by (rewrite <- R at 1; now apply rows_of_concat).
  rewrite E, R, L, !Nat.eqb_refl. cbn. reflexivity.
Qed.

Lemma new_gaussian_of_list (mu : list A) s d : new_gaussian A (nd_of_list A mu) s = Ok d -> d_mean d = mu.
Proof.
  unfold new_gaussian, nd_of_list. cbn.
  destruct (List.length mu) as [|k] eqn:L; cbn.
  - destruct (min_length_1 A s) as [x|[]]; cbn; try discriminate. destruct (cov_2d A x) as [y|[]]; discriminate.
  - destruct (min_length_1 A s) as [x|[]]; cbn; try discriminate. destruct (cov_2d A x) as [y|[]]; cbn; try discriminate.
    unfold fields_dim. cbn. destruct (_ && _); [|discriminate]. now intros [= <-].
Qed.

(** The mean of a converted distribution is the converted mean. *)
Lemma convert_mean op inv x y : convert A op inv x = Ok y ->
  on_vector A (if inv then op_inverse_samples A op else op_samples A op) (mean_of A x) = Ok (mean_of A y).
Proof.
  unfold convert. destruct x as [d|mu]; cbn [mean_of].
  - destruct (on_vector A _ (d_mean d)) as [m|]; cbn; [|discriminate].
    destruct ((if inv then op_inverse_covariance A op else op_covariance A op) (d_cov d) (d_mean d)) as [s|]; cbn; [|discriminate].
    destruct (new_gaussian A (nd_of_list A m) (nd_of_arr A s)) as [d'|] eqn:E; cbn; [|discriminate].
    intros [= <-]. apply new_gaussian_of_list in E. cbn. now rewrite E.
  - destruct (on_vector A _ mu) as [m|]; cbn; [|discriminate]. now intros [= <-].
Qed.

Lemma convert_identity inv x : consistent A x -> convert A (identity_operator A) inv x = Ok x.
Proof.
  intros C. unfold convert. assert ((if inv then op_inverse_samples A (identity_operator A) else op_samples A (identity_operator A)) = (fun x => Ok x)) as -> by now destruct inv.
  assert ((if inv then op_inverse_covariance A (identity_operator A) else op_covariance A (identity_operator A)) = (fun s _ => Ok s)) as -> by now destruct inv.
  destruct x as [d|mu]; cbn; [|reflexivity]. destruct C as [n V]. now rewrite (new_gaussian_valid n).
Qed.

Lemma on_vector_row f (v r : list A) y n : f (row A v) = Ok y -> batch_of A n y -> anrows y = 1 ->
  on_vector A f v = Ok r -> y = row A r /\ List.length r = n.
Proof.
  intros E (W & _ & C) R O. unfold on_vector in O. fold (row A v) in O. rewrite E in O. cbn in O.
  destruct y as [c [|q [|? ?]]]; try discriminate. injection O as <-. unfold wf_arr, row in *. cbn in *.
  apply Forall_inv in W. cbn in W. rewrite W. auto.
Qed.

Lemma batch_row n (v : list A) : List.length v = n -> batch_of A n (row A v).
Proof. intros L. split; [repeat constructor|]. cbn. auto. Qed.
End Convert.

(** * C56 *)

(** [step] returns the conversion of what [state] then returns. *)
Theorem C56_step_returns_converted_state : forall A F (K : filter A F) e inputs measurements e' h p,
  returns_hidden A K ->
  joint_step A F K e inputs measurements = (e', Ok (h, p)) ->
  convert A (hidden_conversion A (j_wrapper A F e')) false (joint_state A F K e') = Ok h.
Proof.
  intros A F K e u y e' h p RH. unfold joint_step.
  destruct (let! u0 := _ in _) as [[u' y']|x]; [|discriminate].
  destruct (f_step A F K (j_wrapper A F e) (j_filter A F e) u' y') as [[a f] r] eqn:E.
  destruct r as [[h0 p0]|]; [|discriminate]. cbn [bind].
  destruct (convert A (hidden_conversion A (j_wrapper A F e)) false h0) as [h1|] eqn:E1; [|discriminate]. cbn [bind].
  destruct (convert A (output_conversion A (j_wrapper A F e)) false p0) as [p1|] eqn:E2; [|discriminate].
  intros [= <- <- _]. cbn. unfold joint_state. cbn. now rewrite <- (RH _ _ _ _ _ _ _ _ E).
Qed.
Print Assumptions C56_step_returns_converted_state.

(** The two agree if the hidden conversion is the identity ... *)
Theorem C56_identity_agrees : forall A F (K : filter A F) e inputs measurements e' h p,
  returns_hidden A K -> hidden_conversion A (j_wrapper A F e') = identity_operator A ->
  consistent A (joint_state A F K e') ->
  joint_step A F K e inputs measurements = (e', Ok (h, p)) -> h = joint_state A F K e'.
Proof.
  intros A F K e u y e' h p RH I C S. apply C56_step_returns_converted_state in S; auto.
  rewrite I, convert_identity in S by auto. congruence.
Qed.
Print Assumptions C56_identity_agrees.

(** ... and differ whenever the conversion moves the mean. *)
Theorem C56_differs_otherwise : forall A F (K : filter A F) e inputs measurements e' h p,
  returns_hidden A K ->
  joint_step A F K e inputs measurements = (e', Ok (h, p)) ->
  on_vector A (op_samples A (hidden_conversion A (j_wrapper A F e'))) (mean_of A (joint_state A F K e'))
    <> Ok (mean_of A (joint_state A F K e')) ->
  mean_of A h <> mean_of A (joint_state A F K e').
Proof.
  intros A F K e u y e' h p RH S D E. apply C56_step_returns_converted_state in S; auto.
  apply convert_mean in S. cbn in S. rewrite E in S. contradiction.
Qed.
Print Assumptions C56_differs_otherwise.

Lemma ready_keeps A (w : wrapper A) a : ready A w -> keeps A (w_asoh A w) a -> ready A (with_asoh A w a).
Proof.
  intros [W U ND F T Wd (ms & Hm & Em)] K. split; cbn; auto.
  - now apply (proj1 K).
  - now apply (keeps_unbatched A (w_asoh A w)).
  - eapply Forall_impl; [|exact F]. intros x. now apply keeps_may_update.
  - exists ms. split; auto. clear Em ND F. induction Hm; constructor; auto. now apply (keeps_holds A (w_asoh A w)).
Qed.

(** [get_estimated_state] returns the mean of the estimate returned by the step. *)
Theorem C56_estimated_state : forall A F (K : filter A F) e inputs measurements e' h p,
  returns_hidden A K -> keeps_health A K ->
  ready A (j_wrapper A F e) ->
  lossless A (num_hidden_dimensions A (j_wrapper A F e)) (hidden_conversion A (j_wrapper A F e)) ->
  joint_step A F K e inputs measurements = (e', Ok (h, p)) ->
  List.length (mean_of A (joint_state A F K e')) = num_hidden_dimensions A (j_wrapper A F e) ->
  exists t a tm am, joint_estimated A F K e' = Ok (t, a) /\
    to_numpy t = Ok tm /\ get_parameters a (asoh_inputs A (j_wrapper A F e)) = Ok am /\
    hconcat [tm; am] = Ok (row A (mean_of A h)).
Proof.
  intros A F K e u y e' h p RH KH Rd LL S L.
  pose proof (C56_step_returns_converted_state _ _ _ _ _ _ _ _ _ RH S) as Cv. apply convert_mean in Cv. cbn in Cv.
  assert (exists a0, j_wrapper A F e' = with_asoh A (j_wrapper A F e) a0 /\ keeps A (w_asoh A (j_wrapper A F e)) a0)
    as (a0 & Ew & Kp).
  { unfold joint_step in S. destruct (let! u0 := _ in _) as [[u' y']|x]; [|discriminate].
    specialize (KH (j_wrapper A F e) (j_filter A F e) u' y').
    destruct (f_step A F K (j_wrapper A F e) (j_filter A F e) u' y') as [[a f] r] eqn:E.
    injection S as <- _. cbn. eauto. }
  set (w := j_wrapper A F e') in *. set (m := mean_of A (joint_state A F K e')) in *.
  assert (Rw : ready A w) by (rewrite Ew; now apply ready_keeps).
  assert (Nw : num_hidden_dimensions A w = num_hidden_dimensions A (j_wrapper A F e)) by now rewrite Ew.
  assert (Hw : hidden_conversion A w = hidden_conversion A (j_wrapper A F e)) by now rewrite Ew.
  assert (Aw : asoh_inputs A w = asoh_inputs A (j_wrapper A F e)) by now rewrite Ew.
  rewrite <- Nw, <- Hw in LL. rewrite <- Nw in L. rewrite <- Aw.
  assert (B : batch_of A (num_hidden_dimensions A w) (row A m)) by now apply batch_row.
  destruct (proj1 LL (row A m) B) as (j & Ej & Bj & Rj & _).
  destruct (on_vector_row A _ _ _ _ _ Ej Bj Rj Cv) as [-> Lr].
  destruct (C54_encode_decoded A w (row A m) Rw LL B (or_intror eq_refl)) as (a & t & j' & D & _ & Ej' & Et & Ea & _).
  rewrite Ej in Ej'. injection Ej' as <-.
  exists t, a, (take_cols (num_transients A w) (row A (mean_of A h))), (drop_cols (num_transients A w) (row A (mean_of A h))).
  split; [|split; [exact Et|split; [exact Ea|]]].
  - unfold joint_estimated. fold w. fold m. fold (row A m). rewrite D. reflexivity.
  - rewrite hconcat2 by reflexivity. now rewrite hcat2_take_drop.
Qed.
Print Assumptions C56_estimated_state.

(** * C57 *)

(** [state] of a dual estimator never returns anything; if the hidden states can be
    converted at all, it raises AttributeError. *)
Theorem C57_state_always_raises : forall A z FT FA (KT : filter A FT) (KA : filter A FA) e,
  (exists x, dual_state A z FT FA KT KA e = Err x) /\
  (is_ok (converted_states A FT FA KT KA e) -> dual_state A z FT FA KT KA e = Err AttributeError).
Proof.
  intros A z FT FA KT KA e. unfold dual_state.
  destruct (converted_states A FT FA KT KA e) as [[t a]|x]; cbn [bind].
  - assert (combine_items A z t (iterate A a) = Err AttributeError) as -> by (destruct t, a; reflexivity).
    split; eauto.
  - split; [eauto|]. intros [? ?]. discriminate.
Qed.
Print Assumptions C57_state_always_raises.

(** The estimate returned by [step], in contrast, is the combination of the two
    converted hidden states. *)
Theorem C57_step_combines : forall A z FT FA (KT : filter A FT) (KA : filter A FA) e inputs measurements e' h p,
  returns_hidden A KT -> returns_hidden A KA ->
  dual_step A z FT FA KT KA e inputs measurements = (e', Ok (h, p)) ->
  exists t a, converted_states A FT FA KT KA e' = Ok (t, a) /\
    mean_of A h = mean_of A t ++ mean_of A a /\
    (forall dt da n m, t = RGauss A dt -> a = RGauss A da -> valid n dt -> valid m da ->
       exists d, h = RGauss A d /\ valid (n + m) d /\
         forall i j,
           (i < n -> j < n -> at_ z (d_cov d) i j = at_ z (d_cov dt) i j) /\
           (i < m -> j < m -> at_ z (d_cov d) (n + i) (n + j) = at_ z (d_cov da) i j) /\
           (i < n -> j < m -> at_ z (d_cov d) i (n + j) = z /\ at_ z (d_cov d) (n + j) i = z)).
Proof.
  intros A z FT FA KT KA e u y e' h p RT RA. unfold dual_step.
  destruct (let! u0 := _ in _) as [[[u' y'] [t a]]|x]; [|discriminate].
  set (wc := with_asoh A (d_cell A FT FA e) a). set (wd := with_transients A (d_asoh A FT FA e) t).
  destruct (let! ut := _ in _) as [[ut yt]|x]; [|discriminate].
  destruct (f_step A FT KT wc (d_tfilter A FT FA e) ut yt) as [[a' ft] rt] eqn:ET.
  destruct rt as [[ht pt]|]; [|discriminate]. cbn [bind].
  destruct (let! ua := _ in _) as [[[[? ?] ua] ya]|x] eqn:EB; [|discriminate].
  assert (EQ : (r, r0) = (ht, pt)).
  { destruct (convert A (control_conversion A wd) true u') as [ua'|]; [|discriminate]. cbn [bind] in EB.
    destruct (convert A (output_conversion A wd) true y') as [ya'|]; [|discriminate]. cbn [bind] in EB. congruence. }
  injection EQ as -> ->. clear EB.
  destruct (f_step A FA KA wd (d_afilter A FT FA e) ua ya) as [[a'' fa] ra] eqn:EA.
  destruct ra as [[ha pa]|]; [|discriminate]. cbn [bind].
  destruct (convert A (hidden_conversion A (with_asoh A wc a')) false ht) as [ct|] eqn:C1; [|discriminate]. cbn [bind].
  destruct (convert A (hidden_conversion A (with_asoh A wd a'')) false ha) as [ca|] eqn:C2; [|discriminate]. cbn [bind].
  destruct (convert A (output_conversion A (with_asoh A wc a')) false pt) as [cp|]; [|discriminate]. cbn [bind].
  destruct (convert A (output_conversion A (with_asoh A wd a'')) false pa) as [cq|]; [|discriminate]. cbn [bind].
  destruct (combine_items A z ct [IDist A ca]) as [hh|] eqn:EC; [|discriminate]. cbn [bind].
  intros [= <- -> ->]. exists ct, ca.
  split; [|split].
  - unfold converted_states. cbn. rewrite <- (RT _ _ _ _ _ _ _ _ ET), <- (RA _ _ _ _ _ _ _ _ EA).
    cbn in C1, C2. now rewrite C1, C2.
  - destruct ct as [dt|mt]; cbn in EC.
    + destruct (new_gaussian A _ _) as [d|] eqn:EG in EC; [|discriminate]. injection EC as <-.
      apply new_gaussian_of_list in EG. cbn. rewrite EG. cbn. now rewrite app_nil_r.
    + injection EC as <-. cbn. now rewrite app_nil_r.
  - intros dt da n m -> -> Vt Va.
    destruct (Properties_Distributions.C51_combine A z dt [da]) as (d & Ed & Vd & Md & Bd).
    { repeat constructor; eauto. }
    assert (combine_items A z (RGauss A dt) [IDist A (RGauss A da)] = let! d := combine_gaussians A z dt [da] in Ok (RGauss A d)) as E' by reflexivity.
    rewrite E', Ed in EC. cbn in EC. injection EC as <-.
    pose proof (proj1 (proj2 Vt)) as Lt. pose proof (proj1 (proj2 Va)) as La.
    exists d. split; [reflexivity|]. split.
    + cbn in Vd. rewrite Lt, La in Vd. now rewrite Nat.add_0_r in Vd.
    + intros i j.
      pose proof (Bd 0 0 dt dt i j eq_refl eq_refl) as B00. pose proof (Bd 1 1 da da i j eq_refl eq_refl) as B11.
      pose proof (Bd 0 1 dt da i j eq_refl eq_refl) as B01. pose proof (Bd 1 0 da dt j i eq_refl eq_refl) as B10.
      cbn in *. rewrite ?Lt, ?La, ?Nat.add_0_r in *. split; [|split].
      * intros; now apply B00.
      * intros; now apply B11.
      * intros; split; [now apply B01|now apply B10].
Qed.
Print Assumptions C57_step_combines.

(** * C58 *)
Lemma holds_listed A (a : hv A) names : well_formed_tree a -> incl names (hv_all_names a) ->
  Forall2 (holds a) names (map (lookup a) names).
Proof.
  intros W I. induction names as [|x l IH]; cbn; constructor.
  - apply holds_lookup; auto. split; [apply I; now left|reflexivity].
  - apply IH. intros y Hy. apply I. now right.
Qed.

Lemma wf_v1 A (v : list A) : wf_vals (V1 v).
Proof. repeat constructor. Qed.
Lemma make_copy_ok A (a : hv A) v names h : update_parameters a v names = (h, Ok tt) -> snd (hv_make_copy a v names) = Ok h.
Proof. intros E. now apply C11_make_copy. Qed.

(** Whatever parameters the estimator was asked to estimate, their vector is written
    over all updatable parameters in order of declaration ... *)
Theorem C58_fills_updatable : forall A FT FA (KT : filter A FT) (KA : filter A FA) e t a ms,
  well_formed_tree (b_asoh A (d_base A FT FA e)) -> unbatched (b_asoh A (d_base A FT FA e)) ->
  converted_states A FT FA KT KA e = Ok (t, a) ->
  Forall2 (holds (b_asoh A (d_base A FT FA e))) (updatable_names (b_asoh A (d_base A FT FA e))) ms ->
  updatable_names (b_asoh A (d_base A FT FA e)) <> [] ->
  List.length (mean_of A a) = list_sum (map acols ms) ->
  exists tr h, dual_estimated A FT FA KT KA e = Ok (tr, h) /\
    get_parameters h (updatable_names (b_asoh A (d_base A FT FA e))) = Ok (row A (mean_of A a)).
Proof.
  intros A FT FA KT KA e t a ms W U C Hm NE L. set (b := b_asoh A (d_base A FT FA e)) in *.
  destruct (C10_update_then_read A b (V1 (mean_of A a)) (updatable_names b) ms) as (h & E & G); auto using wf_v1.
  - now apply (C06_listing_exact A b true).
  - apply Forall_forall. intros x Hx. now apply may_update_iff.
  - exists (make_copy (b_transients A (d_base A FT FA e)) (V1 (mean_of A t))), h. split; [|exact G].
    unfold dual_estimated. rewrite C. cbn [bind]. fold b. now rewrite (make_copy_ok _ _ _ _ _ E).
Qed.
Print Assumptions C58_fills_updatable.

(** ... which is right if exactly these were selected, in that order. *)
Theorem C58_right_selection : forall A FT FA (KT : filter A FT) (KA : filter A FA) e t a ms,
  well_formed_tree (b_asoh A (d_base A FT FA e)) -> unbatched (b_asoh A (d_base A FT FA e)) ->
  converted_states A FT FA KT KA e = Ok (t, a) ->
  Forall2 (holds (b_asoh A (d_base A FT FA e))) (asoh_inputs A (d_asoh A FT FA e)) ms ->
  asoh_inputs A (d_asoh A FT FA e) = updatable_names (b_asoh A (d_base A FT FA e)) ->
  asoh_inputs A (d_asoh A FT FA e) <> [] ->
  List.length (mean_of A a) = list_sum (map acols ms) ->
  exists tr h, dual_estimated A FT FA KT KA e = Ok (tr, h) /\
    get_parameters h (asoh_inputs A (d_asoh A FT FA e)) = Ok (row A (mean_of A a)).
Proof. intros A FT FA KT KA e t a ms W U C Hm E NE L. rewrite E in *. now apply (C58_fills_updatable _ _ _ _ _ _ t a ms). Qed.
Print Assumptions C58_right_selection.

(** If the estimated vector has another length than all updatable parameters
    together, as for every proper part of them, neither the estimate nor a step can
    be computed and both filters stay where they are. *)
Theorem C58_partial_selection_raises : forall A z FT FA (KT : filter A FT) (KA : filter A FA) e t a ms,
  well_formed_tree (b_asoh A (d_base A FT FA e)) -> unbatched (b_asoh A (d_base A FT FA e)) ->
  converted_states A FT FA KT KA e = Ok (t, a) ->
  Forall2 (holds (b_asoh A (d_base A FT FA e))) (updatable_names (b_asoh A (d_base A FT FA e))) ms ->
  List.length (mean_of A a) <> list_sum (map acols ms) ->
  dual_estimated A FT FA KT KA e = Err ValueError /\
  forall u y, exists x, dual_step A z FT FA KT KA e u y = (e, Err x).
Proof.
  intros A z FT FA KT KA e t a ms W U C Hm L. set (b := b_asoh A (d_base A FT FA e)) in *.
  assert (D : dual_estimated A FT FA KT KA e = Err ValueError).
  { unfold dual_estimated. rewrite C. cbn [bind]. fold b. unfold hv_make_copy.
    destruct (C12_exact_conditions A b (V1 (mean_of A a)) (updatable_names b) ms) as [H1 H2]; auto using wf_v1.
    - now apply (C06_listing_exact A b true).
    - destruct (update_parameters b (V1 (mean_of A a)) (updatable_names b)) as [h [[]|x]] eqn:E; cbn [snd] in *.
      + exfalso. destruct (proj1 H1 eq_refl) as [_ EQ]. apply L. cbn in EQ. rewrite EQ. f_equal.
        clear - Hm U W. induction Hm as [|nm m l ms' Hx Hl IH]; cbn; [reflexivity|]. f_equal; auto.
        destruct Hx as (r & k & -> & P). pose proof (U _ _ _ P) as R1. cbn in R1. rewrite R1. lia.
      + cbn [bind]. f_equal. now apply H2. }
  split; [exact D|]. intros u y. unfold dual_step. rewrite D.
  destruct (convert_vals_model_to_filter A u None); cbn [bind]; eauto.
  destruct (convert_vals_model_to_filter A y None); cbn [bind]; eauto.
Qed.
Print Assumptions C58_partial_selection_raises.

(** * C59 *)


(** The transient half of a step does not depend on how the health filter steps:
    with any other health filter that holds the same hidden state, the transient
    filter and its prediction come out the same. *)
Theorem C59_transient_half : forall A z FT FA FB (KT : filter A FT) (KA : filter A FA) (KB : filter A FB)
    b wc wd ft fa fb inputs measurements,
  f_hidden A FA KA fa = f_hidden A FB KB fb ->
  let r1 := dual_step A z FT FA KT KA (Dual A FT FA b wc wd ft fa) inputs measurements in
  let r2 := dual_step A z FT FB KT KB (Dual A FT FB b wc wd ft fb) inputs measurements in
  d_tfilter A FT FA (fst r1) = d_tfilter A FT FB (fst r2) /\
  d_cell A FT FA (fst r1) = d_cell A FT FB (fst r2) /\
  (forall h1 p1 h2 p2, snd r1 = Ok (h1, p1) -> snd r2 = Ok (h2, p2) -> p1 = p2).
Proof.
  intros A z FT FA FB KT KA KB b wc wd ft fa fb u y H. cbn zeta. unfold dual_step, dual_estimated, converted_states.
  cbn [d_base d_cell d_asoh d_tfilter d_afilter]. rewrite H.
  destruct (let! u0 := _ in _) as [[[u' y'] [t a]]|x]; [|cbn; repeat split; discriminate].
  destruct (let! ut := _ in _) as [[ut yt]|x]; [|cbn; repeat split; discriminate].
  destruct (f_step A FT KT (with_asoh A wc a) ft ut yt) as [[a' ft'] rt].
  destruct (let! ht := _ in _) as [[[[ht pt] ua] ya]|x]; [|cbn; repeat split; discriminate].
  destruct (f_step A FA KA _ fa ua ya) as [[a1 fa'] ra].
  destruct (f_step A FB KB _ fb ua ya) as [[a2 fb'] rb]. cbn [fst snd d_tfilter d_cell].
  split; [reflexivity|]. split; [reflexivity|]. intros h1 p1 h2 p2.
  destruct ra as [[h1' p1']|]; [|discriminate]. destruct rb as [[h2' p2']|]; [|discriminate]. cbn [bind].
  cbn [with_asoh with_transients hidden_conversion output_conversion].
  destruct (convert A (hidden_conversion A wc) false ht) as [ct|]; [|discriminate]. cbn [bind].
  destruct (convert A (hidden_conversion A wd) false h1') as [c1|]; [|discriminate].
  destruct (convert A (hidden_conversion A wd) false h2') as [c2|]; [|discriminate]. cbn [bind].
  destruct (convert A (output_conversion A wc) false pt) as [cp|]; [|discriminate]. cbn [bind].
  destruct (convert A (output_conversion A wd) false p1') as [q1|]; [|discriminate].
  destruct (convert A (output_conversion A wd) false p2') as [q2|]; [|discriminate]. cbn [bind].
  destruct (combine_items A z ct [IDist A c1]); [|discriminate].
  destruct (combine_items A z ct [IDist A c2]); [|discriminate]. cbn [bind]. congruence.
Qed.
Print Assumptions C59_transient_half.

(** The health half does not depend on how the transient filter steps, as long as
    it does not raise. *)
Theorem C59_health_half : forall A z FT FU FA (KT : filter A FT) (KU : filter A FU) (KA : filter A FA)
    b wc wd ft fu fa inputs measurements e1 e2 r1 r2,
  f_hidden A FT KT ft = f_hidden A FU KU fu ->
  dual_step A z FT FA KT KA (Dual A FT FA b wc wd ft fa) inputs measurements = (e1, Ok r1) ->
  dual_step A z FU FA KU KA (Dual A FU FA b wc wd fu fa) inputs measurements = (e2, Ok r2) ->
  d_afilter A FT FA e1 = d_afilter A FU FA e2 /\ d_asoh A FT FA e1 = d_asoh A FU FA e2.
Proof.
  intros A z FT FU FA KT KU KA b wc wd ft fu fa u y e1 e2 r1 r2 H. unfold dual_step, dual_estimated, converted_states.
  cbn [d_base d_cell d_asoh d_tfilter d_afilter]. rewrite H.
  destruct (let! u0 := _ in _) as [[[u' y'] [t a]]|x]; [|discriminate].
  destruct (let! ut := _ in _) as [[ut yt]|x]; [|discriminate].
  destruct (f_step A FT KT (with_asoh A wc a) ft ut yt) as [[a1 ft'] rt].
  destruct (f_step A FU KU (with_asoh A wc a) fu ut yt) as [[a2 fu'] ru].
  destruct rt as [[ht pt]|]; [|discriminate]. destruct ru as [[hu pu]|]; [|discriminate]. cbn [bind].
  destruct (convert A (control_conversion A _) true u') as [ua|]; [|discriminate]. cbn [bind].
  destruct (convert A (output_conversion A _) true y') as [ya|]; [|discriminate]. cbn [bind].
  destruct (f_step A FA KA _ fa ua ya) as [[a3 fa'] ra].
  intros [= <- _] [= <- _]. split; reflexivity.
Qed.
Print Assumptions C59_health_half.

(** What the two wrappers are given before a step: the estimates from before the
    step. *)
Theorem C59_previous_posteriors : forall A z FT FA (KT : filter A FT) (KA : filter A FA) e inputs measurements e' r t a,
  keeps_health A KT -> well_formed_tree a ->
  dual_estimated A FT FA KT KA e = Ok (t, a) ->
  dual_step A z FT FA KT KA e inputs measurements = (e', Ok r) ->
  w_transients A (d_asoh A FT FA e') = t /\
  (forall nm m, holds (w_asoh A (d_cell A FT FA e')) nm m <-> holds a nm m).
Proof.
  intros A z FT FA KT KA e u y e' r t a KH W D. unfold dual_step. rewrite D.
  destruct (convert_vals_model_to_filter A u None) as [u'|]; [|discriminate]. cbn [bind].
  destruct (convert_vals_model_to_filter A y None) as [y'|]; [|discriminate]. cbn [bind].
  destruct (let! ut := _ in _) as [[ut yt]|x]; [|discriminate].
  specialize (KH (with_asoh A (d_cell A FT FA e) a) (d_tfilter A FT FA e) ut yt).
  destruct (f_step A FT KT _ _ ut yt) as [[a1 ft'] rt]. cbn [fst] in KH.
  destruct (let! ht := _ in _) as [[[[ht pt] ua] ya]|x]; [|discriminate].
  destruct (f_step A FA KA _ _ ua ya) as [[a2 fa'] ra].
  intros [= <- _]. cbn. split; [reflexivity|]. intros nm m. now apply (keeps_holds A a).
Qed.
Print Assumptions C59_previous_posteriors.

(** * C60 *)

(** Noise given for one part only has no effect; noise for both parts, or for the
    joint state, is converted to filter coordinates. *)
Theorem C60_one_sided_noise_dropped : forall A z (w : wrapper A) cov unc q s,
  joint_ukf_setup A z w cov unc None (Some q) None s = joint_ukf_setup A z w cov unc None None None s /\
  joint_ukf_setup A z w cov unc None None (Some q) s = joint_ukf_setup A z w cov unc None None None s /\
  (forall h c p r, joint_ukf_setup A z w cov unc None None None s = Ok (h, c, p, r) -> p = None).
Proof.
  intros A z w cov unc q s. split; [reflexivity|]. split; [reflexivity|]. intros h c p r.
  unfold joint_ukf_setup. intros E.
  repeat match type of E with
  | bind ?x _ = Ok _ => let X := fresh in destruct x eqn:X; [cbn [bind] in E|discriminate]
  end.
  injection E as <- <- <- <-. match goal with H : noise_to_filter _ _ _ None = Ok ?o |- _ => cbn in H; congruence end.
Qed.
Print Assumptions C60_one_sided_noise_dropped.

Lemma block_matrix A z (L : list (arr A)) : squares A L -> as_matrix A (block_diag A z L) = B A z L.
Proof.
  intros Q. unfold as_matrix, block_diag. cbn [nshape ndata]. fold (W A L). rewrite W_rows by auto.
  unfold B. f_equal. rewrite <- (block_rows_length A z L 0 (W A L) Q) at 1. apply rows_of_concat.
  now apply block_rows_width.
Qed.

Theorem C60_noise_used : forall A z (w : wrapper A) cov unc jn tn an s h c p r,
  joint_ukf_setup A z w cov unc jn tn an s = Ok (h, c, p, r) ->
  match jn, tn, an with
  | Some q, _, _ => exists q', op_inverse_covariance A (hidden_conversion A w) q (repeat z (anrows q)) = Ok q' /\ p = Some q'
  | None, Some qt, Some qa =>
    wf_arr qt -> wf_arr qa -> acols qt = anrows qt -> acols qa = anrows qa ->
    exists q q', op_inverse_covariance A (hidden_conversion A w) q (repeat z (anrows q)) = Ok q' /\ p = Some q' /\
      acols q = acols qt + acols qa /\ anrows q = acols qt + acols qa /\
      forall i j,
        (i < acols qt -> j < acols qt -> at_ z q i j = at_ z qt i j) /\
        (i < acols qa -> j < acols qa -> at_ z q (acols qt + i) (acols qt + j) = at_ z qa i j) /\
        (i < acols qt -> j < acols qa -> at_ z q i (acols qt + j) = z /\ at_ z q (acols qt + j) i = z)
  | None, _, _ => p = None
  end.
Proof.
  intros A z w cov unc jn tn an s h c p r. unfold joint_ukf_setup. intros E.
  repeat match type of E with
  | bind ?x _ = Ok _ => let X := fresh in destruct x eqn:X; [cbn [bind] in E|discriminate]
  end.
  injection E as <- <- <- <-.
  match goal with H : noise_to_filter _ _ (op_inverse_covariance A (hidden_conversion A w)) _ = Ok ?o |- _ => rename H into N; set (p := o) in * end.
  assert (forall q, noise_to_filter A z (op_inverse_covariance A (hidden_conversion A w)) (Some q) = Ok p ->
    exists q', op_inverse_covariance A (hidden_conversion A w) q (repeat z (anrows q)) = Ok q' /\ p = Some q') as P.
  { intros q. cbn. destruct (op_inverse_covariance A _ q _) as [q'|]; cbn; [|discriminate]. intros [= <-]. eauto. }
  destruct jn as [q|]; [now apply P|].
  destruct tn as [qt|]; [|cbn in N; congruence]. destruct an as [qa|]; [|cbn in N; congruence].
  intros Wt Wa St Sa. apply P in N as (q' & E1 & E2).
  assert (Q : squares A [qt; qa]).
  { repeat constructor; auto; unfold wf_arr in *; auto. }
  unfold as_arr in E1. rewrite block_matrix in E1 by exact Q.
  exists (B A z [qt; qa]), q'. split; [exact E1|]. split; [exact E2|].
  destruct (B_square A z _ Q) as (C1 & C2 & _).
  assert (EW : W A [qt; qa] = acols qt + acols qa) by (unfold W; cbn; lia).
  rewrite EW in C1, C2. split; [exact C1|]. split; [exact C2|]. intros i j.
  pose proof (B_blocks A z [qt; qa] 0 0 qt qt i j Q eq_refl eq_refl) as B00.
  pose proof (B_blocks A z [qt; qa] 1 1 qa qa i j Q eq_refl eq_refl) as B11.
  pose proof (B_blocks A z [qt; qa] 0 1 qt qa i j Q eq_refl eq_refl) as B01.
  pose proof (B_blocks A z [qt; qa] 1 0 qa qt j i Q eq_refl eq_refl) as B10.
  assert (W1 : W A [qt] = acols qt) by (unfold W; cbn; lia). assert (W0 : W A [] = 0) by reflexivity.
  cbn [firstn Nat.eqb] in *. rewrite W0, ?W1 in *. split; [|split]; auto.
Qed.
Print Assumptions C60_noise_used.

(** * C62 *)

(** The state of a joint estimator has one name per value: those of the transient
    state, then those of the selected parameters. *)
Theorem C62_dimensions_and_names : forall A F (w : wrapper A) (f : F) e,
  ready A w -> only_reads A (cell_of A w) -> joint_estimator A F w f = Ok e ->
  exists ts hs, all_names (w_transients A w) = Ok ts /\ hv_expand_names (w_asoh A w) (asoh_inputs A w) = Ok hs /\
    state_names A (j_base A F e) = Ok (ts ++ hs) /\
    List.length ts = num_transients A w /\ List.length hs = num_asoh A w /\
    num_state_dimensions A (j_base A F e) = Ok (num_hidden_dimensions A w).
Proof.
  intros A F w f e Rd [_ RO] E. unfold joint_estimator, base_estimator in E.
  specialize (RO (w_inputs A w) (w_transients A w) (w_asoh A w)).
  destruct (cm_voltage (cell_of A w) (w_inputs A w) (w_transients A w) (w_asoh A w)) as [a' r]. cbn [fst] in RO.
  destruct r as [y|]; [|discriminate]. cbn [bind] in E.
  destruct (batch_size (w_transients A w)) as [bt|]; [|discriminate]. cbn [bind] in E.
  destruct (negb (Nat.eqb bt 1)); [discriminate|].
  destruct (hv_batch_size a') as [ba|]; [|discriminate]. cbn [bind] in E.
  destruct (negb (Nat.eqb ba 1)); [discriminate|]. cbn [bind] in E. injection E as <-.
  destruct Rd as [W U ND FL [WT NT] WD (ms & Hm & Em)].
  exists (names_present (w_transients A w)).
  assert (E1 : all_names (w_transients A w) = Ok (names_present (w_transients A w))) by (apply all_names_eq; apply WT).
  pose proof (C14_expanded_names A (w_asoh A w) _ _ W Hm) as E2.
  assert (Hm' : Forall2 (holds a') (asoh_inputs A w) ms).
  { clear - Hm W RO. induction Hm; constructor; auto. now apply (keeps_holds A (w_asoh A w)). }
  pose proof (C14_expanded_names A a' _ _ (proj1 RO W) Hm') as E3. rewrite <- E2 in E3.
  eexists. split; [exact E1|]. split; [exact E2|]. rewrite E2 in E3.
  unfold num_state_dimensions, state_names. cbn [j_base b_transients b_asoh b_names]. rewrite E1, E3. cbn [bind].
  split; [reflexivity|].
  assert (L1 : List.length (names_present (w_transients A w)) = num_transients A w).
  { rewrite names_present_length. symmetry. exact WD. }
  split; [exact L1|].
  match goal with |- List.length ?l = _ /\ _ => assert (List.length l = num_asoh A w) as L2 end.
  { rewrite Em. clear - Hm. induction Hm as [|x m l ms' _ _ IH]; [reflexivity|].
    cbn [combine map List.concat]. rewrite app_length, IH. cbn [map fst snd].
    change (list_sum (acols m :: map acols ms')) with (acols m + list_sum (map acols ms')). f_equal.
    destruct (Nat.eqb_spec (acols m) 1) as [->|]; [reflexivity|]. now rewrite map_length, seq_length. }
  split; [exact L2|]. now rewrite app_length, L1, L2.
Qed.
Print Assumptions C62_dimensions_and_names.

(** Likewise for a dual estimator: the names of the transient state that one filter estimates,
    then those of the parameters that the other one estimates. *)
Theorem C62_dual_names : forall A FT FA (wc wd : wrapper A) (ft : FT) (fa : FA) e,
  ready A wc -> ready A wd -> only_reads A (cell_of A wc) -> dual_estimator A FT FA wc wd ft fa = Ok e ->
  exists ts hs, all_names (w_transients A wc) = Ok ts /\ hv_expand_names (w_asoh A wd) (asoh_inputs A wd) = Ok hs /\
    state_names A (d_base A FT FA e) = Ok (ts ++ hs) /\
    List.length ts = num_transients A wc /\ List.length hs = num_asoh A wd /\
    num_state_dimensions A (d_base A FT FA e) = Ok (num_transients A wc + num_asoh A wd).
Proof.
  intros A FT FA wc wd ft fa e [_ _ _ _ [WT NT] WD _] [W U ND FL _ _ (ms & Hm & Em)] [_ RO] E. unfold dual_estimator, base_estimator in E.
  specialize (RO (w_inputs A wc) (w_transients A wc) (w_asoh A wd)).
  destruct (cm_voltage (cell_of A wc) (w_inputs A wc) (w_transients A wc) (w_asoh A wd)) as [a' r]. cbn [fst] in RO.
  destruct r as [y|]; [|discriminate]. cbn [bind] in E.
  destruct (batch_size (w_transients A wc)) as [bt|]; [|discriminate]. cbn [bind] in E.
  destruct (negb (Nat.eqb bt 1)); [discriminate|].
  destruct (hv_batch_size a') as [ba|]; [|discriminate]. cbn [bind] in E.
  destruct (negb (Nat.eqb ba 1)); [discriminate|]. cbn [bind] in E. injection E as <-.
  exists (names_present (w_transients A wc)).
  assert (E1 : all_names (w_transients A wc) = Ok (names_present (w_transients A wc))) by (apply all_names_eq; apply WT).
  pose proof (C14_expanded_names A (w_asoh A wd) _ _ W Hm) as E2.
  assert (Hm' : Forall2 (holds a') (asoh_inputs A wd) ms).
  { clear - Hm W RO. induction Hm; constructor; auto. now apply (keeps_holds A (w_asoh A wd)). }
  pose proof (C14_expanded_names A a' _ _ (proj1 RO W) Hm') as E3. rewrite <- E2 in E3.
  eexists. split; [exact E1|]. split; [exact E2|]. rewrite E2 in E3.
  unfold num_state_dimensions, state_names. cbn [d_base b_transients b_asoh b_names]. rewrite E1, E3. cbn [bind].
  split; [reflexivity|].
  assert (L1 : List.length (names_present (w_transients A wc)) = num_transients A wc).
  { rewrite names_present_length. symmetry. exact WD. }
  split; [exact L1|].
  match goal with |- List.length ?l = _ /\ _ => assert (List.length l = num_asoh A wd) as L2 end.
  { rewrite Em. clear - Hm. induction Hm as [|x m l ms' _ _ IH]; [reflexivity|].
    cbn [combine map List.concat]. rewrite app_length, IH. cbn [map fst snd].
    change (list_sum (acols m :: map acols ms')) with (acols m + list_sum (map acols ms')). f_equal.
    destruct (Nat.eqb_spec (acols m) 1) as [->|]; [reflexivity|]. now rewrite map_length, seq_length. }
  split; [exact L2|]. now rewrite app_length, L1, L2.
Qed.
Print Assumptions C62_dual_names.

(** Batched initial values are refused, by the wrappers as well as by the
    estimators. *)
Theorem C62_batches_refused : forall A M (a : hv A) t u names ba bt y,
  snd (cm_voltage M u t a) = Ok y -> hv_batch_size (fst (cm_voltage M u t a)) = Ok ba -> batch_size t = Ok bt ->
  (base_estimator A M a t u names = Err AssertionError <-> ba <> 1 \/ bt <> 1) /\
  (hv_batch_size a = Ok ba -> is_ok (to_numpy y) -> (base_init A M a t u = Err ValueError <-> 1 < ba \/ 1 < bt)).
Proof.
  intros A M a t u names ba bt y Ev Eb Et. unfold base_estimator, base_init.
  destruct (cm_voltage M u t a) as [a' r]. cbn [fst snd] in *. subst r. rewrite Et. cbn [bind]. rewrite Eb. cbn [bind]. split.
  - destruct (Nat.eqb_spec bt 1); cbn [negb]; [|tauto]. destruct (Nat.eqb_spec ba 1); cbn [negb]; [|tauto].
    split; [discriminate|lia].
  - intros -> [ym ->]. cbn [bind]. destruct (Nat.ltb_spec 1 ba); [tauto|]. destruct (Nat.ltb_spec 1 bt); [tauto|].
    split; [discriminate|lia].
Qed.
Print Assumptions C62_batches_refused.

Lemma get_parameters_wf A (h : hv A) names v : well_formed_tree h -> unbatched h ->
  incl names (hv_all_names h) -> get_parameters h names = Ok v -> wf_arr v /\ anrows v = 1.
Proof.
  intros W U I G. pose proof (unbatched_size A h W U) as B.
  destruct (get_parameters_shape h 1 names W (unbatched_ge1 h U) I B) as (m & G' & Rm & _).
  rewrite G in G'. injection G' as <-. split; [|exact Rm].
  destruct names as [|n ns].
  - cbn in G. rewrite B in G. injection G as <-. repeat constructor.
  - rewrite (get_parameters_listed h 1) in G by (auto; congruence).
    eapply wf_hconcat; [|exact G]. apply Forall_forall. intros x Hx.
    apply in_map_iff in Hx as (k & <- & Hx). unfold expand_batch.
    destruct (all_names_entry h k W (I k Hx)) as [_ Wn].
    destruct (_ && _)%bool; [now apply wf_repeat|exact Wn].
Qed.

(** * C90 *)

(** Right after construction, the estimated state is the initial state. *)
Theorem C90_joint_starts_at_initial_values : forall A z F (K : filter A F) (w : wrapper A) f e cov unc jn tn an s h c p r,
  ready A w -> lossless A (num_hidden_dimensions A w) (hidden_conversion A w) ->
  (forall k g, has_field (w_transients A w) k g -> anrows g = 1) ->
  joint_ukf_setup A z w cov unc jn tn an s = Ok (h, c, p, r) ->
  f_hidden A F K f = h -> joint_estimator A F w f = Ok e ->
  joint_estimated A F K e = Ok (w_transients A w, w_asoh A w).
Proof.
  intros A z F K w f e cov unc jn tn an s h c p r Rd LL Ut E Hf Ee.
  assert (exists b, e = Joint A F b w f) as [b ->].
  { unfold joint_estimator in Ee. destruct (base_estimator _ _ _ _ _ _); [|discriminate]. injection Ee as <-. eauto. }
  unfold joint_ukf_setup in E.
  destruct (convert_vals_model_to_filter A (w_inputs A w) unc) as [c0|]; [|discriminate]. cbn [bind] in E.
  destruct (to_numpy (w_transients A w)) as [tm|] eqn:Et; [|discriminate]. cbn [bind] in E.
  destruct (get_parameters (w_asoh A w) (asoh_inputs A w)) as [am|] eqn:Ea; [|discriminate]. cbn [bind] in E.
  destruct (new_gaussian A _ _) as [d|] eqn:Ed in E; [|discriminate]. cbn [bind] in E.
  destruct (convert A (hidden_conversion A w) true (RGauss A d)) as [hh|] eqn:Ec; [|discriminate]. cbn [bind] in E.
  assert (hh = h) as ->.
  { destruct (convert A (control_conversion A w) true c0); [|discriminate]. cbn [bind] in E.
    destruct (noise_to_filter A z (op_inverse_covariance A (hidden_conversion A w)) _); [|discriminate]. cbn [bind] in E.
    destruct (noise_to_filter A z (op_inverse_covariance A (output_conversion A w)) s); [|discriminate]. cbn [bind] in E. congruence. }
  clear E. apply new_gaussian_of_list in Ed. apply convert_mean in Ec. cbn in Ec. rewrite Ed in Ec. clear Ed.
  destruct Rd as [W U ND FL [WT NT] WD (ms & Hm & Em)].
  assert (I : incl (asoh_inputs A w) (hv_all_names (w_asoh A w))) by (now apply (holds_map _ _ ms)).
  destruct (C01_encode_rows A (w_transients A w) 1) as (tm' & Et' & Wtm & Rtm & Ctm & _); auto.
  { intros k g H. rewrite (Ut k g H). lia. }
  { split; [intros k g H; left; eauto|auto]. }
  rewrite Et in Et'. injection Et' as <-. rewrite <- WD in Ctm.
  destruct (get_parameters_shape (w_asoh A w) 1 (asoh_inputs A w)) as (am' & Ea' & Ram & Cam); auto.
  { now apply unbatched_ge1. }
  { now apply unbatched_size. }
  rewrite Ea in Ea'. injection Ea' as <-.
  assert (Cam' : acols am = num_asoh A w).
  { rewrite Cam, Em. destruct (holds_map _ _ _ W Hm) as [_ <-]. now rewrite map_map. }
  assert (Wam : wf_arr am) by (now apply (get_parameters_wf A (w_asoh A w) (asoh_inputs A w))).
  set (m := List.concat (arows tm) ++ List.concat (arows am)) in *.
  assert (Em' : row A m = hcat2 tm am).
  { unfold m, row. destruct tm as [ct [|rt [|? ?]]]; cbn in Rtm; try discriminate.
    destruct am as [ca [|ra [|? ?]]]; cbn in Ram; try discriminate. unfold wf_arr in *. cbn in *. rewrite !app_nil_r.
    apply Forall_inv in Wtm, Wam. cbn in *. unfold hcat2. cbn. rewrite app_length. congruence. }
  assert (Bm : batch_of A (num_hidden_dimensions A w) (row A m)).
  { apply batch_row. change (acols (row A m) = num_hidden_dimensions A w). rewrite Em'. cbn. unfold num_hidden_dimensions. lia. }
  destruct (proj2 LL (row A m) Bm) as (x & Ex & Bx & Rx & Es).
  destruct (on_vector_row A _ _ _ _ _ Ex Bx Rx Ec) as [-> _].
  unfold joint_estimated, joint_state. cbn [j_filter j_wrapper]. rewrite Hf. fold (row A (mean_of A h)).
  unfold create_cell_model_inputs. rewrite Es. cbn [bind]. rewrite Em'.
  assert (slice_cols 0 (num_transients A w) (hcat2 tm am) = tm) as ->.
  { rewrite <- Ctm, slice_0_take.
    apply take_hcat2; congruence. }
  assert (slice_cols (num_transients A w) (acols (hcat2 tm am)) (hcat2 tm am) = am) as ->.
  { rewrite slice_rest by (now apply wf_hcat2). rewrite <- Ctm. apply drop_hcat2; congruence. }
  rewrite (make_copy_ok A (w_asoh A w) (V2 am) (asoh_inputs A w) (w_asoh A w)).
  - cbn [bind]. do 2 f_equal. destruct (C01_decode_after_encode_unbatched A _ WT NT Ut) as (v' & E1 & E2). congruence.
  - now apply C10_read_then_update.
Qed.
Print Assumptions C90_joint_starts_at_initial_values.

(** The same for a dual estimator that estimates exactly the updatable parameters. *)
Theorem C90_dual_starts_at_initial_values : forall A z FT FA (KT : filter A FT) (KA : filter A FA) (e : dual A FT FA)
    ct ca ht0 ha0 unc ctl n1 n2 s1 s2 ht ha c1 c2 p1 p2 r1 r2,
  let a := b_asoh A (d_base A FT FA e) in
  let t := b_transients A (d_base A FT FA e) in
  let wc := d_cell A FT FA e in let wd := d_asoh A FT FA e in
  well_formed_tree a -> unbatched a -> well_formed t -> nonempty t ->
  (forall k g, has_field t k g -> anrows g = 1) ->
  w_transients A wc = t -> w_asoh A wd = a -> asoh_inputs A wd = updatable_names a ->
  lossless A (width t) (hidden_conversion A wc) ->
  lossless A (num_updatable a) (hidden_conversion A wd) ->
  dual_hidden_transient A wc ct = Ok ht0 -> dual_hidden_asoh A wd ca = Ok ha0 ->
  convert_vals_model_to_filter A (w_inputs A wc) unc = Ok ctl ->
  dual_ukf_setup A z wc ctl ht0 n1 s1 = Ok (ht, c1, p1, r1) ->
  dual_ukf_setup A z wd ctl ha0 n2 s2 = Ok (ha, c2, p2, r2) ->
  f_hidden A FT KT (d_tfilter A FT FA e) = ht -> f_hidden A FA KA (d_afilter A FT FA e) = ha ->
  is_ok (converted_states A FT FA KT KA e) ->
  dual_estimated A FT FA KT KA e = Ok (t, a).
Proof.
  intros A z FT FA KT KA e ct ca ht0 ha0 unc ctl n1 n2 s1 s2 ht ha c1 c2 p1 p2 r1 r2 a t wc wd.
  intros W U WT NT Ut Ewt Ewa En Lt La E1 E2 _ S1 S2 F1 F2 [[xt xa] Cv].
  assert (forall w ctl h0 n s h c p r, dual_ukf_setup A z w ctl h0 n s = Ok (h, c, p, r) ->
    convert A (hidden_conversion A w) true h0 = Ok h) as SS.
  { clear. intros w ctl h0 n s h c p r E. unfold dual_ukf_setup in E.
    destruct (convert A (hidden_conversion A w) true h0); [|discriminate]. cbn [bind] in E.
    destruct (convert A (control_conversion A w) true ctl); [|discriminate]. cbn [bind] in E.
    destruct (noise_to_filter A z (op_inverse_covariance A (hidden_conversion A w)) n); [|discriminate]. cbn [bind] in E.
    destruct (noise_to_filter A z (op_inverse_covariance A (output_conversion A w)) s); [|discriminate]. cbn [bind] in E. congruence. }
  apply SS in S1, S2. clear SS. apply convert_mean in S1, S2. cbn in S1, S2.
  unfold converted_states in Cv. fold wc wd in Cv. rewrite F1, F2 in Cv.
  destruct (convert A (hidden_conversion A wc) false ht) as [yt|] eqn:C1; [|discriminate]. cbn [bind] in Cv.
  destruct (convert A (hidden_conversion A wd) false ha) as [ya|] eqn:C2; [|discriminate]. cbn [bind] in Cv.
  injection Cv as -> ->.
  (* the transient half *)
  assert (M1 : mean_of A xt = mean_of A ht0 /\ make_copy t (V1 (mean_of A xt)) = t).
  { apply convert_mean in C1. cbn in C1. unfold dual_hidden_transient, convert_vals_model_to_filter in E1.
    destruct (C01_encode_rows A t 1) as (tm & Et & Wtm & Rtm & Ctm & _); auto.
    { intros k g H. rewrite (Ut k g H). lia. }
    { split; [intros k g H; left; eauto|auto]. }
    rewrite Ewt, Et in E1. cbn [bind] in E1. destruct (new_gaussian A _ _) as [d|] eqn:Ed in E1; [|discriminate].
    cbn in E1. injection E1 as <-. apply new_gaussian_of_list in Ed. cbn [mean_of] in *. rewrite Ed in *.
    destruct tm as [cm [|rm [|? ?]]]; cbn in Rtm; try discriminate. cbn [arows List.concat] in *. rewrite app_nil_r in *.
    unfold wf_arr in Wtm. cbn in Wtm, Ctm. apply Forall_inv in Wtm. cbn in Wtm.
    assert (Bm : batch_of A (width t) (row A rm)) by (apply batch_row; congruence).
    destruct (proj2 Lt _ Bm) as (x & Ex & Bx & Rx & Es).
    destruct (on_vector_row A _ _ _ _ _ Ex Bx Rx S1) as [-> _].
    destruct (on_vector_row A _ _ _ _ _ Es Bm eq_refl C1) as [Er _].
    injection Er as _ <-. split; [reflexivity|].
    destruct (C01_decode_after_encode_unbatched A _ WT NT Ut) as (v' & E3 & E4). rewrite Et in E3. injection E3 as <-.
    rewrite <- E4 at 2. unfold make_copy, from_numpy. cbn [as2d]. now rewrite <- Wtm. }
  destruct M1 as [_ M1].
  (* the health half *)
  assert (M2 : update_parameters a (V1 (mean_of A xa)) (updatable_names a) = (a, Ok tt)).
  { apply convert_mean in C2. cbn in C2. unfold dual_hidden_asoh in E2. rewrite En, Ewa in E2.
    destruct (get_parameters a (updatable_names a)) as [am|] eqn:Ea; [|discriminate]. cbn [bind] in E2.
    destruct (new_gaussian A _ _) as [d|] eqn:Ed in E2; [|discriminate]. cbn in E2. injection E2 as <-.
    apply new_gaussian_of_list in Ed. cbn [mean_of] in *. rewrite Ed in *.
    assert (I : incl (updatable_names a) (hv_all_names a)) by (intros x Hx; now apply updatable_in_all).
    destruct (get_parameters_wf A a _ _ W U I Ea) as [Wam Ram].
    destruct (C14_counts_agree A a 1 W (unbatched_ge1 a U) (unbatched_size A a W U)) as (_ & am' & _ & Eg & _ & Cam & _).
    unfold get_updatable_parameters in Eg. rewrite Ea in Eg. injection Eg as <-.
    destruct am as [cm [|rm [|? ?]]]; cbn in Ram; try discriminate. cbn [arows List.concat] in *. rewrite app_nil_r in *.
    unfold wf_arr in Wam. cbn in Wam, Cam. apply Forall_inv in Wam. cbn in Wam.
    assert (Bm : batch_of A (num_updatable a) (row A rm)) by (apply batch_row; congruence).
    destruct (proj2 La _ Bm) as (x & Ex & Bx & Rx & Es).
    destruct (on_vector_row A _ _ _ _ _ Ex Bx Rx S2) as [-> _].
    destruct (on_vector_row A _ _ _ _ _ Es Bm eq_refl C2) as [Er _].
    injection Er as _ <-.
    pose proof (C10_default_names A a _ W U Ea) as UP.
    unfold update_parameters in *. cbn [as2d] in *. now rewrite <- Wam in UP. }
  unfold dual_estimated, converted_states. fold wc wd. rewrite F1, F2, C1, C2. cbn [bind]. fold t a.
  rewrite (make_copy_ok _ _ _ _ _ M2). cbn [bind]. now rewrite M1.
Qed.
Print Assumptions C90_dual_starts_at_initial_values.

(** * Concrete cases *)

(** A filter that adds the measurement to every coordinate of its hidden state. *)
Definition adder : filter nat (list nat) :=
  Filter nat (list nat) (fun f => RDelta nat f)
    (fun w f u y =>
       let f' := map (fun x => x + first (mean_of nat y)) f in
       (w_asoh nat w, f', Ok (RDelta nat f', RDelta nat (mean_of nat y)))).
Lemma adder_returns : returns_hidden nat adder.
Proof. intros w f u y a f' h p E. cbn in E. now injection E as <- <- <- <-. Qed.
Lemma adder_keeps : keeps_health nat adder.
Proof. intros w f u y. apply keeps_refl. Qed.

Definition measured : container nat := [("y", Some (mkArr 1 [[100]]))].

Example C56_case :
  let w := toy_wrapper toy_names 3 no_degradation in
  exists e e' h p, joint_estimator nat (list nat) w [9; 8; 7; 3; 2; 1] = Ok e /\
    joint_step nat (list nat) adder e toy_inputs measured = (e', Ok (h, p)) /\
    h = RDelta nat [101; 102; 103; 107; 108; 109] /\
    joint_state nat (list nat) adder e' = RDelta nat [109; 108; 107; 103; 102; 101] /\
    returns_hidden nat adder /\ keeps_health nat adder /\ ready nat (j_wrapper nat (list nat) e).
Proof.
  cbn zeta. do 4 eexists. split; [reflexivity|]. split; [reflexivity|]. split; [reflexivity|]. split; [reflexivity|].
  split; [apply adder_returns|]. split; [apply adder_keeps|]. apply toy_ready.
Qed.

(** So the two really differ for some estimator. *)
Theorem C56_state_agrees_refuted : exists F (K : filter nat F) e e' u y h p,
  returns_hidden nat K /\ joint_step nat F K e u y = (e', Ok (h, p)) /\ h <> joint_state nat F K e'.
Proof.
  destruct C56_case as (e & e' & h & p & _ & S & -> & J & R & _).
  exists (list nat), adder, e, e', toy_inputs, measured. do 2 eexists. split; [exact R|]. split; [exact S|].
  rewrite J. discriminate.
Qed.
Print Assumptions C56_state_agrees_refuted.

(** A dual estimator for the toy cell, with the given selection of parameters. *)
Definition toy_dual (names : list string) (hidden : list nat) : res (dual nat (list nat) (list nat)) :=
  dual_estimator nat (list nat) (list nat) (toy_wrapper [] 0 no_degradation)
    (toy_wrapper names 7 no_degradation) [2; 1; 5] hidden.

Example C57_case : exists e e' h p, toy_dual (updatable_names ex) [31; 30; 21; 20; 11; 10; 7] = Ok e /\
  dual_state nat 0 _ _ adder adder e = Err AttributeError /\
  dual_step nat 0 _ _ adder adder e toy_inputs measured = (e', Ok (h, p)) /\
  h = RDelta nat [105; 101; 102; 107; 110; 111; 120; 121; 130; 131].
Proof. do 4 eexists. split; [reflexivity|]. split; [reflexivity|]. split; reflexivity. Qed.

Definition other_order : list string :=
  ["q_t"; "rc.1.base_values"; "rc.0.base_values"; "extra.a.base_values"].

(** With the same parameters selected in another order, the estimated state has
    values of different parameters exchanged. *)
Theorem C58_other_order_refuted : exists e t a1 a2,
  toy_dual other_order [31; 30; 11; 10; 21; 20; 7] = Ok e /\
  Forall (may_update ex) other_order /\ NoDup other_order /\
  hidden_to_asoh nat (d_asoh nat _ _ e) (mkArr 7 [[31; 30; 11; 10; 21; 20; 7]]) = Ok a1 /\
  get_parameters a1 ["rc.1.base_values"] = Ok (mkArr 2 [[20; 21]]) /\
  dual_estimated nat _ _ adder adder e = Ok (t, a2) /\
  get_parameters a2 ["rc.1.base_values"] = Ok (mkArr 2 [[10; 11]]).
Proof.
  do 4 eexists. split; [reflexivity|]. split; [|split].
  - apply Forall_forall. intros x Hx. apply may_update_iff; [apply wf_ex|]. cbn in *. tauto.
  - repeat constructor; cbn; intuition discriminate.
  - repeat split; reflexivity.
Qed.
Print Assumptions C58_other_order_refuted.

Example C58_case : exists e t a, toy_dual (updatable_names ex) [31; 30; 21; 20; 11; 10; 7] = Ok e /\
  converted_states nat _ _ adder adder e = Ok (t, a) /\ mean_of nat a = [7; 10; 11; 20; 21; 30; 31] /\
  well_formed_tree (b_asoh nat (d_base nat _ _ e)) /\ unbatched (b_asoh nat (d_base nat _ _ e)) /\
  asoh_inputs nat (d_asoh nat _ _ e) = updatable_names (b_asoh nat (d_base nat _ _ e)).
Proof.
  do 3 eexists. split; [reflexivity|]. split; [reflexivity|]. split; [reflexivity|].
  split; [apply wf_ex|]. split; [apply unbatched_ex|reflexivity].
Qed.

(** Only one parameter selected: no step is possible. *)
Example C58_partial_case : exists e, toy_dual ["q_t"] [7] = Ok e /\
  dual_step nat 0 _ _ adder adder e toy_inputs measured = (e, Err ValueError).
Proof. eexists. split; reflexivity. Qed.

(** A health filter that does nothing changes the health half only, in this step. *)
Definition lazy : filter nat (list nat) :=
  Filter nat (list nat) (fun f => RDelta nat f)
    (fun w f u y => (w_asoh nat w, f, Ok (RDelta nat f, RDelta nat (mean_of nat y)))).
Example C59_case : exists e e1 e2 h1 h2 p1 p2, toy_dual (updatable_names ex) [31; 30; 21; 20; 11; 10; 7] = Ok e /\
  dual_step nat 0 _ _ adder adder e toy_inputs measured = (e1, Ok (h1, p1)) /\
  dual_step nat 0 _ _ adder lazy e toy_inputs measured = (e2, Ok (h2, p2)) /\
  d_tfilter nat _ _ e1 = d_tfilter nat _ _ e2 /\ h1 <> h2.
Proof. do 7 eexists. split; [reflexivity|]. split; [reflexivity|]. split; [reflexivity|]. split; [reflexivity|discriminate]. Qed.

Definition eye (n : nat) : arr nat := mkArr n (map (fun i => map (fun j => if Nat.eqb i j then 1 else 0) (seq 0 n)) (seq 0 n)).
Example C60_case :
  let w := toy_wrapper toy_names 3 no_degradation in
  joint_ukf_setup nat 0 w (CovParts nat (eye 3) (eye 3)) None None (Some (eye 3)) None None
    = Ok (RGauss nat (Dist [7; 21; 20; 2; 1; 5] (eye 6)), RDelta nat [3], None, None) /\
  joint_ukf_setup nat 0 w (CovParts nat (eye 3) (eye 3)) None None (Some (eye 3)) (Some (eye 3)) (Some (eye 1))
    = Ok (RGauss nat (Dist [7; 21; 20; 2; 1; 5] (eye 6)), RDelta nat [3], Some (eye 6), Some (eye 1)).
Proof. split; reflexivity. Qed.

Example C62_case : exists e, joint_estimator nat (list nat) (toy_wrapper toy_names 3 no_degradation) [] = Ok e /\
  state_names nat (j_base nat _ e) =
    Ok ["q"; "v[0]"; "v[1]"; "rc.1.base_values[0]"; "rc.1.base_values[1]"; "q_t"] /\
  num_state_dimensions nat (j_base nat _ e) = Ok 6.
Proof. eexists. split; [reflexivity|]. split; reflexivity. Qed.

Example C62_dual_case : ready nat (toy_wrapper [] 0 no_degradation) /\ ready nat (toy_wrapper toy_names 3 no_degradation) /\ only_reads nat toy /\
  exists e, dual_estimator nat (list nat) (list nat) (toy_wrapper [] 0 no_degradation) (toy_wrapper toy_names 3 no_degradation) [] [] = Ok e /\
  state_names nat (d_base nat _ _ e) =
    Ok ["q"; "v[0]"; "v[1]"; "rc.1.base_values[0]"; "rc.1.base_values[1]"; "q_t"].
Proof.
  split; [|split; [apply toy_ready|split; [apply toy_reads|]]].
  - destruct (toy_ready no_degradation) as [W U _ _ T D _]. split; auto; try constructor. exists []. split; [constructor|reflexivity].
  - eexists. split; reflexivity.
Qed.

Example C62_refused_case :
  base_estimator nat toy ex [("q", Some (mkArr 1 [[1]; [2]])); ("v", Some (mkArr 2 [[1; 2]]))] toy_inputs []
    = Err AssertionError.
Proof. reflexivity. Qed.

(** Starting values, with the coordinates reversed in the filter. *)
Definition holder : filter nat (rv nat) :=
  Filter nat (rv nat) (fun f => f) (fun w f u y => (w_asoh nat w, f, Ok (f, y))).
Example C90_case :
  let w := toy_wrapper toy_names 3 no_degradation in
  exists h c p r e, joint_ukf_setup nat 0 w (CovJoint nat (eye 6)) None None None None None = Ok (h, c, p, r) /\
    joint_estimator nat (rv nat) w h = Ok e /\ f_hidden nat _ holder h = h /\
    joint_estimated nat (rv nat) holder e = Ok (toy_transients, ex).
Proof. cbn zeta. do 5 eexists. split; [reflexivity|]. split; [reflexivity|]. split; reflexivity. Qed.
Example C90_dual_case :
  let wc := toy_wrapper [] 0 no_degradation in let wd := toy_wrapper (updatable_names ex) 7 no_degradation in
  exists ctl ht0 ha0 ht ha c1 c2 p1 p2 r1 r2 e,
    convert_vals_model_to_filter nat (w_inputs nat wc) None = Ok ctl /\
    dual_hidden_transient nat wc (eye 3) = Ok ht0 /\ dual_hidden_asoh nat wd (eye 7) = Ok ha0 /\
    dual_ukf_setup nat 0 wc ctl ht0 None None = Ok (ht, c1, p1, r1) /\
    dual_ukf_setup nat 0 wd ctl ha0 None None = Ok (ha, c2, p2, r2) /\
    dual_estimator nat (rv nat) (rv nat) wc wd ht ha = Ok e /\
    is_ok (converted_states nat _ _ holder holder e) /\
    dual_estimated nat _ _ holder holder e = Ok (toy_transients, ex).
Proof.
  cbn zeta. do 12 eexists. split; [reflexivity|]. split; [reflexivity|]. split; [reflexivity|]. split; [reflexivity|]. split; [reflexivity|].
  split; [reflexivity|]. split; [eexists; reflexivity|]. reflexivity.
Qed.

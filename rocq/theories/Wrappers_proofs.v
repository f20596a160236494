From Coq Require Import String List Arith Bool Lia.
Import ListNotations.
From Verif Require Import Res Arr Arr_lemmas Container Container_proofs Spec_Container Names Health Spec_Health
  Health_lemmas Health_resolve Health_update Health_proofs Health_misc Simulator Wrappers Spec_Wrappers Properties_Container Properties_Health.

Section P.
Variable A : Type.

Lemma slice_rest b (m : arr A) : wf_arr m -> slice_cols b (acols m) m = drop_cols b m.
Proof.
  intros W. unfold slice_cols, drop_cols. f_equal; [lia|].
  apply map_ext_in. intros r I. unfold wf_arr in W. rewrite Forall_forall in W. specialize (W r I).
  apply firstn_all2. rewrite skipn_length. lia.
Qed.

(** [keeps] carries over everything that is said in terms of parameters. *)
Lemma keeps_trans a b c : keeps A a b -> keeps A b c -> keeps A a c.
Proof. intros [W1 I1] [W2 I2]. split; auto. intros uo. now rewrite I2, I1. Qed.
Lemma keeps_refl a : keeps A a a.
Proof. split; auto. Qed.

Lemma keeps_lookup a a' nm : keeps A a a' -> lookup a' nm = lookup a nm.
Proof. intros [_ I]. unfold lookup. now rewrite I. Qed.
Lemma keeps_names a a' : keeps A a a' -> hv_all_names a' = hv_all_names a /\ updatable_names a' = updatable_names a.
Proof. intros [_ I]. unfold hv_all_names, updatable_names. now rewrite !I. Qed.
Lemma keeps_batch a a' : keeps A a a' -> hv_batch_size a' = hv_batch_size a.
Proof. intros [_ I]. unfold hv_batch_size. now rewrite I. Qed.

Lemma keeps_holds a a' nm m : well_formed_tree a -> keeps A a a' -> (holds a' nm m <-> holds a nm m).
Proof.
  intros W K. rewrite !holds_lookup by (auto; now apply (proj1 K)).
  rewrite (keeps_lookup _ _ _ K). destruct (keeps_names _ _ K) as [-> _]. reflexivity.
Qed.
Lemma keeps_may_update a a' nm : well_formed_tree a -> keeps A a a' -> (may_update a' nm <-> may_update a nm).
Proof.
  intros W K. rewrite !may_update_iff by (auto; now apply (proj1 K)).
  destruct (keeps_names _ _ K) as [_ ->]. reflexivity.
Qed.
Lemma keeps_unbatched a a' : well_formed_tree a -> keeps A a a' -> unbatched a -> unbatched a'.
Proof.
  intros W K U. apply unbatched_by_listing; [now apply (proj1 K)|]. rewrite (proj2 K).
  apply Forall_forall. intros [nm v] I. apply iter_spec in I; [|now apply well_formed_distinct].
  destruct I as (r & k & _ & P & _). exact (U _ _ _ P).
Qed.

Lemma keeps_get a a' names : well_formed_tree a -> keeps A a a' -> incl names (hv_all_names a) ->
  get_parameters a' names = get_parameters a names.
Proof.
  intros W K I. pose proof (keeps_batch _ _ K) as EB. pose proof (proj1 K W) as W'.
  destruct names as [|n ns]; [cbn; now rewrite EB|].
  destruct (hv_batch_size a) as [b|e] eqn:B; [|unfold get_parameters; now rewrite EB, B].
  rewrite (get_parameters_listed a b); auto; [|discriminate].
  rewrite (get_parameters_listed a' b); auto; [|discriminate|].
  - f_equal. apply map_ext. intros x. now rewrite (keeps_lookup _ _ _ K).
  - destruct (keeps_names _ _ K) as [-> _]. exact I.
Qed.

Lemma unbatched_size (a : hv A) : well_formed_tree a -> unbatched a -> hv_batch_size a = Ok 1.
Proof.
  intros W U. apply C15_batch_size; [now apply well_formed_distinct|now apply unbatched_ge1|].
  split; [intros r k v P; left; now apply (U r k)|now left].
Qed.

Lemma ready_incl w : ready A w -> incl (asoh_inputs A w) (updatable_names (w_asoh A w)).
Proof.
  intros [W U ND F _ _ _] x Hx. rewrite Forall_forall in F. now apply may_update_iff; auto.
Qed.
Lemma updatable_incl (a : hv A) names : well_formed_tree a -> incl names (updatable_names a) -> incl names (hv_all_names a).
Proof. intros W H x Hx. apply updatable_in_all; auto. Qed.

(** * Decoding *)
Lemma decode_asoh w (v : arr A) : ready A w -> batch_of A (num_asoh A w) v ->
  exists a, snd (hv_make_copy (w_asoh A w) (V2 v) (asoh_inputs A w)) = Ok a /\
    well_formed_tree a /\
    (asoh_inputs A w <> [] -> get_parameters a (asoh_inputs A w) = Ok v) /\
    (asoh_inputs A w = [] -> a = w_asoh A w) /\
    incl (asoh_inputs A w) (hv_all_names a) /\
    (forall nm m, ~ In nm (asoh_inputs A w) -> (holds a nm m <-> holds (w_asoh A w) nm m)).
Proof.
  intros Rd (Wv & R1 & C). pose proof (ready_incl w Rd) as I. destruct Rd as [W U ND F _ _ (ms & Hm & En)].
  assert (exists a, update_parameters (w_asoh A w) (V2 v) (asoh_inputs A w) = (a, Ok tt) /\
    (asoh_inputs A w <> [] -> get_parameters a (asoh_inputs A w) = Ok v) /\
    (asoh_inputs A w = [] -> a = w_asoh A w)) as (a & E & G & N).
  { destruct (asoh_inputs A w) as [|n ns] eqn:En'.
    - exists (w_asoh A w). inversion Hm; subst. cbn in En. rewrite En in C.
      unfold update_parameters. cbn. rewrite C. repeat split; congruence.
    - destruct (C10_update_then_read A (w_asoh A w) (V2 v) (n :: ns) ms) as (a & E & G); auto; try discriminate.
      + cbn [as2d]. congruence.
      + exists a. repeat split; auto; discriminate. }
  exists a. unfold hv_make_copy. rewrite E. cbn [snd]. split; [reflexivity|].
  destruct (C11_other_parameters_kept A (w_asoh A w) (V2 v) (asoh_inputs A w)) as (W' & N1 & _ & K); auto.
  { now apply updatable_incl. }
  rewrite E in W', N1, K. cbn [fst] in W', N1, K.
  split; [exact W'|]. split; [exact G|]. split; [exact N|]. split; [|exact K].
  intros x Hx. apply N1. exact (updatable_incl _ _ W I x Hx).
Qed.

Lemma hconcat2 (x y : arr A) : anrows x = anrows y -> hconcat [x; y] = Ok (hcat2 x y).
Proof. intros E. cbn. rewrite E, Nat.eqb_refl. reflexivity. Qed.
Lemma hconcat2_err (x y : arr A) : anrows x <> anrows y -> hconcat [x; y] = Err ValueError.
Proof. intros E. cbn. apply Nat.eqb_neq in E. now rewrite E. Qed.

Lemma decode_parts w j : ready A w -> batch_of A (num_hidden_dimensions A w) j ->
  batch_of A (num_transients A w) (take_cols (num_transients A w) j) /\
  batch_of A (num_asoh A w) (drop_cols (num_transients A w) j).
Proof.
  intros Rd (Wj & R1 & C). unfold num_hidden_dimensions in C. split; split.
  - now apply wf_take.
  - rewrite anrows_take. split; auto. cbn. rewrite C. lia.
  - now apply wf_drop.
  - rewrite anrows_drop. split; auto. cbn. rewrite C. lia.
Qed.

Lemma decode_spec w x j : ready A w -> op_samples A (hidden_conversion A w) x = Ok j ->
  batch_of A (num_hidden_dimensions A w) j ->
  exists a t, create_cell_model_inputs A w x = Ok (a, t) /\
    to_numpy t = Ok (take_cols (num_transients A w) j) /\
    well_formed_tree a /\
    (asoh_inputs A w <> [] -> get_parameters a (asoh_inputs A w) = Ok (drop_cols (num_transients A w) j)) /\
    (asoh_inputs A w = [] -> a = w_asoh A w) /\
    incl (asoh_inputs A w) (hv_all_names a) /\
    t = make_copy (w_transients A w) (V2 (take_cols (num_transients A w) j)) /\
    (forall nm m, ~ In nm (asoh_inputs A w) -> (holds a nm m <-> holds (w_asoh A w) nm m)).
Proof.
  intros Rd E Bj. destruct (decode_parts w j Rd Bj) as [Bt Ba].
  destruct (decode_asoh w _ Rd Ba) as (a & Ea & Wa & G & N & I & K).
  unfold create_cell_model_inputs. rewrite E. cbn [bind].
  rewrite slice_rest by apply Bj. rewrite Ea. cbn [bind]. rewrite slice_0_take.
  eexists a, _. split; [reflexivity|].
  split; [|split; [exact Wa|split; [exact G|split; [exact N|split; [exact I|split; [reflexivity|exact K]]]]]].
  destruct Rd. apply (C01_encode_after_decode A (w_transients A w) (V2 (take_cols (num_transients A w) j))).
  - apply Bt.
  - tauto.
  - cbn [as2d]. rewrite <- ready_width. apply Bt.
Qed.

(** * Encoding *)
Lemma from_numpy_layout (c c' : container A) v : layout A c = layout A c' -> from_numpy c v = from_numpy c' v.
Proof.
  unfold from_numpy. generalize 0. revert c'. induction c as [|[k f] c IH]; intros [|[k' f'] c'] n L; cbn in L; try discriminate; [reflexivity|].
  injection L as -> F L. destruct f as [f|], f' as [f'|]; cbn in F; try discriminate; cbn.
  - injection F as ->. f_equal. now apply IH.
  - f_equal. now apply IH.
Qed.
Lemma layout_width (c c' : container A) : layout A c = layout A c' -> width c = width c'.
Proof.
  unfold width, layout. intros L. f_equal. revert c' L.
  induction c as [|[k f] c IH]; intros [|[k' f'] c'] L; cbn in L; try discriminate; [reflexivity|].
  injection L as -> F L. cbn. f_equal; [|now apply IH].
  destruct f as [f|], f' as [f'|]; cbn in F; congruence.
Qed.

(** * Assigning columns *)
Lemma assign_take (n : nat) (j s : arr A) : wf_arr j -> wf_arr s -> anrows s = anrows j ->
  acols s = Nat.min n (acols j) ->
  assign_cols A 0 n j s = Ok (hcat2 s (drop_cols n j)).
Proof.
  intros Wj Ws Rs Cs. unfold assign_cols, broadcast_to, stretch. unfold anrows in Rs.
  change (anrows j) with (List.length (arows j)).
  rewrite Rs, Nat.eqb_refl. cbn [bind]. rewrite Nat.sub_0_r, Cs, Nat.eqb_refl. cbn [bind arows].
  unfold hcat2, drop_cols. rewrite Cs. cbn [acols arows]. f_equal. f_equal; [lia|].
  destruct j as [cj rj], s as [cs rs]. cbn in *. unfold wf_arr in *. cbn in *.
  clear Cs Ws. revert rs Rs. induction Wj as [|r rj Hr Wj IH]; intros [|s rs] L; cbn in L; try discriminate; [reflexivity|].
  cbn. rewrite IH by lia. f_equal. unfold splice. cbn. f_equal.
  destruct (Nat.le_ge_cases n cj).
  - now rewrite Nat.min_l by lia.
  - rewrite Nat.min_r by lia. rewrite !skipn_all2; auto; lia.
Qed.

Lemma assign_drop (n : nat) (x y : arr A) : wf_arr x -> wf_arr y -> anrows y = anrows x ->
  forall s, anrows s = anrows x -> wf_arr s -> acols s = acols y -> acols x = n ->
  assign_cols A n (acols (hcat2 x y)) (hcat2 x y) s = Ok (hcat2 x s).
Proof.
  intros Wx Wy Ry s Rs Ws Cs Cx. unfold assign_cols. rewrite Nat.min_id.
  assert (List.length (arows (hcat2 x y)) = List.length (arows s)) as L.
  { change (anrows (hcat2 x y) = anrows s). rewrite anrows_hcat2; congruence. }
  unfold broadcast_to, stretch. change (anrows (hcat2 x y)) with (List.length (arows (hcat2 x y))).
  rewrite L, Nat.eqb_refl. cbn [bind]. cbn [acols hcat2].
  replace (acols x + acols y - n) with (acols s) by lia.
  rewrite Nat.eqb_refl. cbn [bind arows]. unfold hcat2. f_equal. rewrite Cs. f_equal.
  destruct x as [cx rx], y as [cy ry], s as [cs rs]. cbn in *. subst cx cs. unfold wf_arr, anrows in *. cbn in *.
  clear L. revert ry rs Wy Ws Ry Rs. induction Wx as [|r rx Hr Wx IH]; intros [|q ry] [|s rs] Wy Ws Ry Rs; cbn in *; try discriminate; [reflexivity|].
  inversion Wy; inversion Ws; subst. rewrite IH; auto; try lia. f_equal. unfold splice.
  rewrite firstn_app, Nat.sub_diag, firstn_all, firstn_O, app_nil_r. f_equal.
  rewrite skipn_all2; [apply app_nil_r|]. rewrite app_length. lia.
Qed.

Lemma stretch_ok {B} n (l : list B) : List.length l = 1 \/ List.length l = n -> stretch n l = Ok (match l with [x] => repeat x n | _ => l end).
Proof.
  intros H. unfold stretch. destruct (Nat.eqb_spec (List.length l) n) as [E|E].
  - destruct l as [|x [|y l]]; cbn in *; subst; reflexivity.
  - destruct H as [H|H]; [|congruence]. destruct l as [|x [|y l]]; try discriminate. reflexivity.
Qed.

Lemma broadcast_to_rows r (m : arr A) : anrows m = 1 \/ anrows m = r ->
  broadcast_to A r (acols m) m = Ok (broadcast_rows r m).
Proof.
  intros H. unfold broadcast_to. rewrite stretch_ok by exact H. cbn [bind]. rewrite Nat.eqb_refl.
  unfold broadcast_rows. destruct m as [c [|x [|y l]]]; reflexivity.
Qed.

(** The source is broadcast first. *)
Lemma assign_broadcast b e (j s : arr A) : anrows s = 1 \/ anrows s = anrows j ->
  acols s = Nat.min e (acols j) - b ->
  assign_cols A b e j s = assign_cols A b e j (broadcast_rows (anrows j) s).
Proof.
  intros H C. unfold assign_cols. rewrite <- C, broadcast_to_rows by exact H.
  pose proof (anrows_broadcast (anrows j) s H) as Rb.
  rewrite <- (acols_broadcast (anrows j) s). rewrite broadcast_to_rows by auto.
  rewrite (broadcast_same _ (broadcast_rows (anrows j) s)) by auto. reflexivity.
Qed.
End P.

(** Lemmas on offline estimation. *)
From Coq Require Import String List Arith Bool Reals Lia Lra.
Import ListNotations.
From Verif Require Import Res Arr Arr_lemmas NdArray Container Spec_Container Container_proofs Health Spec_Health
  Health_lemmas Health_resolve Health_frame Health_update Health_proofs Health_misc
  Simulator Spec_Simulator Interface Spec_Interface Interface_proofs Offline Spec_Offline.
Local Open Scope string_scope.
Local Open Scope list_scope.

(** * Blocks *)

Lemma block_single v p : anrows v = 1 -> acols v = 1 ->
  assign_block 1 1 v = Ok p <-> exists x, entry 0 0 v = Some x /\ p = [[x]].
Proof.
  intros H1 H2. unfold assign_block. rewrite H1, H2. cbn.
  destruct (entry 0 0 v) as [x|]; cbn.
  - split; [intros [= <-]; eauto|]. intros (y & [= <-] & ->). reflexivity.
  - split; [discriminate|]. intros (y & H & _). discriminate.
Qed.

Lemma block_ok v p : assign_block 1 1 v = Ok p -> anrows v = 1 /\ acols v = 1.
Proof.
  unfold assign_block. rewrite !orb_diag.
  destruct (Nat.eqb_spec (anrows v) 1), (Nat.eqb_spec (acols v) 1); cbn [andb]; intros H; try discriminate H. auto.
Qed.

Lemma single_block y p : (let! m := to_numpy y in assign_block 1 1 m) = Ok p <-> exists v, single y v /\ p = [[v]].
Proof.
  rewrite bind_ok. split.
  - intros (m & E & H). pose proof (block_ok _ _ H) as [H1 H2]. apply block_single in H as (x & Hx & ->); auto.
    exists x. split; [|reflexivity]. exists m. auto.
  - intros (v & (m & E & H1 & H2 & Hx) & ->). exists m. split; [exact E|]. apply block_single; eauto.
Qed.

Lemma block_observed B v : assign_block B 1 (mkArr 1 [[v]]) = Ok (repeat [v] B).
Proof.
  unfold assign_block. cbn [anrows arows acols List.length Nat.eqb]. rewrite orb_true_r. cbn [andb orb].
  rewrite (mapM_pure _ (fun _ => [v])) by reflexivity. f_equal.
  generalize 0. induction B as [|B IH]; intros n; cbn; [reflexivity|]. now rewrite IH.
Qed.

Lemma F2_length {X Y} (P : X -> Y -> Prop) l m : Forall2 P l m -> List.length l = List.length m.
Proof. induction 1; cbn; auto. Qed.

Lemma trajectory_length {I T H O} (M : cell_model I T H O) D a t p us st :
  trajectory M D a t p us st -> List.length st = List.length us.
Proof. induction 1; cbn; auto. Qed.

Section Proofs.
Variable is_finite : R -> bool.
Notation inputs := (row_to_inputs R is_finite).
Notation observed := (observed is_finite).

Lemma row_inputs columns row u y : inputs columns row 25%R = Ok (u, y) <->
  exists v, observed columns row (u, v) /\ y = [("terminal_voltage", scalar R v)].
Proof.
  split.
  - intros H. assert (H' := H). unfold row_to_inputs in H'.
    apply bind_ok in H' as (b & _ & H'). apply bind_ok in H' as (t & _ & H'). apply bind_ok in H' as (c & _ & H').
    apply bind_ok in H' as (k & _ & H'). apply bind_ok in H' as (v & Hv & H'). injection H' as _ <-.
    exists v. split; [|reflexivity]. split; [eexists; exact H|]. apply cell_reads. exact Hv.
  - intros (v & [[y' H] Hr] & ->). cbn [fst snd] in *. rewrite H. assert (H' := H). unfold row_to_inputs in H'.
    apply bind_ok in H' as (b & _ & H'). apply bind_ok in H' as (t & _ & H'). apply bind_ok in H' as (c & _ & H').
    apply bind_ok in H' as (k & _ & H'). apply bind_ok in H' as (w & Hw & H'). injection H' as _ <-.
    apply cell_reads in Hr. rewrite Hr in Hw. now injection Hw as ->.
Qed.

Definition pair_of (B : nat) (ov : R * R) : list (list R) * list (list R) := (repeat [fst ov] B, [[snd ov]]).

Lemma compare_iff M columns B rows : forall s l,
  compare is_finite M columns B 1 rows s = Ok l <->
  exists uos tr vs, Forall2 (observed columns) rows uos /\
    trajectory M no_degradation (asoh s) (transient s) (previous_input s) (map fst uos) tr /\
    Forall2 single (map out_of tr) vs /\ l = map (pair_of B) (combine (map snd uos) vs).
Proof.
  induction rows as [|row rows IH]; intros s l; cbn [compare].
  - split.
    + intros [= <-]. exists [], [], []. repeat split; constructor.
    + intros (uos & tr & vs & F & T & S & ->). inversion F; subst. inversion T; subst. inversion S; subst. reflexivity.
  - split.
    + intros H. apply bind_ok in H as ([u y] & Hu & H). apply row_inputs in Hu as (o & Ho & ->).
      destruct (step M no_degradation s u) as [s' r] eqn:Hs. apply bind_ok in H as ([t p] & -> & H).
      cbn [to_numpy] in H.
      change (to_numpy [("terminal_voltage", scalar R o)]) with (@Ok (arr R) (mkArr 1 [[o]])) in H. cbn [bind] in H.
      rewrite block_observed in H. cbn [bind] in H.
      assert (exists pb, (let! m := to_numpy p in assign_block 1 1 m) = Ok pb /\
        (let! l := compare is_finite M columns B 1 rows s' in Ok ((repeat [o] B, pb) :: l)) = Ok l) as (pb & Hp & Hl).
      { destruct (to_numpy p) as [m|]; cbn in *; [|discriminate]. destruct (assign_block 1 1 m) as [pb|]; cbn in *; [|discriminate].
        eauto. }
      apply single_block in Hp as (v & Sv & ->). apply bind_ok in Hl as (l' & Hl & [= <-]).
      apply IH in Hl as (uos & tr & vs & F & T & S & ->).
      unfold step in Hs. destruct (cm_update M (previous_input s) u (transient s) (asoh s)) as [a1 r1] eqn:E1.
      destruct r1 as [t1|]; [|discriminate Hs]. destruct (cm_voltage M u t1 a1) as [a2 r2] eqn:E2.
      destruct r2 as [y1|]; [|discriminate Hs]. cbn in Hs. injection Hs as <- <- <-. cbn [asoh transient previous_input] in T.
      exists ((u, o) :: uos), ((t1, a2, y1) :: tr), (v :: vs). repeat split.
      * now constructor.
      * cbn [map fst]. econstructor; eauto; reflexivity.
      * cbn. now constructor.
    + intros (uos & tr & vs & F & T & S & ->). inversion F as [|? [u o] ? uos' Ho F']; subst.
      cbn [map fst snd] in *. inversion T as [|? ? ? ? ? t1 a1 a2 a3 y1 tr' E1 E2 E3 T']; subst.
      inversion S as [|? v ? vs' Sv S']; subst. cbn [out_of snd] in Sv.
      rewrite (proj2 (row_inputs columns row u [("terminal_voltage", scalar R o)])); [|eauto]. cbn [bind].
      injection E3 as <-.
      unfold step. rewrite E1, E2. cbn [no_degradation bind].
      change (to_numpy [("terminal_voltage", scalar R o)]) with (@Ok (arr R) (mkArr 1 [[o]])). cbn [bind].
      rewrite block_observed. cbn [bind].
      assert (P := proj2 (single_block y1 [[v]]) (ex_intro _ v (conj Sv eq_refl))).
      apply bind_ok in P as (m & -> & P). cbn [bind]. rewrite P. cbn [bind].
      erewrite (proj2 (IH _ (map (pair_of B) (combine (map snd uos') vs')))); [reflexivity|]. exists uos', tr', vs'. auto.
Qed.

Lemma map_const_seq {B} (f : nat -> B) w n : forall k, (forall b, n <= b < n + k -> f b = w) -> map f (seq n k) = repeat w k.
Proof.
  intros k. revert n. induction k as [|k IH]; intros n H; cbn; [reflexivity|].
  rewrite H by lia. f_equal. apply IH. intros b L. apply H. lia.
Qed.

Lemma mean_squared_pairs B l : mean_squared B 1 (map (pair_of B) l) =
  repeat (fold_right Rplus 0 (map (fun ov => (snd ov - fst ov) ^ 2) l) / INR (List.length l))%R B.
Proof.
  unfold mean_squared. rewrite map_length, Nat.mul_1_r. apply map_const_seq. intros b [_ Hb]. f_equal.
  unfold total. f_equal. rewrite map_map. apply map_ext. intros [o v].
  unfold pair_of, number. cbn [fst snd seq map fold_right nth].
  rewrite (nth_indep _ [] [o]) by (now rewrite repeat_length). rewrite nth_repeat. cbn [nth]. lra.
Qed.

Lemma slice_prefix n (x : arr R) : slice_cols 0 n x = state_part n x.
Proof. unfold slice_cols, state_part. now rewrite !Nat.sub_0_r. Qed.

Lemma slice_suffix n (x : arr R) : wf_arr x -> slice_cols n (acols x) x = health_part n x.
Proof.
  intros W. unfold slice_cols, health_part. rewrite Nat.min_id. f_equal. apply map_ext_in. intros r Hr.
  unfold wf_arr in W. rewrite Forall_forall in W. apply firstn_all2. rewrite skipn_length, (W r Hr). lia.
Qed.

(** * The loss *)

Lemma loss_iff l x out : wf_arr x ->
  mean_squared_loss is_finite l x = Ok out <->
  exists raw first rows a uv uvs vs,
    l_data l = Some raw /\ f_rows R raw = first :: rows /\
    update_parameters (l_asoh l) (V2 (health_part (clen (l_state l)) x)) (updatable_names (l_asoh l)) = (a, Ok tt) /\
    Forall2 (observed (f_columns R raw)) (first :: rows) (uv :: uvs) /\
    predicted (l_model l) a (make_copy (l_state l) (V2 (state_part (clen (l_state l)) x))) (fst uv) (map fst uvs) vs /\
    out = repeat (mean_square_difference vs (map snd (uv :: uvs))) (anrows x).
Proof.
  intros W. unfold mean_squared_loss. rewrite slice_prefix, slice_suffix by exact W.
  set (t := make_copy _ _). set (hp := health_part _ _).
  assert (HC : forall a, snd (hv_make_copy (l_asoh l) (V2 hp) (updatable_names (l_asoh l))) = Ok a <->
    update_parameters (l_asoh l) (V2 hp) (updatable_names (l_asoh l)) = (a, Ok tt)).
  { intros a. unfold hv_make_copy. destruct (update_parameters _ _ _) as [h' [[]|e]]; cbn; split; congruence. }
  assert (MS : forall o v uos vs, List.length vs = List.length uos ->
    mean_squared (anrows x) 1 ((repeat [o] (anrows x), [[v]]) :: map (pair_of (anrows x)) (combine uos vs)) =
    repeat (mean_square_difference (v :: vs) (o :: uos)) (anrows x)).
  { intros o v uos vs L. change ((repeat [o] (anrows x), [[v]]) :: map (pair_of (anrows x)) (combine uos vs))
      with (map (pair_of (anrows x)) ((o, v) :: combine uos vs)). rewrite mean_squared_pairs. f_equal.
    unfold mean_square_difference. f_equal.
    - cbn [map fold_right fst snd combine]. f_equal. f_equal.
      revert uos L. induction vs as [|w vs IH]; intros [|p uos] L; cbn in *; try discriminate; [reflexivity|].
      f_equal. apply IH. lia.
    - cbn [List.length]. rewrite combine_length, L, Nat.min_id. reflexivity. }
  split.
  - intros H. apply bind_ok in H as (a & Ha & H). apply HC in Ha. apply bind_ok in H as (raw & Hraw & H).
    destruct (l_data l) as [raw'|]; [|discriminate Hraw]. injection Hraw as ->.
    destruct (f_rows R raw) as [|first rows] eqn:Er; [discriminate H|].
    apply bind_ok in H as ([u y] & Hu & H). apply row_inputs in Hu as (o & Ho & ->).
    apply bind_ok in H as (s & Hs & H). unfold init in Hs.
    destruct (cm_voltage (l_model l) u t a) as [a1 r1] eqn:E1. destruct r1 as [y1|]; [|discriminate Hs].
    cbn in Hs. injection Hs as <-.
    change (to_numpy [("terminal_voltage", scalar R o)]) with (@Ok (arr R) (mkArr 1 [[o]])) in H.
    change (clen [("terminal_voltage", scalar R o)]) with 1 in H. cbn [bind snd] in H.
    rewrite block_observed in H. cbn [bind] in H.
    apply bind_ok in H as (m & Hm & H). apply bind_ok in H as (pb & Hp & H).
    assert (P : (let! m := to_numpy y1 in assign_block 1 1 m) = Ok pb) by (rewrite Hm; exact Hp).
    apply single_block in P as (v & Sv & ->). apply bind_ok in H as (rest & Hc & H). injection H as <-.
    apply compare_iff in Hc as (uos & tr & vs & F & T & S & ->). cbn [asoh transient previous_input] in T.
    exists raw, first, rows, a, (u, o), uos, (v :: vs). repeat split; auto.
    + exists a1, y1, tr. split; [exact E1|split; [exact T|now constructor]].
    + apply MS. rewrite map_length. apply F2_length in S. apply trajectory_length in T. rewrite map_length in *. lia.
  - intros (raw & first & rows & a & [u o] & uvs & vs & Hd & Er & Ha & F & (a1 & y1 & tr & E1 & T & S) & ->).
    cbn [fst snd] in *. rewrite (proj2 (HC a) Ha). cbn [bind]. rewrite Hd. cbn [of_opt bind]. rewrite Er.
    inversion F as [|? ? ? ? Ho F']; subst.
    rewrite (proj2 (row_inputs _ first u [("terminal_voltage", scalar R o)])); [|eauto]. cbn [bind].
    unfold init. rewrite E1. cbn [bind snd].
    change (to_numpy [("terminal_voltage", scalar R o)]) with (@Ok (arr R) (mkArr 1 [[o]])).
    change (clen [("terminal_voltage", scalar R o)]) with 1. cbn [bind].
    rewrite block_observed. cbn [bind].
    inversion S as [|? v ? vs' Sv S']; subst.
    assert (P := proj2 (single_block y1 [[v]]) (ex_intro _ v (conj Sv eq_refl))).
    apply bind_ok in P as (m & Hm & P). rewrite Hm. cbn [bind]. rewrite P. cbn [bind].
    rewrite (proj2 (compare_iff _ _ _ _ _ (map (pair_of (anrows x)) (combine (map snd uvs) vs')))); [|exists uvs, tr, vs'; repeat split; eauto].
    cbn [bind]. f_equal. apply MS. rewrite map_length. apply F2_length in S'. apply trajectory_length in T. rewrite map_length in *. lia.
Qed.
End Proofs.

(** * Reading and decoding the guess *)

Lemma unbatched_batch (h : hv R) : well_formed_tree h -> unbatched h -> hv_batch_size h = Ok 1.
Proof.
  intros W U. apply batch_by_names; auto; intros nm H; destruct (name_place h nm W H) as (r & k & _ & P);
    apply U in P; cbn in P; rewrite ?P; auto.
Qed.

Lemma one_row_arr (m : arr R) : wf_arr m -> anrows m = 1 -> exists q, m = one_row q /\ List.length q = acols m.
Proof.
  destruct m as [c [|q [|]]]; unfold anrows; cbn; intros W E; try discriminate.
  inversion W; subst. cbn in *. exists q. subst c. auto.
Qed.

Lemma unbatched_read (h : hv R) : well_formed_tree h -> unbatched h ->
  exists q, get_updatable_parameters h = Ok (one_row q) /\ List.length q = num_updatable h.
Proof.
  intros W U. pose proof (unbatched_batch h W U) as B.
  assert (RG : rows_ge1 h). { intros r k v P. rewrite (U r k v P). lia. }
  assert (IN : incl (updatable_names h) (hv_all_names h)). { intros nm H. now apply updatable_in_all. }
  destruct (get_parameters_shape h 1 (updatable_names h) W RG IN B) as (m & G & R1 & C).
  assert (WM : wf_arr m).
  { destruct (updatable_names h) as [|n0 ns] eqn:EN.
    - cbn in G. rewrite B in G. cbn in G. injection G as <-. repeat constructor.
    - rewrite (get_parameters_listed h 1) in G by (auto; discriminate).
      eapply wf_hconcat; [|exact G]. rewrite Forall_map. apply Forall_forall. intros nm H.
      change (wf_arr (lookup h nm)). now apply all_names_entry; auto. }
  destruct (one_row_arr m WM R1) as (q & -> & L). exists q. unfold get_updatable_parameters. split; [exact G|].
  rewrite L, C, num_updatable_sum; auto.
Qed.
